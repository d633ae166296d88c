(** Model of the class Resample, src/stcal/resample/resample.py (line numbers), as a state machine: bookkeeping, time
    counters, variance accumulation, finalisation.  Drizzling is a parameter: [dadd] adds a model to the running arrays,
    [dinit] starts from the output model's arrays; what drizzle returns for a model's variance array is part of the model
    ([m_var]).  start_time and end_time are taken to be set.  Array types (float32) are not distinguished.  The error
    arrays are modelled by the functions at the end. *)
From Verif Require Import Base.

Inductive err := Finalized | MissingKey | NotImage | Unbound | NoTime | NoModels | NoTimes.
Inductive wtype := Ivm | Exptime.
Section Res.
  Variable fo : FOps.
  (** an input model dictionary.  [m_keys]: all required keys present (validate_input_model, lines 687-747); [m_dim2]: data
      is 2-D; [m_ratio]: the pixel scale ratio it would give (lines 606-621), None when its wcs is not imaging or its
      pixel area is unknown; [m_var name]: the
      drizzled and squared error for that variance array, at every output pixel, None when _check_var_array (lines
      1346-1360) refuses the array *)
  Record rmodel := { m_group : nat; m_start : fo; m_end : fo; m_exp : option fo; m_meas : option fo; m_dur : option fo;
    m_keys : bool; m_dim2 : bool; m_ratio : option fo; m_var : nat -> option (nat -> fo) }.
  Variable D : Type.
  Variable dadd : D -> rmodel -> D.
  Variable dinit : option D -> D.
  (** constructor arguments (lines 250-335) and class attributes (lines 222-248); [c_imaging]: the output wcs is imaging;
      variance names are distinct numbers, 0 is var_rnoise *)
  Record rcfg := { c_var : bool; c_wt : wtype; c_names : list nat; c_imaging : bool; c_ratio : option fo }.
  (** running sums of one variance array (lines 1047-1055) *)
  Record vinfo := { v_sum : nat -> fo; v_wt : nat -> fo; v_last : option (nat -> fo) }.
  (** the output model (lines 464-516) *)
  Record rout := { o_data : option D; o_pointings : nat; o_exp : fo; o_meas : option fo; o_start : option fo; o_end : option fo;
    o_dur : fo; o_vars : list (nat * (nat -> fo)) }.
  Record rstate := { s_fin : bool; s_n : nat; s_groups : list nat; s_ratio : option fo; s_driz : option D; s_out : rout;
    s_vars : list (nat * vinfo); s_texp : fo; s_tdur : fo; s_tmeas : fo; s_starts : list fo; s_ends : list fo; s_success : list bool }.

  Definition new_out : rout := {| o_data := None; o_pointings := 0; o_exp := fzero fo; o_meas := None; o_start := None; o_end := None; o_dur := fzero fo; o_vars := [] |}.
  (** init_variance_arrays (lines 1043-1055) *)
  Definition init_vars (c : rcfg) : list (nat * vinfo) :=
    if c_var c then map (fun n => (n, {| v_sum := fun _ => fnan fo; v_wt := fun _ => fzero fo; v_last := None |})) (c_names c) else [].
  (** reset_arrays and init_time_counters (lines 628-685, 1279-1297): group ids and the model counter are kept *)
  Definition reset (c : rcfg) (s : rstate) : rstate :=
    let out := if s_fin s then new_out else s_out s in
    {| s_fin := false; s_n := s_n s; s_groups := s_groups s; s_ratio := s_ratio s; s_driz := Some (dinit (o_data out)); s_out := out;
       s_vars := init_vars c; s_texp := fzero fo; s_tdur := fzero fo; s_tmeas := fzero fo;
       s_starts := match o_start out with None => [] | Some t => [t] end; s_ends := match o_end out with None => [] | Some t => [t] end; s_success := [] |}.
  (** __init__ (lines 266-335) *)
  Definition create (c : rcfg) : rstate :=
    {| s_fin := false; s_n := 0; s_groups := []; s_ratio := c_ratio c; s_driz := Some (dinit None); s_out := new_out;
       s_vars := init_vars c; s_texp := fzero fo; s_tdur := fzero fo; s_tmeas := fzero fo; s_starts := []; s_ends := []; s_success := [] |}.

  (** get_tmeasure (utils.py lines 343-359) *)
  Definition tmeasure (m : rmodel) : option fo * bool := match m_meas m with Some t => (Some t, true) | None => (m_exp m, false) end.
  Definition plus_opt (x : fo) (o : option fo) : fo := match o with Some y => fadd fo x y | None => x end.
  (** update_time and the test around it (lines 854-857, 1299-1329) *)
  Definition count (s : rstate) (m : rmodel) : rstate :=
    if existsb (Nat.eqb (m_group m)) (s_groups s) then s else
    let out := s_out s in let '(t, ok) := tmeasure m in
    {| s_fin := s_fin s; s_n := s_n s; s_groups := s_groups s ++ [m_group m]; s_ratio := s_ratio s; s_driz := s_driz s;
       s_out := {| o_data := o_data out; o_pointings := S (o_pointings out); o_exp := o_exp out; o_meas := o_meas out; o_start := o_start out; o_end := o_end out; o_dur := o_dur out; o_vars := o_vars out |};
       s_vars := s_vars s; s_texp := plus_opt (s_texp s) (m_exp m); s_tdur := plus_opt (s_tdur s) (m_dur m); s_tmeas := plus_opt (s_tmeas s) t;
       s_starts := s_starts s ++ [m_start m]; s_ends := s_ends s ++ [m_end m]; s_success := s_success s ++ [ok] |}.

  (** nansum of two values *)
  Definition nansum2 (x y : fo) : fo :=
    fadd fo (if fisnan fo x then fzero fo else x) (if fisnan fo y then fzero fo else y).
  (** resample_variance_arrays (lines 1136-1172); the first loop stores the arrays, the second accumulates *)
  Definition store_vars (m : rmodel) (vs : list (nat * vinfo)) : list (nat * vinfo) :=
    map (fun nv => let '(n, v) := nv in match m_var m n with Some a => (n, {| v_sum := v_sum v; v_wt := v_wt v; v_last := Some a |}) | None => nv end) vs.
  Definition ivm_weight (rn : nat -> fo) (p : nat) : fo :=
    if fgt fo (rn p) (fzero fo) && fisfinite fo (rn p) then fdiv fo (fone fo) (rn p) else fzero fo.
  Definition var_weight (c : rcfg) (m : rmodel) (vs : list (nat * vinfo)) : option (nat -> fo) + err :=
    match c_wt c with
    | Ivm => inl (match find (fun nv => Nat.eqb (fst nv) 0) vs with
                  | Some (_, v) => match v_last v with Some rn => Some (ivm_weight rn) | None => None end
                  | None => None
                  end)
    | Exptime => match fst (tmeasure m) with Some t => inl (Some (fun _ => t)) | None => inr NoTime end
    end.
  Definition accumulate (v : vinfo) (w : nat -> fo) : vinfo :=
    match v_last v with
    | None => v
    | Some a =>
        let mask p := fge fo (a p) (fzero fo) && fisfinite fo (a p) && fgt fo (w p) (fzero fo) in
        {| v_sum := fun p => if mask p then nansum2 (v_sum v p) (fmul fo (fmul fo (a p) (w p)) (w p)) else v_sum v p;
           v_wt := fun p => if mask p then fadd fo (v_wt v p) (w p) else v_wt v p; v_last := v_last v |}
    end.
  Definition add_vars (c : rcfg) (m : rmodel) (vs : list (nat * vinfo)) : list (nat * vinfo) * option err :=
    let vs := store_vars m vs in
    match var_weight c m vs with
    | inr e => (vs, if existsb (fun nv => match m_var m (fst nv) with Some _ => true | None => false end) vs then Some e else None)
    | inl None => (vs, if existsb (fun nv => match m_var m (fst nv) with Some _ => true | None => false end) vs then Some Unbound else None)
    | inl (Some w) => (map (fun nv => match m_var m (fst nv) with Some _ => (fst nv, accumulate (snd nv) w) | None => nv end) vs, None)
    end.

  (** _compute_pixel_scale_ratio (lines 606-626): an existing ratio is kept *)
  Definition ratio_after (s : rstate) (m : rmodel) : option fo :=
    match s_ratio s with Some r => Some r | None => m_ratio m end.
  Definition set_driz (s : rstate) (ratio : option fo) (d : option D) : rstate :=
    {| s_fin := s_fin s; s_n := s_n s; s_groups := s_groups s; s_ratio := ratio; s_driz := d; s_out := s_out s; s_vars := s_vars s;
       s_texp := s_texp s; s_tdur := s_tdur s; s_tmeas := s_tmeas s; s_starts := s_starts s; s_ends := s_ends s; s_success := s_success s |}.
  Definition bump (s : rstate) : rstate :=
    {| s_fin := s_fin s; s_n := S (s_n s); s_groups := s_groups s; s_ratio := s_ratio s; s_driz := s_driz s; s_out := s_out s; s_vars := s_vars s;
       s_texp := s_texp s; s_tdur := s_tdur s; s_tmeas := s_tmeas s; s_starts := s_starts s; s_ends := s_ends s; s_success := s_success s |}.
  Definition set_vars (s : rstate) (vs : list (nat * vinfo)) : rstate :=
    {| s_fin := s_fin s; s_n := s_n s; s_groups := s_groups s; s_ratio := s_ratio s; s_driz := s_driz s; s_out := s_out s; s_vars := vs;
       s_texp := s_texp s; s_tdur := s_tdur s; s_tmeas := s_tmeas s; s_starts := s_starts s; s_ends := s_ends s; s_success := s_success s |}.
  Definition out_data (s : rstate) (d : option D) : rstate :=
    let out := s_out s in
    {| s_fin := s_fin s; s_n := s_n s; s_groups := s_groups s; s_ratio := s_ratio s; s_driz := s_driz s;
       s_out := {| o_data := d; o_pointings := o_pointings out; o_exp := o_exp out; o_meas := o_meas out; o_start := o_start out; o_end := o_end out; o_dur := o_dur out; o_vars := o_vars out |};
       s_vars := s_vars s; s_texp := s_texp s; s_tdur := s_tdur s; s_tmeas := s_tmeas s; s_starts := s_starts s; s_ends := s_ends s; s_success := s_success s |}.
  (** add_model (lines 749-886): the state it leaves behind, and the exception *)
  Definition add_model (c : rcfg) (s : rstate) (m : rmodel) : rstate * option err :=
    if s_fin s then (s, Some Finalized) else
    if negb (m_keys m) then (s, Some MissingKey) else
    let s := bump s in
    if negb (m_dim2 m) then (s, Some NotImage) else
    let s := set_driz s (ratio_after s m) (option_map (fun d => dadd d m) (s_driz s)) in
    let s := count s m in
    let '(vs, e) := if c_var c then add_vars c m (s_vars s) else (s_vars s, None) in
    let s := set_vars s vs in
    match e with Some e => (s, Some e) | None => (out_data s (s_driz s), None) end.

  (** finalize_resample_variance (lines 1194-1218) *)
  Definition var_scaling (c : rcfg) (ratio : option fo) : fo :=
    match ratio with None => fone fo | Some r => if c_imaging c then fdiv fo (fone fo) (fmul fo r r) else r end.
  Definition final_var (sc : fo) (v : vinfo) (p : nat) : fo := fdiv fo (fdiv fo (fmul fo (v_sum v p) sc) (v_wt v p)) (v_wt v p).
  (** python's min and max of a list *)
  Definition pymin (l : list fo) : option fo := match l with [] => None | x :: l => Some (fold_left (fun m y => if flt fo y m then y else m) l x) end.
  Definition pymax (l : list fo) : option fo := match l with [] => None | x :: l => Some (fold_left (fun m y => if flt fo m y then y else m) l x) end.
  (** finalize and finalize_time_info (lines 966-1041, 1331-1344) *)
  Definition finalize (c : rcfg) (s : rstate) : rstate * option err :=
    if s_fin s then (s, None) else
    let out := s_out s in
    let vars := if c_var c then map (fun nv => (fst nv, final_var (var_scaling c (s_ratio s)) (snd nv))) (s_vars s) else o_vars out in
    let mk e m st en du := {| s_fin := true; s_n := s_n s; s_groups := s_groups s; s_ratio := s_ratio s; s_driz := None;
       s_out := {| o_data := s_driz s; o_pointings := length (s_groups s); o_exp := e; o_meas := m; o_start := st; o_end := en; o_dur := du; o_vars := vars |};
       s_vars := []; s_texp := s_texp s; s_tdur := s_tdur s; s_tmeas := s_tmeas s; s_starts := s_starts s; s_ends := s_ends s; s_success := s_success s |} in
    if Nat.eqb (s_n s) 0 then (mk (o_exp out) (o_meas out) (o_start out) (o_end out) (o_dur out), Some NoModels) else
    match pymin (s_starts s) with
    | None => (mk (s_texp s) (o_meas out) (o_start out) (o_end out) (o_dur out), Some NoTimes)
    | Some st =>
        match pymax (s_ends s) with
        | None => (mk (s_texp s) (o_meas out) (Some st) (o_end out) (o_dur out), Some NoTimes)
        | Some en => (mk (s_texp s) (if forallb (fun b => b) (s_success s) then Some (s_tmeas s) else o_meas out) (Some st) (Some en) (s_tdur s), None)
        end
    end.

  (** a sequence of add_model calls, stopping at the first exception *)
  Definition add_all (c : rcfg) (s : rstate) (l : list rmodel) : rstate * option err :=
    fold_left (fun se m => match snd se with Some _ => se | None => add_model c (fst se) m end) l (s, None).

  (** ** error arrays (lines 1007-1038) *)
  Definition err_scaling (c : rcfg) (ratio : option fo) : fo :=
    match ratio with None => fone fo | Some r => if c_imaging c then r else fdiv fo (fone fo) (fsqrt fo r) end.
  Definition driz_err (c : rcfg) (ratio : option fo) (e : fo) : fo := fdiv fo e (err_scaling c ratio).
  (** nansum over the components of one pixel; None: the 'err' entry of the output model stays None *)
  Definition nansum (l : list fo) : fo := fold_left (fun s x => fadd fo s (if fisnan fo x then fzero fo else x)) l (fzero fo).
  Definition from_var (c : rcfg) (components : list fo) : option fo :=
    if c_var c then Some (if forallb (fisnan fo) components then fnan fo else fsqrt fo (nansum components)) else None.
End Res.
