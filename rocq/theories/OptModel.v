(** The optional results product of the OLS fitter (save_opt): src/stcal/ramp_fitting/src/slope_fitter.c.
    Line numbers refer to that file.  Left out: the casts to float when the arrays are written, allocation
    failures, and the copying of the arrays between processes (see MpModel). *)
From Verif Require Import Base OlsModel.

Section Numbers.
  Variable fo : FOps.
  Variable powf : fo -> fo -> fo.
  Declare Scope opt_scope.
  Notation "x + y" := (fadd fo x y) : opt_scope. Notation "x * y" := (fmul fo x y) : opt_scope.
  Notation "x - y" := (fsub fo x y) : opt_scope. Notation "x / y" := (fdiv fo x y) : opt_scope.
  Local Open Scope opt_scope.
  Notation z := (fofZ fo).
  (** what is stored for a segment (struct simple_ll_node, lines 262-281); allocated with calloc, so zero unless set *)
  Record optseg := { e_slope : fo; e_sigslope : fo; e_vp : fo; e_vr : fo; e_yint : fo; e_sigyint : fo; e_wt : fo }.
  Definition optseg0 : optseg :=
    {| e_slope := fzero fo; e_sigslope := fzero fo; e_vp := fzero fo; e_vr := fzero fo; e_yint := fzero fo; e_sigyint := fzero fo; e_wt := fzero fo |}.
  (** ..._seg_len1 (lines 3241-3261): SIGSLOPE, YINT and SIGYINT are not set *)
  Definition opt_len1 (m : ometa fo) (p : opix fo) (i : iprep fo) (mrate : fo) (g : seg) : optseg :=
    let q := fit_len1 fo m p i mrate g in
    {| e_slope := g_slope fo q; e_sigslope := fzero fo; e_vp := g_var_p fo q; e_vr := g_var_r fo q; e_yint := fzero fo; e_sigyint := fzero fo;
       e_wt := fone fo / g_var_r fo q |}.
  (** ..._seg_len2 (lines 3318-3355); the constant 1.41421356 is line 3318 *)
  Definition sqrt2 : fo := z 141421356 / z 100000000.
  Definition opt_len2 (m : ometa fo) (p : opix fo) (i : iprep fo) (mrate : fo) (g : seg) : optseg :=
    let q := fit_len2 fo m p i mrate g in
    let second := fnat fo (fst g) + fone fo in
    let sg := sqrt2 * x_rn fo p in
    {| e_slope := g_slope fo q; e_sigslope := sg; e_vp := g_var_p fo q; e_vr := g_var_r fo q;
       e_yint := i_data fo i (fst g + 1)%nat * (fone fo - second) + i_data fo i (fst g) * second; e_sigyint := sg;
       e_wt := fone fo / g_var_r fo q |}.
  (** ..._default_weighted_seg (lines 3463-3511) *)
  Definition opt_default (m : ometa fo) (p : opix fo) (i : iprep fo) (mrate : fo) (g : seg) : optseg :=
    let len := (snd g - fst g)%nat in
    let q := fit_default fo powf m p i mrate g in
    let w := o_weight fo powf p (snr_power fo (segment_snr fo p i g)) g in let xs := o_x fo g in let ys := o_y fo i g in
    let ks := seq 0 len in
    let sumw := osum fo (map w ks) in let sumx := osum fo (map (fun k => xs k * w k) ks) in
    let sumxx := osum fo (map (fun k => xs k * (xs k * w k)) ks) in
    let sumy := osum fo (map (fun k => ys k * w k) ks) in let sumxy := osum fo (map (fun k => ys k * (xs k * w k)) ks) in
    let den := sumw * sumxx - sumx * sumx in
    {| e_slope := g_slope fo q; e_sigslope := fsqrt fo (sumw * (fone fo / den)); e_vp := g_var_p fo q; e_vr := g_var_r fo q;
       e_yint := (sumxx * sumy - sumx * sumxy) * (fone fo / den); e_sigyint := fsqrt fo (sumxx * (fone fo / den));
       e_wt := fone fo / g_var_r fo q |}.
  (** ..._fit_slope_seg (lines 3177-3194) *)
  Definition opt_segment (m : ometa fo) (p : opix fo) (i : iprep fo) (mrate : fo) (g : seg) : optseg :=
    let len := (snd g - fst g)%nat in
    if Nat.eqb 1 len then opt_len1 m p i mrate g else if Nat.eqb 2 len then opt_len2 m p i mrate g else opt_default m p i mrate g.

  (** the cosmic-ray list (get_pixel_ramp, lines 1816-1825, with cr_list_add, lines 1369-1405): before ZEROFRAME replaces the first group *)
  Definition crs (m : ometa fo) (p : opix fo) (integ : nat) : list fo :=
    let i := prep0 fo m p integ in
    map (fun k => i_data fo i k - i_data fo i (k - 1)%nat)
        (filter (fun k => Nat.ltb 0 k && has (i_gdq fo i k) (o_jump (m_f fo m))) (seq 0 (m_ng fo m))).
  (** rd->ped_tmp (line 2126) *)
  Definition ped_tmp (m : ometa fo) (gap drop : nat) : fo :=
    ((fnat fo (m_nframes fo m + 1)%nat / z 2) + fnat fo drop) / fnat fo (m_nframes fo m + gap)%nat.
  (** one integration of one pixel: the segment list with its recorded size, the CR list, the pedestal
      (get_pixel_ramp_integration_segments_and_pedestal, lines 1967-2016, called at line 2842, after the slope of a
      DO_NOT_USE integration has become NaN and before partial saturation is flagged) *)
  Record optint := { n_segs : list optseg; n_size : nat; n_crs : list fo; n_ped : fo }.
  Definition opt_integration (m : ometa fo) (gap drop : nat) (p : opix fo) (mrate : fo) (integ : nat) : optint :=
    let f := m_f fo m in let i := prep fo m p integ in
    let s := if has (i_gdq fo i 0) (o_sat f) then sl_empty else scan_segments f (i_gdq fo i) (m_ng fo m) in
    let fitted := negb (Z.eqb (Z.of_nat (m_ng fo m)) (i_dnusat fo i)) && negb (Nat.eqb (sl_size s) 0) in
    let q := fst (fit_integration fo powf m p mrate integ) in
    let slope := if has (q_dq fo q) (o_dnu f) then fnan fo else q_slope fo q in
    let v := i_data fo i 0 - slope * ped_tmp m gap drop in
    {| n_segs := map (fun g => if fitted then opt_segment m p i mrate g else optseg0) (sl_nodes s);
       n_size := sl_size s; n_crs := crs m p integ;
       n_ped := if has (q_dq fo q) (o_sat f) then fzero fo else if fisnan fo v then fzero fo else v |}.

  (** ** The arrays (create_opt_res, lines 1433-1517; save_opt_res, lines 3540-3680) *)
  (** rd->max_num_segs and rd->max_num_crs: running maxima over all pixels and integrations.  Simplification: the initial
      value -1 of max_num_segs (line 2055) is taken as 0, the same whenever there is a pixel and an integration. *)
  Definition max_over (h : nat -> nat -> nat -> nat) (ni nr nc : nat) : nat :=
    fold_left Nat.max (flat_map (fun r => flat_map (fun c => map (fun i => h i r c) (seq 0 ni)) (seq 0 nc)) (seq 0 nr)) 0.
  (** copying a list into its zeroed column of [dim] entries; None: an entry is written outside the array or the index
      check (lines 3580, 3650, which let index [dim] pass) fails *)
  Definition column {X} (dim : nat) (zero : X) (l : list X) : option (nat -> X) :=
    if Nat.leb (length l) dim then Some (fun j => nth j l zero) else None.
  Definition all_ok {X} (h : nat -> nat -> nat -> option X) (ni nr nc : nat) : bool :=
    forallb (fun i => forallb (fun r => forallb (fun c => match h i r c with Some _ => true | None => false end) (seq 0 nc)) (seq 0 nr)) (seq 0 ni).
  (** arrays indexed by integration, segment or CR, row and column *)
  Record optarr := { r_nseg : nat; r_seg : nat -> nat -> nat -> nat -> optseg; r_ncr : nat; r_cr : nat -> nat -> nat -> nat -> fo; r_ped : nat -> nat -> nat -> fo }.
  Definition opt_arrays (ni nr nc : nat) (px : nat -> nat -> nat -> optint) : option optarr :=
    let nseg := max_over (fun i r c => n_size (px i r c)) ni nr nc in
    let ncr := max_over (fun i r c => length (n_crs (px i r c))) ni nr nc in
    let segs i r c := column nseg optseg0 (n_segs (px i r c)) in
    let crss i r c := if Nat.ltb 0 ncr then column ncr (fzero fo) (n_crs (px i r c)) else Some (fun _ => fzero fo) in
    if all_ok segs ni nr nc && all_ok crss ni nr nc then
      Some {| r_nseg := nseg; r_seg := fun i j r c => match segs i r c with Some a => a j | None => optseg0 end;
              r_ncr := ncr; r_cr := fun i j r c => match crss i r c with Some a => a j | None => fzero fo end;
              r_ped := fun i r c => n_ped (px i r c) |}
    else None.
  (** the pixel loop (ols_slope_fit_pixels, lines 2556-2590) with save_opt *)
  Definition opt_product (m : ometa fo) (gap drop nr nc : nat) (px : nat -> nat -> opix fo) : option optarr :=
    opt_arrays (m_nints fo m) nr nc (fun i r c => opt_integration m gap drop (px r c) (median_rate fo m (px r c)) i).
End Numbers.
