(** Model of the OLS ramp fitter: src/stcal/ramp_fitting/src/slope_fitter.c (per pixel) and the python
    around it (ramp_fit.py, ols_fit.py, utils.py).  Line numbers in this file refer to slope_fitter.c
    unless another file is named.  The C arrays of one pixel are functions of integration and group.
    [real_t] is the number type [fo]; powf is a parameter.  Left out: the optional results product (OptModel), debug
    output, allocation failures, and the final cast of the results to float (save_ramp_fit). *)
From Verif Require Import Base.

(** flag words (lines 2127-2143) *)
Record oflags := { o_dnu : N; o_jump : N; o_sat : N; o_pers : N; o_ngval : N; o_chg : N }.

(** ** Segments *)
(** start inclusive, end exclusive (struct simple_ll_node, line 262) *)
Notation seg := (nat * nat)%type.
(** struct segment_list (line 282): the linked list head..tail, size, max_segment_length *)
Record slist := { sl_nodes : list seg; sl_size : nat; sl_max : nat }.
Definition sl_empty : slist := {| sl_nodes := []; sl_size := 0; sl_max := 0 |}.
(** add_segment_to_list (lines 999-1044) *)
Definition add_segment (s : slist) (g : seg) : slist :=
  let len := snd g - fst g in
  if Nat.eqb 1 len && Nat.ltb 1 (sl_max s) then s
  else {| sl_nodes := sl_nodes s ++ [g];
          sl_size := match sl_nodes s with [] => 1 | _ :: _ => S (sl_size s) end;
          sl_max := if Nat.ltb (sl_max s) len then len else sl_max s |}.
(** prune_segment_list (lines 2685-2733).  When only one-group segments exist the list is cut after its
    head but [size] is not updated. *)
Definition prune (s : slist) : slist :=
  if Nat.ltb (sl_size s) 2 then s
  else if Nat.ltb (sl_max s) 2 then {| sl_nodes := firstn 1 (sl_nodes s); sl_size := sl_size s; sl_max := sl_max s |}
  else let keep := filter (fun g => negb (Nat.eqb 1 (snd g - fst g))) (sl_nodes s) in
       {| sl_nodes := keep; sl_size := sl_size s - (length (sl_nodes s) - length keep); sl_max := sl_max s |}.
(** one group of the scan (compute_integration_segments, lines 1303-1334); [~pers] clears the PERSISTENCE
    bits; [None] is in_seg = 0 *)
Definition seg_step (f : oflags) (gdq : nat -> N) (st : option nat * slist) (idx : nat) : option nat * slist :=
  let g := N.ldiff (gdq idx) (o_pers f) in
  let '(start, s) := st in
  if N.eqb g 0 then
    match start with
    | Some a => (Some a, s)
    | None => (Some (if Nat.ltb 0 idx && N.eqb (N.ldiff (gdq (idx - 1)) (o_pers f)) (o_jump f) then idx - 1 else idx), s)
    end
  else match start with Some a => (None, add_segment s (a, idx)) | None => (None, s) end.
(** lines 1336-1352 *)
Definition scan_segments (f : oflags) (gdq : nat -> N) (ng : nat) : slist :=
  let '(start, s) := fold_left (seg_step f gdq) (seq 0 ng) (None, sl_empty) in
  prune (match start with Some a => add_segment s (a, ng) | None => s end).

Section Numbers.
  Variable fo : FOps.
  Variable powf : fo -> fo -> fo.
  Declare Scope o_scope.
  Notation "x + y" := (fadd fo x y) : o_scope. Notation "x * y" := (fmul fo x y) : o_scope.
  Notation "x - y" := (fsub fo x y) : o_scope. Notation "x / y" := (fdiv fo x y) : o_scope.
  Local Open Scope o_scope.
  Notation z := (fofZ fo).
  Definition fnat (k : nat) : fo := fofZ fo (Z.of_nat k).
  Definition osum (l : list fo) : fo := fold_left (fadd fo) l (fzero fo).
  Definition LARGE : fo := z 1000000.   (* LARGE_VARIANCE_THRESHOLD, line 61 *)

  (** the meta data of struct ramp_data used here (get_ramp_data_meta, lines 2104-2180) *)
  Record ometa := { m_f : oflags; m_nints : nat; m_ng : nat; m_tgroup : fo; m_tframe : fo; m_nframes : nat; m_sup : bool }.
  (** rd->one_group_time, line 2051 *)
  Definition t_one (m : ometa) : fo := (fnat (m_nframes m) + fone fo) * m_tframe m / z 2.
  (** the input of one pixel (lines 1797-1960); ZEROFRAME and the original group DQ may be None *)
  Record opix := { x_data : nat -> nat -> fo; x_gdq : nat -> nat -> N; x_dq : N; x_gain : fo; x_rn : fo; x_dark : fo;
                   x_zf : option (nat -> fo); x_orig : option (nat -> nat -> N) }.

  (** ** One integration's data and statistics *)
  Definition count (p : nat -> bool) (n : nat) : Z := Z.of_nat (length (filter p (seq 0 n))).
  (** struct integ_gdq_stats (line 324), the per-integration data and DQ, is_0th, is_zframe *)
  Record iprep := { i_data : nat -> fo; i_gdq : nat -> N; i_sat : Z; i_dnu : Z; i_dnusat : Z; i_good : Z;
                    i_jump : bool; i_chg : bool; i_pers : bool; i_0th : bool; i_zf : bool }.
  (** get_pixel_ramp_integration over all groups (lines 1863-1908) *)
  Definition prep0 (m : ometa) (p : opix) (integ : nat) : iprep :=
    let f := m_f m in let g := x_gdq p integ in let ng := m_ng m in
    {| i_gdq := g;
       i_data := fun k => if has (g k) (o_sat f) then fnan fo else x_data p integ k;
       i_sat := count (fun k => has (g k) (o_sat f)) ng;
       i_dnu := count (fun k => negb (N.eqb 0 (g k)) && has (g k) (o_dnu f)) ng;
       i_dnusat := count (fun k => has (g k) (o_dnu f) || has (g k) (o_sat f)) ng;
       i_good := count (fun k => N.eqb 0 (g k)) ng;
       i_jump := existsb (fun k => has (g k) (o_jump f)) (seq 0 ng);
       i_chg := existsb (fun k => has (g k) (o_chg f)) (seq 0 ng);
       i_pers := existsb (fun k => has (g k) (o_pers f)) (seq 0 ng);
       i_0th := false; i_zf := false |}.
  (** the choice of 0th-group timing or ZEROFRAME (get_pixel_ramp, lines 1828-1848) *)
  Definition prep (m : ometa) (p : opix) (integ : nat) : iprep :=
    let i := prep0 m p integ in
    if m_sup m then i
    else if Z.eqb 1 (i_good i) && N.eqb 0 (i_gdq i 0) then
      {| i_data := i_data i; i_gdq := i_gdq i; i_sat := i_sat i; i_dnu := i_dnu i; i_dnusat := i_dnusat i; i_good := i_good i;
         i_jump := i_jump i; i_chg := i_chg i; i_pers := i_pers i; i_0th := true; i_zf := false |}
    else match x_zf p with
      | Some zf =>
          if Z.eqb 0 (i_good i) && negb (feq fo (fzero fo) (zf integ)) then
            let ng := Z.of_nat (m_ng m) in
            {| i_data := upd 0 (zf integ) (i_data i); i_gdq := upd 0 0%N (i_gdq i);
               i_sat := if Z.eqb ng (i_sat i) then (i_sat i - 1)%Z else i_sat i;
               i_dnu := if Z.eqb ng (i_dnu i) then (i_dnu i - 1)%Z else i_dnu i;
               i_dnusat := (i_dnusat i - 1)%Z; i_good := 1%Z;
               i_jump := i_jump i; i_chg := i_chg i; i_pers := i_pers i; i_0th := false; i_zf := true |}
          else i
      | None => i
      end.

  (** ** The median rate *)
  (** real_nan_median of the qsort-ed array (lines 1693-1727, 2507, 2513-2537): the sort puts NaN last, the
      median is taken over the others *)
  Fixpoint insert (x : fo) (l : list fo) : list fo :=
    match l with [] => [x] | y :: l' => if flt fo x y then x :: l else y :: insert x l' end.
  Definition sorted (l : list fo) : list fo := fold_right insert [] (filter (fun x => negb (fisnan fo x)) l).
  Definition nan_median (l : list fo) : fo :=
    let s := sorted l in let n := length s in
    if Nat.eqb n 0 then fnan fo
    else if Nat.eqb n 1 then nth 0 s (fzero fo)
    else if Nat.eqb n 2 then (nth 0 s (fzero fo) + nth 1 s (fzero fo)) / z 2
    else if Nat.odd n then nth (n / 2)%nat s (fzero fo)
    else (nth (n / 2)%nat s (fzero fo) + nth (n / 2 - 1)%nat s (fzero fo)) / z 2.
  (** median_rate_integration and median_rate_integration_sort (lines 2416-2510), two or more groups *)
  Definition loc_rate (m : ometa) (i : iprep) (k : nat) : fo :=
    if has (i_gdq i k) (o_dnu (m_f m)) then fnan fo else i_data i k / m_tgroup m.
  Definition first_diffs (m : ometa) (i : iprep) : list fo :=
    map (fun k => if has (i_gdq i (k + 1)%nat) (o_jump (m_f m)) then fnan fo else loc_rate m i (k + 1)%nat - loc_rate m i k) (seq 0 (m_ng m - 1)).
  Definition median_rate_integration (m : ometa) (i : iprep) : fo :=
    let d := first_diffs m i in let loc0 := loc_rate m i 0 in
    nan_median (if forallb (fisnan fo) d && negb (fisnan fo loc0) then match d with [] => [] | _ :: d' => loc0 :: d' end else d).
  (** compute_median_rate, median_rate_1ngroup, median_rate_default (lines 2281-2370); one group: line 2303 *)
  Definition integ_rate (m : ometa) (i : iprep) : fo :=
    let r := if i_0th i then i_data i 0 / t_one m else if i_zf i then i_data i 0 / m_tframe m else median_rate_integration m i in
    if fisnan fo r then fzero fo else r.
  Definition median_rate (m : ometa) (p : opix) : fo :=
    if Nat.eqb 1 (m_ng m) then osum (map (fun k => i_data (prep m p k) 0 / t_one m) (seq 0 (m_nints m))) / fnat (m_nints m)
    else osum (map (fun k => integ_rate m (prep m p k)) (seq 0 (m_nints m))) / fnat (m_nints m).

  (** ** Fitting one segment *)
  Record segfit := { g_slope : fo; g_var_p : fo; g_var_r : fo; g_var_e : fo }.
  (** segment_snr (lines 3775-3804) *)
  Definition segment_snr (p : opix) (i : iprep) (g : seg) : fo :=
    let data := i_data i (snd g - 1)%nat - i_data i (fst g) in
    let den := x_rn p * x_rn p + data * x_gain p in
    if fle fo den (fzero fo) || feq fo (x_gain p) (fzero fo) then fzero fo
    else let s := (data * x_gain p) / fsqrt fo den in if flt fo s (fzero fo) then fzero fo else s.
  (** snr_power (lines 3807-3823) *)
  Definition snr_power (snr : fo) : fo :=
    if flt fo snr (z 5) then fzero fo
    else if flt fo snr (z 10) then z 4 / z 10
    else if flt fo snr (z 20) then fone fo
    else if flt fo snr (z 50) then z 3
    else if flt fo snr (z 100) then z 6 else z 10.
  (** the Poisson variance of a segment of duration [t] (lines 3247-3252, 3334-3339, 3494-3499) *)
  Definition var_poisson (p : opix) (mrate t : fo) : fo :=
    if flt fo (fzero fo) mrate then (mrate + x_dark p) / t else x_dark p / t.
  (** segment_len1_timing, segment_rnoise_len1 (lines 3269-3302) *)
  Definition len1_timing (m : ometa) (i : iprep) : fo :=
    if negb (m_sup m) then if i_0th i then t_one m else if i_zf i then m_tframe m else m_tgroup m else m_tgroup m.
  Definition rnoise_len1 (p : opix) (timing : fo) : fo :=
    let r := x_rn p / timing in (z 12 * r * r) / (z 6 * x_gain p * x_gain p).
  (** segment_rnoise_len2 (lines 3363-3376) *)
  Definition rnoise_len2 (m : ometa) (p : opix) : fo :=
    let r := x_rn p / m_tgroup m in (z 12 * r * r) / (z 6 * x_gain p * x_gain p).
  (** segment_rnoise_default (lines 3516-3533) *)
  Definition rnoise_default (m : ometa) (p : opix) (len : fo) : fo :=
    if fle fo (x_gain p) (fzero fo) || fisnan fo (x_gain p) then fzero fo
    else let r := x_rn p / m_tgroup m in (z 12 * r * r) / ((len * len * len - len) * x_gain p * x_gain p).
  Definition rnoise (m : ometa) (p : opix) (i : iprep) (g : seg) : fo :=
    let len := (snd g - fst g)%nat in
    if Nat.eqb 1 len then rnoise_len1 p (len1_timing m i)
    else if Nat.eqb 2 len then rnoise_len2 m p
    else rnoise_default m p (fnat len).
  (** ..._seg_len1 (lines 3229-3264) *)
  Definition fit_len1 (m : ometa) (p : opix) (i : iprep) (mrate : fo) (g : seg) : segfit :=
    let t := len1_timing m i in
    let vp := var_poisson p mrate (t * x_gain p) in let vr := rnoise_len1 p t in
    {| g_slope := i_data i (fst g) / t; g_var_p := vp; g_var_r := vr; g_var_e := vp + vr |}.
  (** ..._seg_len2 (lines 3308-3358) *)
  Definition fit_len2 (m : ometa) (p : opix) (i : iprep) (mrate : fo) (g : seg) : segfit :=
    let vp := var_poisson p mrate (m_tgroup m * x_gain p) in let vr := rnoise_len2 m p in
    {| g_slope := (i_data i (fst g + 1)%nat - i_data i (fst g)) / m_tgroup m; g_var_p := vp; g_var_r := vr; g_var_e := vp + vr |}.
  (** ..._default_weighted_ols (lines 3406-3446): weight, abscissa and ordinate of each group *)
  Definition o_weight (p : opix) (power : fo) (g : seg) (k : nat) : fo :=
    let mid := fnat (snd g - fst g - 1)%nat / z 2 in
    powf (fabs fo ((fnat k - mid) * (fone fo / mid))) power * (fone fo / (x_rn p * x_rn p)).
  Definition o_x (g : seg) (k : nat) : fo := fnat k + fnat (fst g).
  Definition o_y (i : iprep) (g : seg) (k : nat) : fo :=
    let d := i_data i (fst g + k)%nat in if fisnan fo d then fzero fo else d.
  (** ..._default_weighted_seg (lines 3463-3511) *)
  Definition fit_default (m : ometa) (p : opix) (i : iprep) (mrate : fo) (g : seg) : segfit :=
    let len := (snd g - fst g)%nat in
    let w := o_weight p (snr_power (segment_snr p i g)) g in let xs := o_x g in let ys := o_y i g in
    let ks := seq 0 len in
    let sumw := osum (map w ks) in let sumx := osum (map (fun k => xs k * w k) ks) in
    let sumxx := osum (map (fun k => xs k * (xs k * w k)) ks) in
    let sumy := osum (map (fun k => ys k * w k) ks) in let sumxy := osum (map (fun k => ys k * (xs k * w k)) ks) in
    let den := sumw * sumxx - sumx * sumx in let num := sumw * sumxy - sumx * sumy in
    let vp := var_poisson p mrate (m_tgroup m * x_gain p * (fnat len - fone fo)) in
    let vr := rnoise_default m p (fnat len) in
    {| g_slope := (num * (fone fo / den)) / m_tgroup m; g_var_p := vp; g_var_r := vr; g_var_e := vp + vr |}.
  (** ..._fit_slope_seg (lines 3177-3194) *)
  Definition fit_segment (m : ometa) (p : opix) (i : iprep) (mrate : fo) (g : seg) : segfit :=
    let len := (snd g - fst g)%nat in
    if Nat.eqb 1 len then fit_len1 m p i mrate g else if Nat.eqb 2 len then fit_len2 m p i mrate g else fit_default m p i mrate g.

  (** ** One integration *)
  (** struct pixel_fit (line 249) *)
  Record pfit := { q_slope : fo; q_dq : N; q_vp : fo; q_vr : fo; q_err : fo }.
  Definition large0 (v : fo) : fo := if fle fo LARGE v then fzero fo else v.
  (** sums over the segments (ramp_fit_pixel_integration_fit_slope, lines 3109-3128): 1/var_r, 1/var_p, 1/var_e, slope/var_r *)
  Record isums := { s_r : fo; s_p : fo; s_e : fo; s_n : fo }.
  Definition isums0 : isums := {| s_r := fzero fo; s_p := fzero fo; s_e := fzero fo; s_n := fzero fo |}.
  Definition add_fit (a : isums) (g : segfit) : isums :=
    {| s_r := s_r a + fone fo / g_var_r g;
       s_p := if flt fo (fzero fo) (g_var_p g) then s_p a + fone fo / g_var_p g else s_p a;
       s_e := s_e a + fone fo / g_var_e g;
       s_n := s_n a + g_slope g / g_var_r g |}.
  (** lines 3130-3168; the second component is what is added to the exposure's accumulators
      (rate.var_poisson, rate.var_rnoise, rate.slope), zero when no segment exists (line 3106) *)
  Definition zero3 : fo * fo * fo := (fzero fo, fzero fo, fzero fo).
  Definition fit_slope (m : ometa) (p : opix) (i : iprep) (mrate : fo) (s : slist) (q : pfit) : pfit * (fo * fo * fo) :=
    if Nat.eqb (sl_size s) 0 then (q, zero3)
    else
      let a := fold_left add_fit (map (fit_segment m p i mrate) (sl_nodes s)) isums0 in
      let vp := large0 (if flt fo (fzero fo) (s_p a) then fone fo / s_p a else q_vp q) in
      let vr := large0 (fone fo / s_r a) in
      let contrib := (if flt fo (fzero fo) (s_p a) then s_p a else fzero fo, s_r a, s_n a) in
      if has (q_dq q) (N.lor (o_dnu (m_f m)) (o_sat (m_f m))) then
        ({| q_slope := fnan fo; q_dq := q_dq q; q_vp := fzero fo; q_vr := fzero fo; q_err := fzero fo |}, contrib)
      else
        let ve := fone fo / s_e a in
        ({| q_slope := s_n a * vr; q_dq := q_dq q; q_vp := vp; q_vr := vr;
            q_err := if flt fo LARGE ve then fzero fo else fsqrt fo ve |}, contrib).
  (** the DQ words set while the pixel is read (get_pixel_ramp_meta lines 1927-1938, get_pixel_ramp lines 1850-1857) *)
  Definition pixel_dq (m : ometa) (p : opix) : N :=
    if fle fo (x_gain p) (fzero fo) || fisnan fo (x_gain p) then N.lor (x_dq p) (N.lor (o_dnu (m_f m)) (o_ngval (m_f m))) else x_dq p.
  Definition int_dq0 (m : ometa) (p : opix) (i : iprep) : N :=
    N.lor (N.lor (pixel_dq m p) (flag_if (i_jump i) (o_jump (m_f m)))) (flag_if (i_pers i) (o_pers (m_f m))).
  (** ramp_fit_pixel_integration (lines 3040-3065) with compute_integration_segments' early return for a
      saturated first group (lines 1295-1300) *)
  Definition fit_integration (m : ometa) (p : opix) (mrate : fo) (integ : nat) : pfit * (fo * fo * fo) :=
    let f := m_f m in let i := prep m p integ in let ng := Z.of_nat (m_ng m) in
    let sat0 := has (i_gdq i 0) (o_sat f) in
    let q := {| q_slope := if sat0 then fnan fo else fzero fo;
                q_dq := if sat0 then N.lor (N.lor (int_dq0 m p i) (o_dnu f)) (o_sat f) else int_dq0 m p i;
                q_vp := fzero fo; q_vr := fzero fo; q_err := fzero fo |} in
    let s := if sat0 then sl_empty else scan_segments f (i_gdq i) (m_ng m) in
    if Z.eqb ng (i_dnusat i) then
      let dq := N.lor (q_dq q) (o_dnu f) in
      ({| q_slope := q_slope q; q_dq := if Z.eqb ng (i_sat i) then N.lor dq (o_sat f) else dq; q_vp := q_vp q; q_vr := q_vr q; q_err := q_err q |}, zero3)
    else fit_slope m p i mrate s q.
  (** the rest of the loop body of ramp_fit_pixel (lines 2836-2857): NaN slope when flagged, then partial
      saturation.  Also returns whether the integration counted as DO_NOT_USE and as saturated. *)
  Record iout := { u_fit : pfit; u_con : fo * fo * fo; u_dnu : bool; u_sat : bool; u_part : bool }.
  Definition finish_integration (m : ometa) (p : opix) (mrate : fo) (integ : nat) : iout :=
    let f := m_f m in
    let '(q, c) := fit_integration m p mrate integ in
    let isdnu := has (q_dq q) (o_dnu f) in let issat := has (q_dq q) (o_sat f) in
    let part := Z.ltb 0 (i_sat (prep m p integ)) in
    {| u_fit := {| q_slope := if isdnu || issat then fnan fo else q_slope q;
                   q_dq := if part then N.lor (q_dq q) (o_sat f) else q_dq q;
                   q_vp := q_vp q; q_vr := q_vr q; q_err := q_err q |};
       u_con := c; u_dnu := isdnu; u_sat := issat; u_part := part |}.

  (** ** One pixel: ramp_fit_pixel (lines 2807-2907) *)
  Definition inv_or (v : fo) : fo := if flt fo (fzero fo) v then fone fo / v else v.
  Definition fit_pixel (m : ometa) (p : opix) : pfit * list pfit :=
    let f := m_f m in let mrate := median_rate m p in
    let outs := map (finish_integration m p mrate) (seq 0 (m_nints m)) in
    let is := map (prep m p) (seq 0 (m_nints m)) in
    let dq := N.lor (N.lor (pixel_dq m p) (flag_if (existsb i_jump is) (o_jump f))) (flag_if (existsb i_pers is) (o_pers f)) in
    let dq := if forallb u_dnu outs then N.lor dq (o_dnu f) else dq in
    let dq := if forallb u_sat outs then N.lor dq (o_sat f) else dq in
    let vp := inv_or (osum (map (fun u => fst (fst (u_con u))) outs)) in
    let vp := if fle fo LARGE vp || flt fo vp (fzero fo) then fzero fo else vp in
    let vr := large0 (inv_or (osum (map (fun u => snd (fst (u_con u))) outs))) in
    let slope := osum (map (fun u => snd (u_con u)) outs) in
    let err := fsqrt fo (vp + vr) in
    let bad := has dq (N.lor (o_dnu f) (o_sat f)) in
    let slope := if bad then fnan fo else slope in
    let vp := if bad then fzero fo else vp in let vr := if bad then fzero fo else vr in let err := if bad then fzero fo else err in
    let dq := if existsb u_part outs then N.lor dq (o_sat f) else dq in
    let slope := if fisnan fo slope then slope else slope * vr in
    ({| q_slope := slope; q_dq := dq; q_vp := vp; q_vr := vr; q_err := err |}, map u_fit outs).

  (** ** CHARGELOSS (lines 2913-3035) *)
  (** ramp_fit_pixel_rnoise_chargeloss_remove; dnu_chg is uint8_t *)
  Definition remove_chargeloss (f : oflags) (orig : nat -> N) (k : nat) : N :=
    if has (orig k) (o_chg f) then N.lxor (orig k) (N.land (N.lor (o_dnu f) (o_chg f)) 255) else orig k.
  (** ramp_fit_pixel_rnoise_chargeloss_segs: sum of 1/var_r of the segments of the unflagged DQ *)
  Definition chargeloss_inv (m : ometa) (p : opix) (orig : nat -> nat -> N) (integ : nat) : fo :=
    let i := prep m p integ in
    fold_left (fun a g => let v := rnoise m p i g in if flt fo (fzero fo) v then a + fone fo / v else a)
      (sl_nodes (scan_segments (m_f m) (remove_chargeloss (m_f m) (orig integ)) (m_ng m))) (fzero fo).
  Definition set_vr (q : pfit) (v : fo) : pfit :=
    {| q_slope := q_slope q; q_dq := q_dq q; q_vp := q_vp q; q_vr := v; q_err := q_err q |}.
  (** ramp_fit_pixel_rnoise_chargeloss: integration and exposure read-noise variances recomputed *)
  Definition chargeloss (m : ometa) (p : opix) (r : pfit * list pfit) : pfit * list pfit :=
    match x_orig p with
    | None => r
    | Some orig =>
        let is := map (prep m p) (seq 0 (m_nints m)) in
        let ints := map (fun k => let q := nth k (snd r) (fst r) in
            if i_chg (prep m p k) then set_vr q (large0 (fone fo / chargeloss_inv m p orig k)) else q) (seq 0 (m_nints m)) in
        if negb (existsb i_chg is) then r
        else
          let e := fold_left (fun a k =>
              if i_chg (prep m p k) then a + chargeloss_inv m p orig k
              else let v := q_vr (nth k (snd r) (fst r)) in if flt fo (fzero fo) v then a + fone fo / v else a) (seq 0 (m_nints m)) (fzero fo) in
          (set_vr (fst r) (large0 (if flt fo (fzero fo) e then fone fo / e else q_vr (fst r))), ints)
    end.
  (** the pixel loop body (ols_slope_fit_pixels, lines 2566-2590) *)
  Definition ols_pixel (m : ometa) (p : opix) : pfit * list pfit := chargeloss m p (fit_pixel m p).
End Numbers.
Arguments count p n.
