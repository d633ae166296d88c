(** Model of the large-event part of /repo/src/stcal/jump/jump.py: snowballs (flag_large_events),
    persistence into the next integration, and the flagging half of MIRI showers
    (find_faint_extended, max_flux_showers).  Line numbers refer to that file. *)
From Verif Require Import Base JumpModel.

(** An ellipse as returned by _sk_filter_areas (lines 1294-1330):
    ((centre column, centre row), (axis h, axis w), angle). *)
Record ellipse (fo : FOps) := { e_col : fo; e_row : fo; e_h : fo; e_w : fo; e_angle : fo }.
Arguments e_col {fo}. Arguments e_row {fo}. Arguments e_h {fo}. Arguments e_w {fo}. Arguments e_angle {fo}.

(** JumpData (jump/jump_class.py), the fields read here. *)
Record snow (fo : FOps) := {
  s_jump : N; s_sat : N; s_dnu : N; s_ref : N;
  s_required : bool;         (* sat_required_snowball *)
  s_minrad : fo;             (* min_sat_radius_extend *)
  s_satexpand : fo;          (* sat_expand *)
  s_maxwidth : fo;           (* max_extended_width *)
  s_expand : fo;             (* expand_factor *)
  s_edge : Z;                (* edge_size *)
  s_mask_next : bool;        (* mask_persist_grps_next_int *)
  s_persist : Z;             (* persist_grps_flagged *)
  s_shower_expand : fo;      (* extend_ellipse_expand_ratio *)
  s_shower_grps : nat;       (* grps_masked_after_shower *)
  s_maxamp : fo              (* max_shower_amplitude *)
}.
Arguments s_jump {fo}. Arguments s_sat {fo}. Arguments s_dnu {fo}. Arguments s_ref {fo}. Arguments s_required {fo}.
Arguments s_minrad {fo}. Arguments s_satexpand {fo}. Arguments s_maxwidth {fo}. Arguments s_expand {fo}. Arguments s_edge {fo}.
Arguments s_mask_next {fo}. Arguments s_persist {fo}. Arguments s_shower_expand {fo}. Arguments s_shower_grps {fo}. Arguments s_maxamp {fo}.

Section Snow.
  Variable fo : FOps.
  Variable P : snow fo.
  (** Python round of a float *)
  Variable rnd : fo -> Z.
  (** skimage.draw.ellipse: does the ellipse with the given row radius, column radius and angle
      (degrees) contain the pixel at this (row, column) offset from its centre?  The library draws
      relative to the centre, so only the offset matters. *)
  Variable disk : Z -> Z -> fo -> Z -> Z -> bool.
  (** skimage label/regionprops on the set pixels, with a minimum area (_sk_filter_areas lines
      1294-1330); separate thresholds for saturated and jump areas. *)
  Variable sat_regions jump_regions : img bool -> list (ellipse fo).
  (** point_inside_ellipse (lines 703-742) *)
  Variable inside : fo * fo -> ellipse fo -> bool.
  Notation "x + y" := (fadd fo x y). Notation "x * y" := (fmul fo x y). Notation "x - y" := (fsub fo x y).
  Definition half (x : fo) : Z := rnd (fdiv fo x (fofZ fo 2)).
  (** Python's min(a, b) on floats *)
  Definition pymin (a b : fo) : fo := if flt fo b a then b else a.

  (** ellipse_subim (lines 462-514): the pixels of the nr x nc image that are drawn.  The
      subimage bounds (iy1,iy2,ix1,ix2) and the local coordinates are kept.  [h1], [h2] are
      round(axis1/2), round(axis2/2). *)
  Definition subim (nr nc : nat) (cc cr : Z) (h1 h2 : Z) (alpha : fo) : img bool :=
    let dn := (Z.max h1 h2 + 2)%Z in
    let ix1 := Z.max (cc - dn) 0 in let ix2 := Z.min (cc + dn + 1) (Z.of_nat nc) in
    let iy1 := Z.max (cr - dn) 0 in let iy2 := Z.min (cr + dn + 1) (Z.of_nat nr) in
    fun r c => let r := Z.of_nat r in let c := Z.of_nat c in
      Z.leb iy1 r && Z.ltb r iy2 && Z.leb ix1 c && Z.ltb c ix2
      && negb (Z.eqb h2 0 || Z.eqb h1 0)                                         (* lines 1281-1282 *)
      && disk h2 h1 alpha ((r - iy1) - (cr - iy1)) ((c - ix1) - (cc - ix1)).
  (** the pixels drawn for an ellipse with given half axes *)
  Definition drawn (nr nc : nat) (e : ellipse fo) (h : Z * Z) : img bool :=
    subim nr nc (rnd (e_col e)) (rnd (e_row e)) (fst h) (snd h) (e_angle e).

  (** compute_axes with expand_by_ratio (lines 998-1012); the doubling at lines 573-574 is undone by
      the halving in ellipse_subim and is omitted. *)
  Definition compute_axes (e : ellipse fo) (x : fo) : Z * Z :=
    let '(a1, a2) := if flt fo (e_w e) (e_h e)
                     then (e_h e + (x - fone fo) * e_w e, e_w e * x)
                     else (e_h e * x, e_w e + (x - fone fo) * e_h e) in
    (half (pymin a1 (s_maxwidth P)), half (pymin a2 (s_maxwidth P))).

  Definition is_sat (w : N) : bool := N.eqb (N.land w (s_sat P)) (s_sat P).
  (** extend_ellipses lines 579-587 for one ellipse: [m] is the mutable subimage *)
  Definition extend_one (ng i grp n : nat) (m : img bool) (gdq : arr4 N) : arr4 N :=
    fst (fold_left (fun (st : arr4 N * img bool) k =>
      let '(g, m) := st in
      let m' := fun r c => m r c && negb (is_sat (g i k r c)) in
      (fun i' k' r c => if Nat.eqb i' i && Nat.eqb k' k then N.lor (g i' k' r c) (flag_if (m' r c) (s_jump P)) else g i' k' r c, m'))
      (seq grp (Nat.min (grp + n + 1) ng - grp)%nat) (gdq, m)).
  (** extend_ellipses (lines 517-593) *)
  Definition extend_ellipses (ng nr nc i grp : nat) (es : list (ellipse fo)) (x : fo) (n : nat) (gdq : arr4 N) : arr4 N :=
    fold_left (fun g e => extend_one ng i grp n (drawn nr nc e (compute_axes e x)) g) es gdq.

  (** extend_saturation (lines 397-459) on integration [i] *)
  Definition big_core (e : ellipse fo) : bool := flt fo (s_minrad P) (pymin (e_w e) (e_h e)).      (* line 429, 431 *)
  Definition sat_axes (e : ellipse fo) : Z * Z :=                                                  (* lines 432-435 *)
    (half (pymin (e_h e + s_satexpand P) (s_maxwidth P)), half (pymin (e_w e + s_satexpand P) (s_maxwidth P))).
  Definition extend_saturation (ng nr nc i grp : nat) (es : list (ellipse fo)) (st : arr4 N * img N) : arr4 N * img N :=
    fold_left (fun (st : arr4 N * img N) e => let '(g, p) := st in
      if big_core e then
        (fun i' k r c => if Nat.eqb i' i && Nat.leb grp k && Nat.ltb k ng && drawn nr nc e (sat_axes e) r c
                         then s_sat P else g i' k r c,                                             (* lines 446-448 *)
         fun r c => if drawn nr nc e (half (e_h e), half (e_w e)) r c then s_jump P else p r c)    (* lines 450-455 *)
      else (g, p)) es st.

  (** near_edge (lines 745-776) with the thresholds of make_snowballs lines 665-666 *)
  Definition near_edge (nr : nat) (e : ellipse fo) : bool :=
    let low := fofZ fo (s_edge P) in let high := fofZ fo (Z.max 0 (Z.of_nat nr - s_edge P)) in
    flt fo (e_col e) low || flt fo (e_row e) low || flt fo high (e_col e) || flt fo high (e_row e).
  (** tuple equality used by [jump not in snowballs] (NaN components are not treated specially) *)
  Definition ell_eq (a b : ellipse fo) : bool :=
    feq fo (e_col a) (e_col b) && feq fo (e_row a) (e_row b) && feq fo (e_h a) (e_h b) && feq fo (e_w a) (e_w b)
    && feq fo (e_angle a) (e_angle b).
  (** the selection part of make_snowballs (lines 670-685) *)
  Definition select (ng nr g : nat) (jumps sats nexts : list (ellipse fo)) : list (ellipse fo) :=
    fold_left (fun acc j =>
      if near_edge nr j then acc ++ [j]
      else
        let add := fun acc s => if inside (e_col s, e_row s) j && negb (existsb (ell_eq j) acc) then acc ++ [j] else acc in
        let acc := fold_left add sats acc in
        if Nat.ltb g (ng - 1)%nat then fold_left add nexts acc else acc) jumps [].

  (** the body of the group loop of flag_large_events (lines 338-379).  The state is the DQ array, the
      persistence image of this integration, the variable next_new_sat and the count. *)
  Definition new_sat (a b : img N) : img bool := fun r c => has (b r c) (s_sat P) && negb (has (a r c) (s_sat P)).
  Definition state := (arr4 N * img N * option (img bool) * nat)%type.
  Definition step (ng nr nc i : nat) (st : state) (g : nat) : option state :=
    let '(gdq, per, nxt, tot) := st in
    let nsat := new_sat (gdq i (g - 1)%nat) (gdq i g) in
    let nxt := if Nat.ltb g (ng - 1)%nat then Some (new_sat (gdq i g) (gdq i (g + 1)%nat)) else nxt in
    match nxt with
    | None => None                                                     (* UnboundLocalError at line 353 *)
    | Some nx =>
      let nexts := sat_regions nx in
      let sats := sat_regions nsat in
      let jumps := jump_regions (fun r c => has (gdq i g r c) (s_jump P)) in
      let '(gdq, per, sb) :=
        if s_required P then
          let '(gdq', per') := extend_saturation ng nr nc i g sats (gdq, per) in
          (gdq', per', select ng nr g jumps sats nexts)
        else (gdq, per, jumps) in
      Some (extend_ellipses ng nr nc i g sb (s_expand P) 0 gdq, per, nxt, (tot + length sb)%nat)
    end.
  (** the loops (lines 337-379); persist_jumps is built integration by integration *)
  Definition events (nints ng nr nc : nat) (gdq : arr4 N) : option (arr4 N * cube N * nat) :=
    do s <- foldM (fun (st : arr4 N * cube N * option (img bool) * nat) i =>
        let '(gdq, per, nxt, tot) := st in
        do t <- foldM (step ng nr nc i) (seq 1 (ng - 1)) (gdq, per i, nxt, tot);
        let '(gdq', p', nxt', tot') := t in
        Some (gdq', upd i p' per, nxt', tot')) (seq 0 nints) (gdq, fun _ _ _ => 0%N, None, 0%nat);
    let '(g, p, _, t) := s in Some (g, p, t).
  (** lines 384-393 *)
  Definition persist_phase (nints ng : nat) (per : cube N) (gdq : arr4 N) : arr4 N :=
    fun i g r c =>
      if s_mask_next P && Nat.leb 1 i && Nat.ltb i nints && Z.leb 1 (s_persist P)
         && Nat.leb 1 g && Z.ltb (Z.of_nat g) (Z.min (s_persist P) (Z.of_nat ng))
      then N.lor (gdq i g r c) (per (i - 1)%nat r c) else gdq i g r c.
  (** flag_large_events (lines 307-394) *)
  Definition flag_large_events (nints ng nr nc : nat) (gdq : arr4 N) : option (arr4 N * nat) :=
    do e <- events nints ng nr nc gdq;
    let '(g, p, t) := e in Some (persist_phase nints ng p g, t).

  (** ** Showers *)
  (** count_dnu_groups (lines 944-967) *)
  Definition count_dnu_groups (nints ng nr nc : nat) (gdq : arr4 N) : nat :=
    list_sum (map (fun i => count_if (fun g => all_pix nr nc (fun r c => has (gdq i g r c) (s_dnu P))) (seq 0 ng)) (seq 0 nints)).
  (** nan_invalid_data (lines 1198-1226) *)
  Definition nan_invalid (dat : arr4 fo) (gdq : arr4 N) : arr4 fo :=
    fun i g r c => let w := gdq i g r c in
      if N.eqb w (s_jump P + s_dnu P) || N.eqb w (s_sat P + s_dnu P) || N.eqb w (s_sat P) || N.eqb w (s_jump P) || N.eqb w (s_dnu P)
      then fnan fo else dat i g r c.
  (** find_first_good_group (lines 1229-1256) *)
  Definition first_good_group (ng nr nc : nat) (g : nat -> img N) : nat :=
    match find (fun k => negb (all_pix nr nc (fun r c => has (g k r c) (s_dnu P)))) (seq 0 ng) with Some k => k | None => 0%nat end.
  (** lines 817-855: the significance map, its smoothing and the regions over the threshold are
      external; they see the masked data, the DQ array, the pixel DQ, the integration and the group *)
  Variable shower_regions : arr4 fo -> arr4 N -> img N -> nat -> nat -> list (ellipse fo).
  (** np.nanmean of a list; NaN when there is no number *)
  Variable mean : list fo -> fo.
  Definition nanmean (l : list fo) : fo := match filter (fun x => negb (fisnan fo x)) l with [] => fnan fo | l' => mean l' end.
  (** max_flux_showers lines 906-932: the mean group difference of a pixel, flagged groups left out *)
  Definition flux (ng : nat) (dat : arr4 fo) (gdq : arr4 N) (i r c : nat) : fo :=
    let v := fun g => if has (gdq i g r c) (N.lor (N.lor (s_dnu P) (s_sat P)) (s_jump P)) then fnan fo else dat i g r c in
    nanmean (map (fun g => v (g + 1)%nat - v g) (seq 0 (ng - 1))).
  (** max_flux_showers (lines 879-941) *)
  Definition max_flux_showers (ng : nat) (dat : arr4 fo) (ingdq gdq : arr4 N) : arr4 N :=
    fun i g r c =>
      let d := fabs fo (flux ng dat ingdq i r c - flux ng dat gdq i r c) in
      if negb (fisfinite fo d) || flt fo (s_maxamp P) d then ingdq i g r c else gdq i g r c.
  (** find_faint_extended (lines 779-876): reference pixels are masked (lines 816-817), showers are
      searched from the group after the first good one (lines 839-852), then flagged (lines 862-874) *)
  Definition ref_masked (ingdq : arr4 N) (pdq : img N) : arr4 N :=
    fun i g r c => if N.eqb (pdq r c) (s_ref P) then s_dnu P else ingdq i g r c.
  Definition shower_events (nints ng nr nc : nat) (data : arr4 fo) (gdq : arr4 N) (pdq : img N) : list (nat * nat * list (ellipse fo)) :=
    flat_map (fun i => let f := (first_good_group ng nr nc (gdq i) + 1)%nat in
                map (fun g => (i, g, shower_regions data gdq pdq i g)) (seq f (ng - f)%nat)) (seq 0 nints).
  Definition flag_showers (ng nr nc : nat) (evs : list (nat * nat * list (ellipse fo))) (gdq : arr4 N) : arr4 N :=
    fold_left (fun g (ev : nat * nat * list (ellipse fo)) => let '(i, grp, es) := ev in
                 extend_ellipses ng nr nc i grp es (s_shower_expand P) (s_shower_grps P) g) evs gdq.
  Definition find_faint_extended (nints ng nr nc : nat) (dat : arr4 fo) (ingdq : arr4 N) (pdq : img N) : arr4 N * nat :=
    if Z.ltb (Z.of_nat nints * (Z.of_nat ng - 1) - Z.of_nat (count_dnu_groups nints ng nr nc ingdq)) 10 then (ingdq, 0%nat)
    else
      let gdq0 := ref_masked ingdq pdq in
      let evs := shower_events nints ng nr nc (nan_invalid dat ingdq) gdq0 pdq in
      (max_flux_showers ng dat ingdq (flag_showers ng nr nc evs gdq0), list_sum (map (fun ev => length (snd ev)) evs)).
End Snow.

(** setup_pdq (lines 286-304) *)
Definition setup_pdq (fo : FOps) (ngv dnu : N) (gain : img fo) (pdq : img N) : img N :=
  fun r c => if fle fo (gain r c) (fzero fo) || fisnan fo (gain r c) then N.lor (pdq r c) (N.lor ngv dnu) else pdq r c.
