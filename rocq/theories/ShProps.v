(** Theorems about the geometry of snowball ellipses (C96). *)
From Verif Require Import Base JumpModel SnowModel ShModel.
From Coq Require Import Reals Lra Psatz SpecFloat.
From Verif Require Import RBase SnowProps.
Local Open Scope R_scope.

(** * C96: the saturated core must lie inside the jump ellipse *)
(** ** Specification: the ellipse an area is measured as, and drawn as
    skimage measures a region by its centroid, its full axes (minus one: [e_w] major, [e_h] minor) and the angle between the
    row axis and the major axis; skimage.draw.ellipse with row radius w/2, column radius h/2 and that rotation (lines 1283-1290)
    covers the same pixels: the offset (row dr, column dc) is resolved along (cos, sin) and across it. *)
Definition deg (x : R) : R := x * PI / 180.
Definition cosd (x : R) : R := cos (deg x).
Definition sind (x : R) : R := sin (deg x).
Definition ellipse_form (e : ellipse RF) (dr dc : R) : R :=
  ((dr * cosd (e_angle e) + dc * sind (e_angle e)) / (e_w e / 2))² + ((dr * sind (e_angle e) - dc * cosd (e_angle e)) / (e_h e / 2))².
Definition in_area (e : ellipse RF) (col row : R) : Prop := ellipse_form e (row - e_row e) (col - e_col e) <= 1.
Lemma cosd_180 x : cosd (180 - x) = - cosd x.
Proof. unfold cosd, deg. replace ((180 - x) * PI / 180) with (PI - x * PI / 180) by field. rewrite cos_minus, cos_PI, sin_PI. lra. Qed.
Lemma sind_180 x : sind (180 - x) = sind x.
Proof. unfold sind, deg. replace ((180 - x) * PI / 180) with (PI - x * PI / 180) by field. rewrite sin_minus, cos_PI, sin_PI. lra. Qed.
Lemma cs1 x : cosd x * cosd x + sind x * sind x = 1.
Proof. unfold cosd, sind. pose proof (sin2_cos2 (deg x)) as H. unfold Rsqr in H. lra. Qed.
Notation inside := (inside_ellipse RF cosd sind).
(** the test as a formula *)
Lemma inside_form (e : ellipse RF) (x y : R) : 0 < (e_h e : R) <= e_w e ->
  inside (x, y) e = true <-> ellipse_form e (x - e_col e) (y - e_row e) <= 1.
Proof.
  intros [H W]. unfold inside_ellipse, ellipse_form. cbn [fst snd fle RF fsub fofZ fmul fdiv fone fadd].
  replace (Rleb (e_h e) (e_w e)) with true by (symmetry; apply Rleb_spec; exact W). rewrite Rleb_spec.
  change (IZR 180) with 180. rewrite cosd_180, sind_180. unfold Rsqr.
  set (cc := cosd (e_angle e)). set (ss := sind (e_angle e)). set (u := x - e_col e). set (v := y - e_row e).
  set (w := e_w e : R) in *. set (h := e_h e : R) in *.
  match goal with |- ?a <= 1 <-> ?b <= 1 => replace a with b; [tauto|] end. change (IZR 2) with 2. field. lra.
Qed.
(** What the test does: it is the area mirrored at the diagonal, rows for columns. *)
Theorem C96_mirrored : forall (e : ellipse RF) (x y : R), 0 < (e_h e : R) <= e_w e ->
  inside (x, y) e = true <-> in_area e (e_col e + (y - e_row e)) (e_row e + (x - e_col e)).
Proof.
  intros e x y H. rewrite (inside_form e x y H). unfold in_area.
  set (u := x - e_col e). set (v := y - e_row e).
  replace (e_row e + u - e_row e) with u by (unfold u; lra). replace (e_col e + v - e_col e) with v by (unfold v; lra). reflexivity.
Qed.
Print Assumptions C96_mirrored.
(** Hence it is right for circles and for ellipses along the diagonal. *)
Theorem C96_agrees_partial : forall (e : ellipse RF) (x y : R), 0 < (e_h e : R) <= e_w e -> (e_h e : R) = e_w e \/ cosd (e_angle e) = sind (e_angle e) \/ cosd (e_angle e) = - sind (e_angle e) ->
  inside (x, y) e = true <-> in_area e x y.
Proof.
  intros e x y H D. rewrite (inside_form e x y H). unfold in_area, ellipse_form. destruct H as [H W].
  set (cc := cosd (e_angle e)) in *. set (ss := sind (e_angle e)) in *. set (u := x - e_col e). set (v := y - e_row e).
  set (w := e_w e : R) in *. set (h := e_h e : R) in *.
  match goal with |- ?a <= 1 <-> ?b <= 1 => replace a with b; [tauto|] end.
  pose proof (cs1 (e_angle e)) as T. fold cc ss in T. unfold Rsqr. destruct D as [D|[D|D]].
  - rewrite D. transitivity ((u * u + v * v) * (cc * cc + ss * ss) / (w / 2 * (w / 2))); field; lra.
  - rewrite D. field. lra.
  - rewrite D. field. lra.
Qed.
Print Assumptions C96_agrees_partial.
(** In general: a core closer to the centre than the minor half axis is always accepted, one beyond the major half axis never;
    the same bounds hold of the area, so test and area can differ only between. *)
Theorem C96_bounds : forall (e : ellipse RF) (x y : R), 0 < (e_h e : R) <= e_w e -> let d2 := (x - e_col e)² + (y - e_row e)² in
  (d2 <= (e_h e / 2)² -> inside (x, y) e = true /\ in_area e x y) /\ (d2 > (e_w e / 2)² -> inside (x, y) e = false /\ ~ in_area e x y).
Proof.
  intros e x y H d2.
  assert (G : forall dr dc, dr² + dc² = d2 -> (d2 <= (e_h e / 2)² -> ellipse_form e dr dc <= 1) /\ (d2 > (e_w e / 2)² -> 1 < ellipse_form e dr dc)).
  { intros dr dc E. unfold ellipse_form. destruct H as [H W]. set (cc := cosd (e_angle e)). set (ss := sind (e_angle e)).
    set (w := e_w e : R) in *. set (h := e_h e : R) in *. pose proof (cs1 (e_angle e)) as T. fold cc ss in T.
    set (p := dr * cc + dc * ss). set (q := dr * ss - dc * cc).
    assert (PQ : p² + q² = d2) by (rewrite <- E; unfold p, q, Rsqr; transitivity ((dr * dr + dc * dc) * (cc * cc + ss * ss)); [ring|rewrite T; ring]).
    assert (Hp : 0 <= p²) by apply Rle_0_sqr. assert (Hq : 0 <= q²) by apply Rle_0_sqr.
    assert (h2 : 0 < (h / 2)²) by (apply Rsqr_pos_lt; lra). assert (w2 : 0 < (w / 2)²) by (apply Rsqr_pos_lt; lra).
    assert (hw : (h / 2)² <= (w / 2)²) by (apply Rsqr_incr_1; lra).
    rewrite (Rsqr_div' p (w / 2)), (Rsqr_div' q (h / 2)).
    assert (IH : / (w / 2)² <= / (h / 2)²) by (apply Rinv_le_contravar; assumption). assert (IW : 0 < / (w / 2)²) by (apply Rinv_0_lt_compat; assumption).
    unfold Rdiv. split; intro X.
    - apply Rle_trans with (d2 * / (h / 2)²).
      + rewrite <- PQ, Rmult_plus_distr_r. apply Rplus_le_compat_r, Rmult_le_compat_l; assumption.
      + apply (Rmult_le_reg_r ((h / 2)²)); [assumption|]. rewrite Rmult_assoc, Rinv_l by lra. lra.
    - apply Rlt_le_trans with (d2 * / (w / 2)²).
      + apply (Rmult_lt_reg_r ((w / 2)²)); [assumption|]. rewrite Rmult_assoc, Rinv_l by lra. lra.
      + rewrite <- PQ, Rmult_plus_distr_r. apply Rplus_le_compat_l, Rmult_le_compat_l; assumption. }
  destruct (G (x - e_col e) (y - e_row e) eq_refl) as [A1 A2]. destruct (G (y - e_row e) (x - e_col e)) as [B1 B2]; [unfold d2; ring|].
  split; intro X.
  - split; [apply inside_form; [exact H|exact (A1 X)]|exact (B1 X)].
  - split; [apply not_true_is_false; rewrite (inside_form e x y H); specialize (A2 X); lra|unfold in_area; specialize (B2 X); lra].
Qed.
Print Assumptions C96_bounds.
(** In general it is wrong: a jump 21 pixels tall and 5 wide.  A core 8 rows above the centre is inside the area and rejected,
    one 8 columns beside it is outside and accepted. *)
Theorem C96_core_refuted : exists e : ellipse RF, 0 < (e_h e : R) <= e_w e /\
  (exists x y, in_area e x y /\ inside (x, y) e = false) /\ (exists x y, ~ in_area e x y /\ inside (x, y) e = true).
Proof.
  exists {| e_col := 0 : RF; e_row := 0 : RF; e_h := 4 : RF; e_w := 20 : RF; e_angle := 0 : RF |}. cbn [e_h e_w].
  assert (C : cosd 0 = 1) by (unfold cosd, deg; replace (0 * PI / 180) with 0 by field; apply cos_0).
  assert (S : sind 0 = 0) by (unfold sind, deg; replace (0 * PI / 180) with 0 by field; apply sin_0).
  split; [lra|]. split; [exists 0, 8|exists 8, 0]; split.
  - unfold in_area, ellipse_form, Rsqr. cbn [e_col e_row e_h e_w e_angle]. rewrite C, S. lra.
  - apply not_true_is_false. rewrite inside_form by (cbn; lra). unfold ellipse_form, Rsqr. cbn [e_col e_row e_h e_w e_angle]. rewrite C, S. lra.
  - unfold in_area, ellipse_form, Rsqr. cbn [e_col e_row e_h e_w e_angle]. rewrite C, S. lra.
  - apply inside_form; [cbn; lra|]. unfold ellipse_form, Rsqr. cbn [e_col e_row e_h e_w e_angle]. rewrite C, S. lra.
Qed.
Print Assumptions C96_core_refuted.
(** The same in the selection of snowballs, in double precision: the tall jump is dropped although its core saturated 8 rows from
    its centre, and kept when the core is 8 columns from it (angle 0, so the cosine of 180 degrees is -1; the sine is taken as 0). *)
Definition el64 (c r h w : Z) : ellipse B64 := {| e_col := fofZ B64 c; e_row := fofZ B64 r; e_h := fofZ B64 h; e_w := fofZ B64 w; e_angle := fzero B64 |}.
Theorem C96_selection_refuted : exists j core core',
  let run c := length (select B64 (exS true) (inside_ellipse B64 (fun _ => fofZ B64 (-1)) (fun _ => fzero B64)) 5 2048 2 [j] [c] []) in
  j = el64 900 900 4 20 /\ core = el64 900 908 2 2 /\ core' = el64 908 900 2 2 /\ run core = 0%nat /\ run core' = 1%nat.
Proof. do 3 eexists. intro run. split; [reflexivity|]. split; [reflexivity|]. split; [reflexivity|]. split; unfold run; vm_compute; reflexivity. Qed.
Print Assumptions C96_selection_refuted.
(** a circle of diameter 10 around (100, 50) *)
Example C96_example : let e := {| e_col := 100 : RF; e_row := 50 : RF; e_h := 10 : RF; e_w := 10 : RF; e_angle := 30 : RF |} in
  0 < (e_h e : R) <= e_w e /\ inside (103, 53) e = true /\ in_area e 103 53 /\ inside (104, 54) e = false.
Proof.
  intro e. assert (H : 0 < (e_h e : R) <= e_w e) by (cbn; lra). split; [exact H|].
  destruct (C96_bounds e 103 53 H) as [A _]. destruct (C96_bounds e 104 54 H) as [_ B].
  assert (X : (103 - e_col e)² + (53 - e_row e)² <= (e_h e / 2)²) by (unfold Rsqr; cbn; lra).
  assert (Y : (104 - e_col e)² + (54 - e_row e)² > (e_w e / 2)²) by (unfold Rsqr; cbn; lra).
  destruct (A X). destruct (B Y). auto.
Qed.
