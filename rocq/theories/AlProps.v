(** C51 (rotation matrices), C52 (bounding boxes), C54 (velocity aberration), C88 (pixel scale), in exact arithmetic *)
From Verif Require Import Base AlModel RBase TwProps2.
From Coq Require Import Reals Lra Lia.
Import ListNotations.
Local Open Scope R_scope.

(** ** C54 *)
Definition dot3 (a b : R * R * R) : R := let '(a1, a2, a3) := a in let '(b1, b2, b3) := b in a1 * b1 + a2 * b2 + a3 * b3.
Definition neg3 (a : R * R * R) : R * R * R := let '(a1, a2, a3) := a in (- a1, - a2, - a3).
Definition beta (c : R) (v : R * R * R) : R * R * R := let '(a, b, d) := v in (a / c, b / c, d / c).

Lemma va_unfold c v u : va_vector RF c v u =
  let b := beta c v in let b2 := dot3 b b in
  if Reqb b2 0 then (1, u) else
  let ub := dot3 u b in let g := sqrt (1 - b2) in let k := 1 + (1 - g) * ub / b2 in
  let '(u1, u2, u3) := u in let '(b1, b2', b3) := b in
  ((1 + ub) / g, ((g * u1 + b1 * k) / (1 + ub), (g * u2 + b2' * k) / (1 + ub), (g * u3 + b3 * k) / (1 + ub))).
Proof. destruct u as [[u1 u2] u3], v as [[a1 a2] a3]. reflexivity. Qed.

Lemma cauchy a b : Rsqr (dot3 a b) <= dot3 a a * dot3 b b.
Proof.
  destruct a as [[a1 a2] a3], b as [[b1 b2] b3]; unfold dot3, Rsqr.
  assert (0 <= (a1 * b2 - a2 * b1) * (a1 * b2 - a2 * b1)) by apply Rle_0_sqr.
  assert (0 <= (a1 * b3 - a3 * b1) * (a1 * b3 - a3 * b1)) by apply Rle_0_sqr.
  assert (0 <= (a2 * b3 - a3 * b2) * (a2 * b3 - a3 * b2)) by apply Rle_0_sqr. nra.
Qed.
Lemma dot3_nonneg a : 0 <= dot3 a a. Proof. destruct a as [[a1 a2] a3]; unfold dot3. nra. Qed.
Lemma ub_pos u b : dot3 u u = 1 -> dot3 b b < 1 -> 0 < 1 + dot3 u b.
Proof.
  intros Hu Hb. pose proof (cauchy u b) as H. rewrite Hu, Rmult_1_l in H. unfold Rsqr in H.
  destruct (Rlt_or_le 0 (1 + dot3 u b)) as [|Hn]; [assumption|exfalso]. nra.
Qed.

Section Va.
  Variables (c : R) (v u : R * R * R).
  Hypothesis Hu : dot3 u u = 1.
  Hypothesis Hv : dot3 (beta c v) (beta c v) < 1.
  (** the corrected direction is a unit vector, the scale is positive, its component along the velocity follows the relativistic
      addition law; a zero velocity changes nothing *)
  Theorem C54_direction : let b := beta c v in let '(s, w) := va_vector RF c v u in
    dot3 w w = 1 /\ 0 < s /\ dot3 w b * (1 + dot3 u b) = dot3 u b + dot3 b b /\
    s * sqrt (1 - dot3 b b) = 1 + dot3 u b /\ (dot3 b b = 0 -> s = 1 /\ w = u).
  Proof.
    rewrite va_unfold. cbn zeta. destruct (Reqb (dot3 (beta c v) (beta c v)) 0) eqn:E.
    - apply Reqb_spec in E. assert (Hub : dot3 u (beta c v) = 0).
      { pose proof (cauchy u (beta c v)) as H. rewrite E, Rmult_0_r in H. apply Rsqr_0_uniq. pose proof (Rle_0_sqr (dot3 u (beta c v))). unfold Rsqr in *. lra. }
      rewrite Hub, E, Rminus_0_r, sqrt_1. split; [assumption|]. split; [lra|]. split; [lra|]. split; [lra|]. intros _. now split.
    - assert (Hb : dot3 (beta c v) (beta c v) <> 0) by (intros H; apply Reqb_spec in H; congruence).
      pose proof (dot3_nonneg (beta c v)) as Hn. pose proof (ub_pos u (beta c v) Hu Hv) as Hp.
      assert (Hg : 0 < sqrt (1 - dot3 (beta c v) (beta c v))) by (apply sqrt_lt_R0; lra).
      assert (Hg2 : sqrt (1 - dot3 (beta c v) (beta c v)) * sqrt (1 - dot3 (beta c v) (beta c v)) = 1 - dot3 (beta c v) (beta c v)) by (apply sqrt_sqrt; lra).
      set (g := sqrt _) in *. clearbody g. set (ub := dot3 u (beta c v)) in *. assert (Eub : ub = dot3 u (beta c v)) by reflexivity. clearbody ub.
      set (bb := dot3 (beta c v) (beta c v)) in *. assert (Ebb : bb = dot3 (beta c v) (beta c v)) by reflexivity. clearbody bb.
      destruct u as [[u1 u2] u3]. destruct (beta c v) as [[b1 b2] b3]. set (k := 1 + (1 - g) * ub / bb).
      assert (Hk : k * bb = bb + (1 - g) * ub) by (unfold k; field; assumption). clearbody k. clear c v E Hv.
      unfold dot3 in *. split; [|split; [|split; [|split]]].
      + assert (Hw : (g * u1 + b1 * k) * (g * u1 + b1 * k) + (g * u2 + b2 * k) * (g * u2 + b2 * k) + (g * u3 + b3 * k) * (g * u3 + b3 * k) = (1 + ub) * (1 + ub)).
        { replace (_ + _) with (g * g * (u1 * u1 + u2 * u2 + u3 * u3) + 2 * g * k * (u1 * b1 + u2 * b2 + u3 * b3) + k * k * (b1 * b1 + b2 * b2 + b3 * b3)) by ring.
          rewrite Hu, <- Eub, <- Ebb. apply Rmult_eq_reg_r with bb; [|assumption].
          replace ((g * g * 1 + 2 * g * k * ub + k * k * bb) * bb) with (g * g * bb + 2 * g * ub * (k * bb) + (k * bb) * (k * bb)) by ring.
          rewrite Hk. replace (g * g * bb + 2 * g * ub * (bb + (1 - g) * ub) + (bb + (1 - g) * ub) * (bb + (1 - g) * ub))
            with (bb * (g * g + bb) + 2 * ub * bb + ub * ub * (1 - g * g)) by ring. rewrite Hg2. ring. }
        apply Rmult_eq_reg_r with ((1 + ub) * (1 + ub)); [|nra]. rewrite Rmult_1_l. refine (eq_trans _ Hw). field. lra.
      + apply Rdiv_lt_0_compat; lra.
      + replace (_ * (1 + ub)) with (g * (u1 * b1 + u2 * b2 + u3 * b3) + k * (b1 * b1 + b2 * b2 + b3 * b3)) by (field; lra).
        rewrite <- Eub, <- Ebb, Hk. ring.
      + field. lra.
      + intros H. contradiction.
  Qed.
  (** the opposite velocity undoes the correction, direction and scale *)
  Theorem C54_inverse : let '(s, w) := va_vector RF c v u in let '(s', w') := va_vector RF c (neg3 v) w in w' = u /\ s * s' = 1.
  Proof.
    pose proof C54_direction as HD. cbn zeta in HD. rewrite va_unfold in *. cbn zeta in *.
    assert (Eneg : beta c (neg3 v) = neg3 (beta c v)) by (destruct v as [[v1 v2] v3]; unfold beta, neg3, Rdiv; f_equal; [f_equal|]; ring).
    assert (Enn : dot3 (neg3 (beta c v)) (neg3 (beta c v)) = dot3 (beta c v) (beta c v)) by (destruct (beta c v) as [[b1 b2] b3]; unfold dot3, neg3; ring).
    destruct (Reqb (dot3 (beta c v) (beta c v)) 0) eqn:E.
    - rewrite va_unfold. cbn zeta. rewrite Eneg, Enn, E. split; [reflexivity|lra].
    - assert (Hb : dot3 (beta c v) (beta c v) <> 0) by (intros H; apply Reqb_spec in H; congruence).
      pose proof (dot3_nonneg (beta c v)) as Hn. pose proof (ub_pos u (beta c v) Hu Hv) as Hp.
      assert (Hg : 0 < sqrt (1 - dot3 (beta c v) (beta c v))) by (apply sqrt_lt_R0; lra).
      assert (Hg2 : sqrt (1 - dot3 (beta c v) (beta c v)) * sqrt (1 - dot3 (beta c v) (beta c v)) = 1 - dot3 (beta c v) (beta c v)) by (apply sqrt_sqrt; lra).
      set (g := sqrt _) in *. assert (Eg : g = sqrt (1 - dot3 (beta c v) (beta c v))) by reflexivity. clearbody g. set (ub := dot3 u (beta c v)) in *. assert (Eub : ub = dot3 u (beta c v)) by reflexivity. clearbody ub.
      set (bb := dot3 (beta c v) (beta c v)) in *. assert (Ebb : bb = dot3 (beta c v) (beta c v)) by reflexivity. clearbody bb.
      destruct u as [[u1 u2] u3]. set (bv := beta c v) in *. destruct bv as [[b1 b2] b3]. set (k := 1 + (1 - g) * ub / bb) in *.
      assert (Hk : k * bb = bb + (1 - g) * ub) by (unfold k; field; assumption). assert (Ek : k = 1 + (1 - g) * ub / bb) by reflexivity. clearbody k.
      destruct HD as (_ & _ & Hwb & _ & _). rewrite va_unfold. cbn zeta. rewrite Eneg, Enn, E, <- Eg.
      set (w1 := (g * u1 + b1 * k) / (1 + ub)) in *. set (w2 := (g * u2 + b2 * k) / (1 + ub)) in *. set (w3 := (g * u3 + b3 * k) / (1 + ub)) in *.
      assert (Ewb : dot3 (w1, w2, w3) (neg3 (b1, b2, b3)) = - dot3 (w1, w2, w3) (b1, b2, b3)) by (unfold dot3, neg3; ring).
      rewrite Ewb. assert (Hwb' : dot3 (w1, w2, w3) (b1, b2, b3) = (ub + bb) / (1 + ub)) by (apply Rmult_eq_reg_r with (1 + ub); [rewrite Hwb; field; lra|lra]).
      rewrite Hwb'. clear Hwb Hwb' Ewb. set (W := (ub + bb) / (1 + ub)) in *.
      assert (HW : 1 + - W = g * g / (1 + ub)) by (unfold W; rewrite Hg2; field; lra).
      assert (HWp : 1 + - W <> 0). { rewrite HW. assert (0 < g * g / (1 + ub)) by (apply Rdiv_lt_0_compat; nra). lra. }
      unfold neg3. split.
      + assert (Hcomp : forall x b, (g * ((g * x + b * k) / (1 + ub)) + - b * (1 + (1 - g) * - W / bb)) / (1 + - W) = x).
        { intros x b. apply Rmult_eq_reg_r with (1 + - W); [|assumption]. unfold Rdiv at 1. rewrite Rmult_assoc, Rinv_l, Rmult_1_r by assumption.
          rewrite HW. apply Rmult_eq_reg_r with (1 + ub); [|lra].
          replace ((g * ((g * x + b * k) / (1 + ub)) + - b * (1 + (1 - g) * - W / bb)) * (1 + ub)) with (g * (g * x + b * k) - b * ((1 + ub) - (1 - g) * (W * (1 + ub)) / bb)) by (field; split; [assumption|lra]).
          replace (W * (1 + ub)) with (ub + bb) by (unfold W; field; lra). replace (x * (g * g / (1 + ub)) * (1 + ub)) with (g * g * x) by (field; lra).
          assert (Hk' : g * k = (1 + ub) - (1 - g) * (ub + bb) / bb).
          { apply Rmult_eq_reg_r with bb; [|assumption]. replace (g * k * bb) with (g * (k * bb)) by ring. rewrite Hk.
            replace ((1 + ub - (1 - g) * (ub + bb) / bb) * bb) with ((1 + ub) * bb - (1 - g) * (ub + bb)) by (field; assumption).
            replace (g * (bb + (1 - g) * ub)) with (g * bb + g * ub - g * g * ub) by ring. rewrite Hg2. ring. }
          rewrite <- Hk'. ring. }
        unfold w1, w2, w3. now rewrite !Hcomp.
      + rewrite HW. field. lra.
  Qed.
End Va.
Print Assumptions C54_direction.
Print Assumptions C54_inverse.
Example C54_ex : dot3 (1, 0, 0) (1, 0, 0) = 1 /\ dot3 (beta 2 (0, 1, 0)) (beta 2 (0, 1, 0)) < 1 /\ fst (va_vector RF 2 (0, 1, 0) (1, 0, 0)) = 1 / sqrt (3 / 4).
Proof.
  split; [unfold dot3; lra|]. split; [unfold dot3, beta; lra|]. rewrite va_unfold. cbn zeta. unfold dot3, beta.
  destruct (Reqb _ 0) eqn:E; [apply Reqb_spec in E; lra|]. cbn [fst]. f_equal; [lra|]. f_equal. lra.
Qed.

(** ** C51 *)
Theorem C51_matrix roll y parity :
  match rotation_matrix RF cos sin roll y parity with
  | None => parity <> 1%Z /\ parity <> (-1)%Z
  | Some (a, b, c, d) => (parity = 1%Z \/ parity = (-1)%Z) /\
      a * a + b * b = 1 /\ c * c + d * d = 1 /\ a * c + b * d = 0 /\ a * d - b * c = IZR parity
  end.
Proof.
  unfold rotation_matrix. destruct (Z.eqb_spec parity 1) as [->|H1]; cbn [orb].
  - cbn [RF fofZ fmul fsub fzero]. pose proof (sin2_cos2 (roll - 1 * y)) as H. unfold Rsqr in H.
    split; [now left|]. set (s := sin _) in *. set (k := cos _) in *. clearbody s k. repeat split; try lra; nra.
  - destruct (Z.eqb_spec parity (-1)) as [->|H2]; [|now split].
    cbn [RF fofZ fmul fsub fzero]. pose proof (sin2_cos2 (roll - -1 * y)) as H. unfold Rsqr in H.
    split; [now right|]. set (s := sin _) in *. set (k := cos _) in *. clearbody s k. repeat split; try lra; nra.
Qed.
Print Assumptions C51_matrix.
(** a requested position angle alone fixes the matrix: reference roll and y-angle drop out *)
Theorem C51_rotation roll y roll' y' parity r : (parity = 1%Z \/ parity = (-1)%Z) ->
  wcs_pc RF cos sin rad roll y parity (Some r) = wcs_pc RF cos sin rad roll' y' parity (Some r) /\
  wcs_pc RF cos sin rad roll y parity (Some r) = Some (IZR parity * cos (rad r), sin (rad r), IZR parity * - sin (rad r), cos (rad r)).
Proof.
  intros Hp. assert (G : forall y, wcs_pc RF cos sin rad roll y parity (Some r) = Some (IZR parity * cos (rad r), sin (rad r), IZR parity * - sin (rad r), cos (rad r))).
  { intros z. unfold wcs_pc, rotation_matrix. destruct Hp as [->| ->]; cbn [Z.eqb orb RF fofZ fmul fsub fadd fzero Pos.eqb].
    - replace (rad r + 1 * rad z - 1 * rad z) with (rad r) by ring. now rewrite Rminus_0_l.
    - replace (rad r + -1 * rad z - -1 * rad z) with (rad r) by ring. now rewrite Rminus_0_l. }
  split; [|apply G]. rewrite G. symmetry. unfold wcs_pc in *. apply G.
Qed.
Print Assumptions C51_rotation.
Example C51_ex : rotation_matrix RF cos sin 0 0 2 = None /\ exists m, rotation_matrix RF cos sin 1 2 (-1) = Some m.
Proof. split; [reflexivity|eexists; reflexivity]. Qed.

(** ** C52 *)
Lemma lmin_spec l : forall x : R, let m : R := lmin RF x l in (m = x \/ In m l) /\ m <= x /\ forall y, In y l -> m <= y.
Proof.
  unfold lmin. induction l as [|a l IH]; intros x; cbn [fold_left]; [split; [now left|]; split; [lra|intros y []]|].
  cbn [RF flt]. destruct (Rltb a x) eqn:E.
  - apply Rltb_spec in E. destruct (IH a) as (H1 & H2 & H3); cbn [RF flt] in *; set (q := fold_left _ _ _) in *; clearbody q. split; [destruct H1 as [H1|H1]; right; [left; now symmetry|now right]|].
    split; [lra|]. intros y [<-|Hy]; [lra|now apply H3].
  - assert (~ a < x) by (rewrite <- Rltb_spec; congruence). destruct (IH x) as (H1 & H2 & H3); cbn [RF flt] in *; set (q := fold_left _ _ _) in *; clearbody q. split; [destruct H1 as [H1|H1]; [now left|right; now right]|].
    split; [lra|]. intros y [<-|Hy]; [lra|now apply H3].
Qed.
Lemma lmax_spec l : forall x : R, let m : R := lmax RF x l in (m = x \/ In m l) /\ x <= m /\ forall y, In y l -> y <= m.
Proof.
  unfold lmax. induction l as [|a l IH]; intros x; cbn [fold_left]; [split; [now left|]; split; [lra|intros y []]|].
  cbn [RF flt]. destruct (Rltb x a) eqn:E.
  - apply Rltb_spec in E. destruct (IH a) as (H1 & H2 & H3); cbn [RF flt] in *; set (q := fold_left _ _ _) in *; clearbody q. split; [destruct H1 as [H1|H1]; right; [left; now symmetry|now right]|].
    split; [lra|]. intros y [<-|Hy]; [lra|now apply H3].
  - assert (~ x < a) by (rewrite <- Rltb_spec; congruence). destruct (IH x) as (H1 & H2 & H3); cbn [RF flt] in *; set (q := fold_left _ _ _) in *; clearbody q. split; [destruct H1 as [H1|H1]; [now left|right; now right]|].
    split; [lra|]. intros y [<-|Hy]; [lra|now apply H3].
Qed.
Lemma trunc_neg x : x < 0 -> x <= IZR (trunc x) < x + 1.
Proof.
  intros H. unfold trunc. destruct (Rleb 0 x) eqn:E; [apply Rleb_spec in E; lra|]. destruct (archimed (- x)) as [H1 H2]. rewrite minus_IZR. lra.
Qed.
(** the fiducial is the origin of the native plane; [t + a_offset] is a vertex' pixel coordinate in the output *)
(** no reference pixel asked for: every vertex lies at 0 or above, less than one pixel beyond the box, and the extreme one is not inside it *)
Theorem C52_default_box_partial (ts : list R) : match box_axis RF trunc ts 0 None None with
  | None => ts = []
  | Some a => a_lo RF a = -1/2 /\ a_hi RF a = IZR (a_size RF a) - 1/2 /\ (0 <= a_size RF a)%Z /\
      (exists t, In t ts /\ t + a_offset RF a = 0) /\
      (forall t, In t ts -> 0 <= t + a_offset RF a < a_hi RF a + 1) /\ (exists t, In t ts /\ a_hi RF a <= t + a_offset RF a)
  end.
Proof.
  destruct ts as [|t ts]; cbn [box_axis]; [reflexivity|]. unfold half. cbn [a_lo a_hi a_size a_offset RF fsub fadd fdiv fzero fone fofZ].
  destruct (lmin_spec ts t) as (Hm & Hmx & Hml). destruct (lmax_spec ts t) as (HM & HMx & HMl).
  change (F RF) with R in *. set (m := lmin RF t ts) in *. set (M := lmax RF t ts) in *.
  assert (Hpos : 0 <= M + (0 - m) + 1 / 2) by lra. pose proof (trunc_nonneg _ Hpos) as HT. set (T := trunc _) in *.
  split; [lra|]. split; [lra|]. split.
  { assert (HT1 : (-1 < T)%Z) by (apply lt_IZR; lra). lia. }
  split; [exists m; split; [destruct Hm as [->|Hm]; [now left|now right]|lra]|].
  split; [|exists M; split; [destruct HM as [->|HM]; [now left|now right]|lra]].
  intros y [<-|Hy]; [split; lra|]. specialize (Hml y Hy). specialize (HMl y Hy). split; lra.
Qed.
Print Assumptions C52_default_box_partial.
(** a given shape: the box stays within the image *)
Theorem C52_shape (ts : list R) ncrp crpix sz : match box_axis RF trunc ts ncrp crpix (Some sz) with
  | None => ts = []
  | Some a => a_size RF a = sz /\ -1/2 <= a_lo RF a /\ a_hi RF a <= IZR sz - 1/2 /\
      (exists lo hi, a_lo RF a = IZR lo - 1/2 /\ a_hi RF a = IZR hi - 1/2) /\
      (forall t, In t ts -> let p := t + a_offset RF a in a_lo RF a <= 0 \/ a_lo RF a <= p) /\
      (forall t, In t ts -> let p := t + a_offset RF a in 0 <= p -> IZR sz - 1/2 <= a_hi RF a \/ p < a_hi RF a + 1)
  end.
Proof.
  destruct ts as [|t ts]; cbn [box_axis]; [reflexivity|]. unfold half. cbn [a_lo a_hi a_size a_offset RF fsub fadd fdiv fzero fone fofZ].
  destruct (lmin_spec ts t) as (Hm & Hmx & Hml). destruct (lmax_spec ts t) as (HM & HMx & HMl).
  set (off := match crpix with None => _ | Some _ => _ end). change (F RF) with R in *. set (m := lmin RF t ts) in *. set (M := lmax RF t ts) in *. clearbody off.
  split; [reflexivity|]. assert (H0 : 0 <= IZR (Z.max 0 (trunc (m + off + 1 / 2)))) by (apply (IZR_le 0); lia).
  split; [lra|]. assert (Hs : IZR (Z.min (trunc (M + off + 1 / 2)) sz) <= IZR sz) by (apply IZR_le; lia). split; [lra|].
  split; [do 2 eexists; split; reflexivity|]. split.
  - intros y Hy. cbn zeta. assert (Hmy : m <= y) by (destruct Hy as [<-|Hy]; auto). destruct (Z.max_spec 0 (trunc (m + off + 1 / 2))) as [[Hz ->]|[Hz ->]]; [|left; lra].
    right. assert (0 <= m + off + 1 / 2). { destruct (Rle_or_lt 0 (m + off + 1 / 2)) as [|Hneg]; [assumption|]. pose proof (trunc_neg _ Hneg). 
      assert (Hq : (1 <= trunc (m + off + 1/2))%Z) by lia. apply IZR_le in Hq. lra. }
    pose proof (trunc_nonneg _ H). lra.
  - intros y Hy Hp. cbn zeta in *. assert (HMy : y <= M) by (destruct Hy as [<-|Hy]; auto). pose proof (trunc_nonneg (M + off + 1 / 2) ltac:(lra)).
    destruct (Z.min_spec (trunc (M + off + 1 / 2)) sz) as [[Hz ->]|[Hz ->]]; [right; lra|left; lra].
Qed.
Print Assumptions C52_shape.
(** the fiducial lands on the requested reference pixel *)
Theorem C52_crpix (ts : list R) ncrp c size a : box_axis RF trunc ts ncrp (Some c) size = Some a -> ncrp + a_offset RF a = c.
Proof. destruct ts; [discriminate|]. cbn [box_axis]. intros [= <-]. destruct size; cbn [a_offset RF fsub]; lra. Qed.
Print Assumptions C52_crpix.
Lemma trunc_int z : (0 <= z)%Z -> trunc (IZR z) = z.
Proof.
  intros H. pose proof (trunc_nonneg (IZR z) (IZR_le 0 _ H)) as [H1 H2]. apply le_IZR in H1. rewrite <- plus_IZR in H2. apply lt_IZR in H2. lia.
Qed.
Lemma trunc_eq x z : (0 <= z)%Z -> IZR z <= x < IZR z + 1 -> trunc x = z.
Proof.
  intros H Hx. assert (H0 : 0 <= IZR z) by (now apply (IZR_le 0)). pose proof (trunc_nonneg x ltac:(lra)) as [H1 H2].
  assert (IZR (trunc x) < IZR z + 1) by lra. assert (IZR z < IZR (trunc x) + 1) by lra. rewrite <- plus_IZR in *.
  apply lt_IZR in H3. apply lt_IZR in H4. lia.
Qed.
(** the extreme vertex of the default box lies outside it *)
Theorem C52_outside_refuted : exists ts a, box_axis RF trunc ts 0 None None = Some a /\ exists t, In t ts /\ a_hi RF a < t + a_offset RF a.
Proof.
  exists [0; 10]. eexists. split; [reflexivity|]. exists 10. split; [right; now left|]. cbn [lmin lmax fold_left RF flt fsub fadd fzero fdiv fone fofZ half a_hi a_offset].
  destruct (Rltb 10 0) eqn:E1; [apply Rltb_spec in E1; lra|]. destruct (Rltb 0 10) eqn:E2; [|assert (0 < 10) by lra; apply Rltb_spec in H; congruence].
  rewrite (trunc_eq _ 10) by (try lia; lra). lra.
Qed.
Print Assumptions C52_outside_refuted.
(** with an explicit reference pixel and no shape, vertices may fall below the box *)
Theorem C52_below_refuted : exists ts c a, box_axis RF trunc ts 0 (Some c) None = Some a /\ exists t, In t ts /\ t + a_offset RF a < a_lo RF a.
Proof.
  exists [-10; 10], 0. eexists. split; [reflexivity|]. exists (-10). split; [now left|]. cbn. lra.
Qed.
Print Assumptions C52_below_refuted.
(** wcs_from_sregions refuses an image narrower than two pixels on either axis *)
Theorem C52_small tx ty nx ny crpix shape ax ay : boxes RF trunc tx ty nx ny crpix shape = Some (ax, ay) ->
  (2 <= a_size RF ax)%Z /\ (2 <= a_size RF ay)%Z /\ (forall s, shape = Some s -> a_size RF ay = fst s /\ a_size RF ax = snd s).
Proof.
  unfold boxes. destruct (box_axis RF trunc tx _ _ _) as [bx|] eqn:Ex; [|discriminate]. destruct (box_axis RF trunc ty _ _ _) as [by'|] eqn:Ey; [|discriminate]. cbn [bind].
  destruct (Z.ltb_spec (a_size RF by') 2); [discriminate|]. destruct (Z.ltb_spec (a_size RF bx) 2); [discriminate|]. cbn [orb]. intros [= <- <-].
  split; [assumption|]. split; [assumption|]. intros [sy sx] ->. cbn [option_map fst snd] in *. destruct tx, ty; try discriminate. cbn [box_axis] in *.
  injection Ex as <-. injection Ey as <-. now split.
Qed.
Print Assumptions C52_small.
Example C52_ex : exists a, box_axis RF trunc [0; 10] 0 None None = Some a. Proof. eexists; reflexivity. Qed.
(** the box of a shape covers every pixel of it and no other *)
Theorem C52_bbox_of_shape ny nx i j : let '((x0, x1), (y0, y1)) := bbox_of_shape RF ny nx in
  ((0 <= i < nx)%Z /\ (0 <= j < ny)%Z) <-> (x0 < IZR i < x1 /\ y0 < IZR j < y1).
Proof.
  unfold bbox_of_shape, half. cbn [RF fsub fdiv fzero fone fofZ].
  assert (G : forall k n, (0 <= k < n)%Z <-> 0 - 1 / 2 < IZR k < IZR n - 1 / 2).
  { intros k n. split.
    - intros [H1 H2]. assert (H3 : (k <= n - 1)%Z) by lia. apply IZR_le in H1. apply IZR_le in H3. rewrite minus_IZR in H3. lra.
    - intros [H1 H2]. assert (Ha : IZR (-1) < IZR k) by lra. apply lt_IZR in Ha. assert (Hb : IZR k < IZR n) by lra. apply lt_IZR in Hb. lia. }
  rewrite !G. reflexivity.
Qed.
Print Assumptions C52_bbox_of_shape.
Example C52_shape_ex : (0 <= 3 < 4)%Z. Proof. lia. Qed.

(** ** C88: the scale is linear in the requested ratio and positive *)
Theorem C88_scale spectral axis r sx sy k : 0 <= r -> scale RF spectral axis (Some r) sx sy = Some k ->
  exists k1, scale RF spectral axis None sx sy = Some k1 /\ k = r * k1 /\ (sx <> 0 -> sy <> 0 -> 0 < k1).
Proof.
  intros Hr. unfold scale. cbn [RF fsqrt fmul fabs]. destruct spectral.
  - destruct axis as [d|]; [|discriminate]. intros [= <-]. eexists. split; [reflexivity|]. destruct (Z.eqb d 1); (split; [apply Rmult_comm|intros; now apply Rabs_pos_lt]).
  - intros [= <-]. eexists. split; [reflexivity|]. pose proof (Rabs_pos sx). pose proof (Rabs_pos sy). split.
    + replace (Rabs sx * r * (Rabs sy * r)) with ((r * r) * (Rabs sx * Rabs sy)) by ring. rewrite sqrt_mult by nra. f_equal. now apply sqrt_square.
    + intros Hx Hy. apply sqrt_lt_R0. apply Rmult_lt_0_compat; now apply Rabs_pos_lt.
Qed.
Print Assumptions C88_scale.
Example C88_scale_ex : scale RF true (Some 1%Z) (Some 2) 3 4 = Some (Rabs 4 * 2). Proof. reflexivity. Qed.
(** the scale without a ratio: the geometric mean, or the separation along the axis that is not dispersed *)
Theorem C88_value spectral axis sx sy : match scale RF spectral axis None sx sy with
  | None => spectral = true /\ axis = None
  | Some k => 0 <= k /\ (spectral = false -> k * k = Rabs (sx * sy)) /\
      (spectral = true -> (axis = Some 1%Z -> k = Rabs sy) /\ (forall d, axis = Some d -> d <> 1%Z -> k = Rabs sx))
  end.
Proof.
  unfold scale. cbn [RF fsqrt fmul fabs]. destruct spectral.
  - destruct axis as [d|]; [|now split]. split; [destruct (Z.eqb d 1); apply Rabs_pos|]. split; [discriminate|]. intros _. split.
    + intros E. injection E as ->. reflexivity.
    + intros d' E Hd. injection E as <-. apply Z.eqb_neq in Hd. now rewrite Hd.
  - pose proof (Rabs_pos sx). pose proof (Rabs_pos sy). split; [apply sqrt_pos|]. split; [|discriminate]. intros _. rewrite sqrt_sqrt by nra. symmetry. apply Rabs_mult.
Qed.
Print Assumptions C88_value.
Example C88_value_ex : scale RF true None None 3 4 = None. Proof. reflexivity. Qed.
