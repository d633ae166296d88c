(** C24-C25 and C59-C63: snowballs, persistence, showers, pixel DQ set-up. *)
From Verif Require Import Base BaseLemmas FLaws RBase JumpModel JumpProofs JumpStage SnowModel SnowSpec SnowProofs.
From Coq Require Import ZifyBool ZifyNat ZifyN Reals Lra.
Local Open Scope nat_scope.

(** Flags are two different bits and the external region finder and ellipse drawing behave as described
    in SnowSpec. *)
Record snow_ok (fo : FOps) (P : snow fo) (kj ks : N) (disk : Z -> Z -> fo -> Z -> Z -> bool)
    (sat_regions jump_regions : img bool -> list (ellipse fo)) (nr nc : nat) : Prop := {
  ok_jump : s_jump P = bit kj; ok_sat : s_sat P = bit ks; ok_diff : kj <> ks;
  ok_disk : within_radius disk;
  ok_fs : looks_at_frame nr nc sat_regions; ok_fj : looks_at_frame nr nc jump_regions;
  ok_twins : no_twins fo jump_regions }.

(** ** C24 *)
(** skimage's ellipse test over the reals (skimage/draw/_ellipse: rotated coordinates divided by the
    radii), showing that [within_radius] is what geometry gives. *)
Definition sk_disk (a b : Z) (t : R) (x y : Z) : bool :=
  Rltb (((IZR x * cos t + IZR y * sin t) / IZR a) ^ 2 + ((IZR x * sin t - IZR y * cos t) / IZR b) ^ 2)%R 1%R.
Theorem C24_ellipse_in_subimage : forall a b t x y, (0 < a)%Z -> (0 < b)%Z ->
  sk_disk a b t x y = true -> (Z.abs x <= Z.max a b /\ Z.abs y <= Z.max a b)%Z.
Proof.
  intros a b t x y Ha Hb H. unfold sk_disk in H. rewrite Rltb_spec in H.
  set (u := (IZR x * cos t + IZR y * sin t)%R) in *. set (v := (IZR x * sin t - IZR y * cos t)%R) in *.
  assert (Hm : (0 < Z.max a b)%Z) by lia. apply IZR_lt in Ha, Hb, Hm.
  assert (Ma : (IZR a <= IZR (Z.max a b))%R) by (apply IZR_le; lia).
  assert (Mb : (IZR b <= IZR (Z.max a b))%R) by (apply IZR_le; lia).
  set (m := IZR (Z.max a b)) in *.
  assert (Q : (u ^ 2 + v ^ 2 < m ^ 2)%R).
  { assert (D : forall w c, (0 < c)%R -> (c <= m)%R -> (w ^ 2 / m ^ 2 <= (w / c) ^ 2)%R).
    { intros w c Hc Hcm. replace ((w / c) ^ 2)%R with (w ^ 2 / c ^ 2)%R by (field; lra).
      unfold Rdiv. apply Rmult_le_compat_l; [nra|]. apply Rinv_le_contravar; nra. }
    pose proof (D u (IZR a) Ha Ma). pose proof (D v (IZR b) Hb Mb).
    assert (E : (u ^ 2 / m ^ 2 + v ^ 2 / m ^ 2 < 1)%R) by lra.
    apply (Rmult_lt_compat_r (m ^ 2)) in E; [|nra].
    replace ((u ^ 2 / m ^ 2 + v ^ 2 / m ^ 2) * m ^ 2)%R with (u ^ 2 + v ^ 2)%R in E by (field; lra). lra. }
  assert (E : (u ^ 2 + v ^ 2 = IZR x ^ 2 + IZR y ^ 2)%R).
  { pose proof (sin2_cos2 t) as T. unfold Rsqr in T. unfold u, v.
    replace ((IZR x * cos t + IZR y * sin t) ^ 2 + (IZR x * sin t - IZR y * cos t) ^ 2)%R
      with ((sin t * sin t + cos t * cos t) * (IZR x ^ 2 + IZR y ^ 2))%R by ring. rewrite T. ring. }
  rewrite E in Q. unfold m in Q. clear -Q Hm.
  assert (Z1 : (x ^ 2 + y ^ 2 < Z.max a b ^ 2)%Z).
  { apply lt_IZR. rewrite plus_IZR. rewrite !Z.pow_2_r, !mult_IZR. nra. }
  apply lt_IZR in Hm. nia.
Qed.
Print Assumptions C24_ellipse_in_subimage.

(** Drawing in the subimage is drawing on the whole image. *)
Theorem C24_subimage_exact : forall (fo : FOps) rnd (disk : Z -> Z -> fo -> Z -> Z -> bool) nr nc e h r c,
  within_radius disk -> r < nr -> c < nc -> drawn fo rnd disk nr nc e h r c = covers fo rnd disk e h r c.
Proof. exact drawn_covers. Qed.
Print Assumptions C24_subimage_exact.

(** What expanding by a ratio [x] means: the minor axis is scaled by [x] and both axes grow by the same
    amount; each expanded axis is then capped at the maximum width. *)
Theorem C24_expansion : forall (P : snow RF) (rnd : R -> Z) (e : ellipse RF) (x : R),
  exists a1 a2 : R,
    (a1 - e_h e = a2 - e_w e /\ Rmin a1 a2 = x * Rmin (e_h e) (e_w e))%R /\
    (a1 - e_h e = (x - 1) * Rmin (e_h e) (e_w e))%R /\ (a2 - e_w e = (x - 1) * Rmin (e_h e) (e_w e))%R /\
    compute_axes RF P rnd e x = (rnd (Rmin a1 (s_maxwidth P) / 2)%R, rnd (Rmin a2 (s_maxwidth P) / 2)%R).
Proof.
  intros P rnd e x. set (m := Rmin (e_h e) (e_w e)).
  exists (e_h e + (x - 1) * m)%R, (e_w e + (x - 1) * m)%R. split; [|split; [ring|split; [ring|]]].
  - split; [ring|]. unfold m, Rmin. repeat destruct (Rle_dec _ _); lra.
  - assert (PM : forall a b : R, pymin RF a b = Rmin a b).
    { intros a b. unfold pymin. change (flt RF b a) with (Rltb b a). destruct (Rltb b a) eqn:E; unfold Rmin; destruct (Rle_dec a b) as [H|H]; try reflexivity.
      - apply Rltb_spec in E. lra.
      - assert (~ (b < a)%R) by (rewrite <- Rltb_spec; congruence). lra. }
    unfold compute_axes. change (flt RF (e_w e) (e_h e)) with (Rltb (e_w e) (e_h e)). destruct (Rltb (e_w e) (e_h e)) eqn:E; rewrite !PM; unfold half.
    + apply Rltb_spec in E. assert (M : m = e_w e) by (apply Rmin_right; lra). rewrite M. f_equal.
      f_equal. toR. f_equal. f_equal. ring.
    + assert (~ (e_w e < e_h e)%R) by (rewrite <- Rltb_spec; congruence). assert (M : m = e_h e) by (apply Rmin_left; lra). rewrite M. f_equal.
      f_equal. toR. f_equal. f_equal. ring.
Qed.
Print Assumptions C24_expansion.

(** Expanding an ellipse: word by word, JUMP_DET is OR-ed in exactly inside the expanded ellipses, in the
    requested groups, at pixels that are not saturated in any of the groups from the first one on. *)
Theorem C24_extend_exact : forall fo (P : snow fo) kj ks rnd disk ng nr nc i grp es x n gdq,
  s_jump P = bit kj -> s_sat P = bit ks -> kj <> ks -> within_radius disk ->
  forall i' k r c, r < nr -> c < nc ->
  let out := extend_ellipses fo P rnd disk ng nr nc i grp es x n gdq in
  (N.testbit (out i' k r c) kj = true <->
     N.testbit (gdq i' k r c) kj = true \/
     (i' = i /\ grp <= k <= grp + n /\ k < ng /\
      (exists e, In e es /\ covers fo rnd disk e (compute_axes fo P rnd e x) r c = true) /\
      (forall j, grp <= j <= k -> N.testbit (gdq i j r c) ks = false))) /\
  (forall b, b <> kj -> N.testbit (out i' k r c) b = N.testbit (gdq i' k r c) b).
Proof.
  intros fo P kj ks rnd disk ng nr nc i grp es x n gdq Hj Hs Hd W i' k r c Hr Hc. cbv zeta.
  rewrite (extend_ellipses_spec fo P kj ks Hj Hs Hd). rewrite Hj. split.
  - rewrite lor_flag_testbit, N.eqb_refl, andb_true_r, orb_true_iff, !andb_true_iff, Nat.eqb_eq, !Nat.leb_le, Nat.ltb_lt, existsb_exists.
    unfold unsat_through. rewrite forallb_forall. split.
    + intros [H|(((((H1 & H2) & H3) & H4) & H5) & (e & He & H6))]; [left; exact H|right]. do 3 (split; [solve [auto | lia]|]). split.
      * exists e. split; [exact He|]. rewrite <- (drawn_covers fo rnd disk nr nc) by assumption. exact H6.
      * intros j Hj'. specialize (H5 j). rewrite negb_true_iff in H5. apply H5. apply in_seq. lia.
    + intros [H|(H1 & H2 & H3 & (e & He & H4) & H5)]; [left; exact H|right]. repeat (split; [solve [assumption | lia]|]). split; [split; [tauto|]|].
      * intros j Hj'. apply in_seq in Hj'. rewrite H5 by lia. reflexivity.
      * exists e. split; [exact He|]. rewrite (drawn_covers fo rnd disk nr nc) by assumption. exact H4.
  - intros b Hb. rewrite lor_flag_testbit. destruct (N.eqb_spec kj b); [congruence|]. rewrite andb_false_r. apply orb_false_r.
Qed.
Print Assumptions C24_extend_exact.

(** The whole search: defined for every number of groups except two, and then the result is the
    group-by-group description of SnowSpec followed by the persistence flags (C25). *)
Lemma run_exact fo (P : snow fo) kj ks rnd disk sr jr inside nints ng nr nc gdq :
  snow_ok fo P kj ks disk sr jr nr nc -> ng <> 2 ->
  exists out t, flag_large_events fo P rnd disk sr jr inside nints ng nr nc gdq = Some (out, t) /\
  forall i g r c, r < nr -> c < nc -> out i g r c =
    N.lor (ints fo P rnd disk sr jr inside ng nr nints gdq i g r c)
          (flag_if (persisted fo P nints ng i g && was_core fo P rnd disk sr jr inside ng nr gdq (i - 1) r c) (s_jump P)).
Proof.
  intros K Hn. destruct K as [Hj Hs Hd HW H1 H2 H3].
  destruct (run_ints fo P kj ks Hj Hs Hd rnd disk sr jr inside nr nc HW H1 H2 H3 ng gdq nints Hn) as (g' & p' & x' & t' & E & HG & HP).
  unfold flag_large_events, events. rewrite E. cbn [bind]. eexists _, _. split; [reflexivity|].
  intros i g r c Hr Hc. unfold persist_phase, persisted. rewrite HG by assumption.
  replace (s_mask_next P && Nat.leb 1 i && Nat.ltb i nints && Z.leb 1 (s_persist P) && Nat.leb 1 g && Z.ltb (Z.of_nat g) (Z.min (s_persist P) (Z.of_nat ng)))
    with (s_mask_next P && Nat.ltb 0 i && Nat.ltb i nints && Nat.ltb 0 g && Nat.ltb g ng && Z.ltb (Z.of_nat g) (s_persist P)).
  2:{ clear. destruct (s_mask_next P); [|reflexivity]. cbn [andb]. lia. }
  destruct (s_mask_next P && Nat.ltb 0 i && Nat.ltb i nints && Nat.ltb 0 g && Nat.ltb g ng && Z.ltb (Z.of_nat g) (s_persist P)) eqn:W; cbn [andb].
  - rewrite HP by assumption. replace (Nat.ltb (i - 1) nints) with true; [reflexivity|]. symmetry.
    apply Nat.ltb_lt. rewrite !andb_true_iff, !Nat.ltb_lt in W. lia.
  - cbn. rewrite N.lor_0_r. reflexivity.
Qed.

Theorem C24_defined : forall fo (P : snow fo) kj ks rnd disk sr jr inside nints ng nr nc gdq,
  snow_ok fo P kj ks disk sr jr nr nc -> ng <> 2 ->
  exists out t, flag_large_events fo P rnd disk sr jr inside nints ng nr nc gdq = Some (out, t).
Proof. intros. destruct (run_exact fo P kj ks rnd disk sr jr inside nints ng nr nc gdq) as (o & t & E & _); eauto. Qed.
Print Assumptions C24_defined.
(** With two groups it always fails: next_new_sat is read before it is assigned. *)
Theorem C24_two_groups_fail : forall fo (P : snow fo) rnd disk sr jr inside nints nr nc gdq,
  0 < nints -> flag_large_events fo P rnd disk sr jr inside nints 2 nr nc gdq = None.
Proof. intros fo P rnd disk sr jr inside nints nr nc gdq H. destruct nints as [|n]; [lia|]. reflexivity. Qed.
Print Assumptions C24_two_groups_fail.

Section Words.
  Variable fo : FOps.
  Variable P : snow fo.
  Variables kj ks : N.
  Hypothesis Hj : s_jump P = bit kj.
  Hypothesis Hs : s_sat P = bit ks.
  Hypothesis Hd : kj <> ks.
  Variable rnd : fo -> Z.
  Variable disk : Z -> Z -> fo -> Z -> Z -> bool.
  Variable sr jr : img bool -> list (ellipse fo).
  Variable inside : fo * fo -> ellipse fo -> bool.
  Variables ng nr : nat.
  Notation MARK := (mark fo P rnd disk sr jr inside ng nr).
  Notation GROUPS := (groups fo P rnd disk sr jr inside ng nr).
  Notation INTS := (ints fo P rnd disk sr jr inside ng nr).
  Notation HIT := (hit fo P rnd disk sr jr inside ng nr).
  Notation GROWN := (grown fo P rnd disk sr).
  Notation BEFORE := (before fo P rnd disk sr jr inside ng nr).

  Lemma mark_bits a i g i' k r c b :
    let t := Nat.eqb i' i && Nat.leb g k && Nat.ltb k ng && GROWN a i g r c in
    N.testbit (MARK a i g i' k r c) b =
    (if t then N.eqb ks b else N.testbit (a i' k r c) b
       || (N.eqb kj b && (Nat.eqb i' i && Nat.eqb k g && HIT a i g r c && negb (N.testbit (a i' k r c) ks)))).
  Proof.
    cbv zeta. unfold mark. set (t := _ && GROWN a i g r c). rewrite Hs, has_bit, Hj.
    destruct t; [rewrite bit_testbit, N.eqb_refl, andb_false_r; apply bit_testbit|].
    destruct (_ && negb _) eqn:E; [rewrite N.lor_spec, bit_testbit, andb_true_r; reflexivity|]. rewrite andb_false_r, orb_false_r. reflexivity.
  Qed.
  Lemma mark_other a i g i' k r c : i' <> i -> MARK a i g i' k r c = a i' k r c.
  Proof. intro H. unfold mark. destruct (Nat.eqb_spec i' i); [congruence|]. reflexivity. Qed.
  Lemma mark_earlier a i g i' k r c : k < g -> MARK a i g i' k r c = a i' k r c.
  Proof.
    intro H. unfold mark. replace (Nat.leb g k) with false by (symmetry; apply Nat.leb_gt; lia).
    replace (Nat.eqb k g) with false by (symmetry; apply Nat.eqb_neq; lia). rewrite !andb_false_r. reflexivity.
  Qed.
  Lemma groups_other a n i i' k r c : i' <> i -> GROUPS n a i i' k r c = a i' k r c.
  Proof. intro H. induction n as [|n IH]; [reflexivity|]. cbn [groups]. rewrite mark_other by assumption. exact IH. Qed.
  Lemma groups_earlier a n m i i' k r c : k <= m -> m <= n -> GROUPS n a i i' k r c = GROUPS m a i i' k r c.
  Proof. intros H Hm. induction Hm as [|n Hm IH]; [reflexivity|]. cbn [groups]. rewrite mark_earlier by lia. exact IH. Qed.
  Lemma ints_later a n i k r c : n <= i -> INTS n a i k r c = a i k r c.
  Proof. induction n as [|n IH]; intro H; [reflexivity|]. cbn [ints]. rewrite groups_other by lia. apply IH. lia. Qed.
  Lemma ints_at a n i k r c : i < n -> INTS n a i k r c = GROUPS (ng - 1) (INTS i a) i i k r c.
  Proof.
    induction n as [|n IH]; intro H; [lia|]. cbn [ints]. destruct (Nat.eq_dec i n) as [->|]; [reflexivity|].
    rewrite groups_other by assumption. apply IH. lia.
  Qed.

  (** induction over the groups of one integration *)
  Lemma groups_word (Q : N -> Prop) a i k r c : Q (a i k r c) ->
    (forall g, 1 <= g -> Q (GROUPS (g - 1) a i i k r c) -> Q (MARK (GROUPS (g - 1) a i) i g i k r c)) ->
    forall n, Q (GROUPS n a i i k r c).
  Proof.
    intros H0 HS n. induction n as [|n IH]; [exact H0|]. cbn [groups]. specialize (HS (S n) ltac:(lia)).
    replace (S n - 1) with n in HS by lia. apply HS, IH.
  Qed.
  Lemma ints_word (Q : N -> Prop) a nints i k r c : Q (a i k r c) ->
    (forall g, i < nints -> 1 <= g -> Q (BEFORE a i g i k r c) -> Q (MARK (BEFORE a i g) i g i k r c)) ->
    Q (INTS nints a i k r c).
  Proof.
    intros H0 HS. destruct (Nat.lt_ge_cases i nints) as [H|H]; [|rewrite ints_later by assumption; exact H0].
    rewrite ints_at by assumption. apply groups_word; [rewrite ints_later by lia; exact H0|].
    intros g Hg. apply HS; assumption.
  Qed.
  Lemma grown_range a i g k r c : Nat.eqb i i && Nat.leb g k && Nat.ltb k ng && GROWN a i g r c = true <->
    g <= k /\ k < ng /\ GROWN a i g r c = true.
  Proof. rewrite !andb_true_iff, Nat.leb_le, Nat.ltb_lt, Nat.eqb_refl. tauto. Qed.

  (** no flag is lost except where the pixel becomes saturated *)
  Lemma kept a nints i k r c :
    (forall b, N.testbit (a i k r c) b = true -> N.testbit (INTS nints a i k r c) b = true) \/ N.testbit (INTS nints a i k r c) ks = true.
  Proof.
    apply (ints_word (fun w => (forall b, N.testbit (a i k r c) b = true -> N.testbit w b = true) \/ N.testbit w ks = true)); [left; auto|].
    intros g Hi Hg [H|H].
    - destruct (Nat.eqb i i && Nat.leb g k && Nat.ltb k ng && GROWN (BEFORE a i g) i g r c) eqn:E.
      + right. rewrite mark_bits, E. apply N.eqb_refl.
      + left. intros b Hb. rewrite mark_bits, E, (H b Hb). reflexivity.
    - right. rewrite mark_bits. destruct (_ && GROWN _ i g r c); [apply N.eqb_refl|]. rewrite H. reflexivity.
  Qed.
  Lemma sat_kept a nints i k r c : N.testbit (a i k r c) ks = true -> N.testbit (INTS nints a i k r c) ks = true.
  Proof. intro H. destruct (kept a nints i k r c) as [K|K]; [apply K, H|exact K]. Qed.
  Lemma new_sat a nints i k r c : N.testbit (INTS nints a i k r c) ks = true ->
    N.testbit (a i k r c) ks = true \/ (i < nints /\ k < ng /\ exists g, 1 <= g <= k /\ GROWN (BEFORE a i g) i g r c = true).
  Proof.
    apply (ints_word (fun w => N.testbit w ks = true -> N.testbit (a i k r c) ks = true \/ (i < nints /\ k < ng /\ exists g, 1 <= g <= k /\ GROWN (BEFORE a i g) i g r c = true))); [left; assumption|].
    intros g Hi Hg IH. rewrite mark_bits.
    destruct (Nat.eqb i i && Nat.leb g k && Nat.ltb k ng && GROWN (BEFORE a i g) i g r c) eqn:E.
    - intros _. right. apply grown_range in E. destruct E as (E1 & E2 & E3). do 2 (split; [assumption|]). exists g. split; [lia|exact E3].
    - destruct (N.eqb_spec kj ks); [congruence|]. cbn [andb]. rewrite orb_false_r. exact IH.
  Qed.
  Lemma new_jump a nints i k r c : N.testbit (INTS nints a i k r c) kj = true ->
    N.testbit (a i k r c) kj = true \/ (N.testbit (INTS nints a i k r c) ks = false /\ i < nints /\ 1 <= k /\ HIT (BEFORE a i k) i k r c = true).
  Proof.
    apply (ints_word (fun w => N.testbit w kj = true -> N.testbit (a i k r c) kj = true \/ (N.testbit w ks = false /\ i < nints /\ 1 <= k /\ HIT (BEFORE a i k) i k r c = true)));
      [left; assumption|].
    intros g Hi Hg IH. rewrite !mark_bits. destruct (_ && GROWN _ i g r c) eqn:E; [destruct (N.eqb_spec ks kj); [congruence|discriminate]|].
    rewrite N.eqb_refl. destruct (N.eqb_spec kj ks); [congruence|]. cbn [andb]. rewrite orb_false_r.
    destruct (N.testbit (BEFORE a i g i k r c) kj) eqn:W; cbn [orb].
    - intros _. apply IH. reflexivity.
    - rewrite !andb_true_iff, negb_true_iff, !Nat.eqb_eq. intros (((_ & ->) & H) & S'). right. auto.
  Qed.
  Lemma other_bits a nints i k r c b : b <> kj -> b <> ks ->
    N.testbit (INTS nints a i k r c) b = true -> N.testbit (a i k r c) b = true.
  Proof.
    intros H1 H2. apply (ints_word (fun w => N.testbit w b = true -> N.testbit (a i k r c) b = true)); [auto|]. intros g Hi Hg IH. rewrite mark_bits.
    destruct (_ && GROWN _ i g r c); [destruct (N.eqb_spec ks b); congruence|].
    destruct (N.eqb_spec kj b); [congruence|]. cbn [andb]. rewrite orb_false_r. exact IH.
  Qed.
  Lemma hit_flagged a nints i k r c : i < nints -> 1 <= k < ng -> HIT (BEFORE a i k) i k r c = true ->
    N.testbit (INTS nints a i k r c) kj = true \/ N.testbit (INTS nints a i k r c) ks = true.
  Proof.
    intros Hi Hk H. rewrite ints_at by assumption. rewrite (groups_earlier (INTS i a) (ng - 1) k) by lia.
    destruct k as [|k']; [lia|]. cbn [groups]. unfold before in H. replace (S k' - 1) with k' in H by lia.
    rewrite !mark_bits. destruct (_ && GROWN _ i (S k') r c); [right; apply N.eqb_refl|].
    rewrite !Nat.eqb_refl, !N.eqb_refl, H. cbn [andb]. destruct (N.eqb_spec kj ks); [congruence|]. cbn [andb].
    destruct (N.testbit (GROUPS k' (INTS i a) i i (S k') r c) ks); [right; reflexivity|left; apply orb_true_r].
  Qed.
  Lemma group0 a nints i r c : INTS nints a i 0 r c = a i 0 r c.
  Proof.
    apply (ints_word (fun w => w = a i 0 r c)); [reflexivity|]. intros g _ Hg H. rewrite mark_earlier by lia. exact H.
  Qed.
End Words.

(** A JUMP_DET flag appears only inside an expanded snowball of that group and integration, at a pixel
    not saturated in the result, or as persistence of a saturated core of the previous integration. *)
Theorem C24_jump_only_inside : forall fo (P : snow fo) kj ks rnd disk sr jr inside nints ng nr nc gdq out t,
  snow_ok fo P kj ks disk sr jr nr nc ->
  flag_large_events fo P rnd disk sr jr inside nints ng nr nc gdq = Some (out, t) ->
  forall i k r c, r < nr -> c < nc ->
  N.testbit (out i k r c) kj = true -> N.testbit (gdq i k r c) kj = false ->
  (i < nints /\ 1 <= k /\ N.testbit (out i k r c) ks = false /\
     exists e, In e (jump_areas fo P jr (before fo P rnd disk sr jr inside ng nr gdq i k) i k) /\
       snowball fo P sr inside ng nr (before fo P rnd disk sr jr inside ng nr gdq i k) i k e = true /\
       covers fo rnd disk e (compute_axes fo P rnd e (s_expand P)) r c = true)
  \/ (persisted fo P nints ng i k = true /\ was_core fo P rnd disk sr jr inside ng nr gdq (i - 1) r c = true).
Proof.
  intros fo P kj ks rnd disk sr jr inside nints ng nr nc gdq out t K E i k r c Hr Hc H1 H0.
  assert (Hn : ng <> 2 \/ nints = 0).
  { destruct (Nat.eq_dec nints 0); [right; assumption|left]. intros ->. rewrite C24_two_groups_fail in E by lia. discriminate. }
  destruct Hn as [Hn| ->].
  2:{ cbn in E. injection E as <- _. unfold persist_phase in H1. replace (Nat.ltb i 0) with false in H1 by (symmetry; apply Nat.ltb_ge; lia).
      rewrite andb_false_r in H1. cbn [andb] in H1. congruence. }
  destruct (run_exact fo P kj ks rnd disk sr jr inside nints ng nr nc gdq K Hn) as (o' & t' & E' & HO).
  rewrite E in E'. injection E' as <- <-. rewrite HO in * by assumption. destruct K as [Hj Hs Hd _ _ _ _]. rewrite Hj in *.
  rewrite lor_flag_testbit in *. destruct (N.eqb_spec kj ks); [congruence|]. rewrite andb_false_r, orb_false_r.
  rewrite N.eqb_refl, andb_true_r in H1.
  destruct (persisted fo P nints ng i k && was_core fo P rnd disk sr jr inside ng nr gdq (i - 1) r c) eqn:W.
  - right. apply andb_prop in W. exact W.
  - rewrite orb_false_r in H1. destruct (new_jump fo P kj ks Hj Hs Hd rnd disk sr jr inside ng nr gdq nints i k r c H1) as [H|(A & B & C & D)]; [congruence|].
    left. do 3 (split; [assumption|]). unfold hit in D. apply existsb_exists in D. destruct D as (e & De & Dh). apply andb_prop in Dh. exists e. tauto.
Qed.
Print Assumptions C24_jump_only_inside.

(** Conversely every pixel of an expanded snowball carries JUMP_DET or SATURATED afterwards. *)
Theorem C24_snowball_covered : forall fo (P : snow fo) kj ks rnd disk sr jr inside nints ng nr nc gdq out t,
  snow_ok fo P kj ks disk sr jr nr nc ->
  flag_large_events fo P rnd disk sr jr inside nints ng nr nc gdq = Some (out, t) ->
  forall i k r c e, r < nr -> c < nc -> i < nints -> 1 <= k < ng ->
  In e (jump_areas fo P jr (before fo P rnd disk sr jr inside ng nr gdq i k) i k) ->
  snowball fo P sr inside ng nr (before fo P rnd disk sr jr inside ng nr gdq i k) i k e = true ->
  covers fo rnd disk e (compute_axes fo P rnd e (s_expand P)) r c = true ->
  N.testbit (out i k r c) kj = true \/ N.testbit (out i k r c) ks = true.
Proof.
  intros fo P kj ks rnd disk sr jr inside nints ng nr nc gdq out t K E i k r c e Hr Hc Hi Hk He Hb Hv.
  assert (Hn : ng <> 2). { intros ->. rewrite C24_two_groups_fail in E by lia. discriminate. }
  destruct (run_exact fo P kj ks rnd disk sr jr inside nints ng nr nc gdq K Hn) as (o' & t' & E' & HO).
  rewrite E in E'. injection E' as <- <-. rewrite HO by assumption. destruct K as [Hj Hs Hd _ _ _ _].
  rewrite !N.lor_spec.
  destruct (hit_flagged fo P kj ks Hj Hs Hd rnd disk sr jr inside ng nr gdq nints i k r c Hi Hk) as [H|H]; [|rewrite H; auto..].
  unfold hit. apply existsb_exists. exists e. split; [exact He|]. rewrite Hb, Hv. reflexivity.
Qed.
Print Assumptions C24_snowball_covered.

(** SATURATED appears only inside the grown ellipse of a region that saturated at or before the group,
    is never cleared, and any other flag is lost only at a pixel that is saturated in the result;
    the first group never changes. *)
Theorem C24_saturation : forall fo (P : snow fo) kj ks rnd disk sr jr inside nints ng nr nc gdq out t,
  snow_ok fo P kj ks disk sr jr nr nc ->
  flag_large_events fo P rnd disk sr jr inside nints ng nr nc gdq = Some (out, t) ->
  forall i k r c, r < nr -> c < nc ->
  (N.testbit (gdq i k r c) ks = true -> N.testbit (out i k r c) ks = true) /\
  (N.testbit (out i k r c) ks = true -> N.testbit (gdq i k r c) ks = false ->
     exists g e, 1 <= g <= k /\ In e (became_sat fo P sr (before fo P rnd disk sr jr inside ng nr gdq i g) i g) /\
       big_core fo P e = true /\ covers fo rnd disk e (sat_axes fo P rnd e) r c = true) /\
  (forall b, N.testbit (gdq i k r c) b = true -> N.testbit (out i k r c) b = false -> N.testbit (out i k r c) ks = true) /\
  (forall b, b <> kj -> b <> ks -> N.testbit (out i k r c) b = true -> N.testbit (gdq i k r c) b = true) /\
  (k = 0 -> out i k r c = gdq i k r c).
Proof.
  intros fo P kj ks rnd disk sr jr inside nints ng nr nc gdq out t K E i k r c Hr Hc.
  assert (Hn : ng <> 2 \/ nints = 0).
  { destruct (Nat.eq_dec nints 0); [right; assumption|left]. intros ->. rewrite C24_two_groups_fail in E by lia. discriminate. }
  destruct Hn as [Hn| ->].
  2:{ cbn in E. injection E as <- _. unfold persist_phase. replace (Nat.ltb i 0) with false by (symmetry; apply Nat.ltb_ge; lia).
      rewrite andb_false_r. cbn [andb]. split; [auto|]. split; [congruence|]. split; [congruence|]. split; auto. }
  destruct (run_exact fo P kj ks rnd disk sr jr inside nints ng nr nc gdq K Hn) as (o' & t' & E' & HO).
  rewrite E in E'. injection E' as <- <-. rewrite HO by assumption. destruct K as [Hj Hs Hd _ _ _ _]. rewrite Hj.
  assert (S1 : forall b, N.testbit (N.lor (ints fo P rnd disk sr jr inside ng nr nints gdq i k r c)
     (flag_if (persisted fo P nints ng i k && was_core fo P rnd disk sr jr inside ng nr gdq (i - 1) r c) (bit kj))) b =
     N.testbit (ints fo P rnd disk sr jr inside ng nr nints gdq i k r c) b ||
     (persisted fo P nints ng i k && was_core fo P rnd disk sr jr inside ng nr gdq (i - 1) r c && N.eqb kj b)) by (intro; apply lor_flag_testbit).
  assert (Eks : N.eqb kj ks = false) by (apply N.eqb_neq; exact Hd).
  split; [|split; [|split; [|split]]].
  - intro H. rewrite S1, (sat_kept fo P kj ks Hj Hs) by assumption. reflexivity.
  - rewrite S1, Eks, andb_false_r, orb_false_r. intros H1 H0.
    destruct (new_sat fo P kj ks Hj Hs Hd rnd disk sr jr inside ng nr gdq nints i k r c H1) as [H|(_ & _ & g & Hg & G)]; [congruence|].
    unfold grown in G. apply andb_prop in G. destruct G as [_ G]. apply existsb_exists in G. destruct G as (e & He & G).
    apply andb_prop in G. exists g, e. tauto.
  - intros b H. rewrite !S1, Eks, andb_false_r, orb_false_r. rewrite orb_false_iff. intros [H1 _].
    destruct (kept fo P kj ks Hj Hs Hd rnd disk sr jr inside ng nr gdq nints i k r c) as [A|A]; [rewrite A in H1 by assumption; discriminate|exact A].
  - intros b B1 B2. rewrite S1. replace (N.eqb kj b) with false by (symmetry; apply N.eqb_neq; congruence).
    rewrite andb_false_r, orb_false_r. apply (other_bits fo P kj ks Hj Hs); assumption.
  - intros ->. rewrite (group0 fo P kj ks) by assumption. unfold persisted. cbn [Nat.ltb Nat.leb]. rewrite andb_false_r. cbn. rewrite N.lor_0_r. reflexivity.
Qed.
Print Assumptions C24_saturation.

(** ** C25 *)
(** Persistence: the flags of the group-by-group search, plus JUMP_DET in groups 1 .. k-1 (k =
    persist_grps_flagged) of an integration exactly at the core pixels of the integration before. *)
Theorem C25_persistence : forall fo (P : snow fo) kj ks rnd disk sr jr inside nints ng nr nc gdq,
  snow_ok fo P kj ks disk sr jr nr nc -> ng <> 2 ->
  exists out t, flag_large_events fo P rnd disk sr jr inside nints ng nr nc gdq = Some (out, t) /\
  forall i g r c, r < nr -> c < nc -> out i g r c =
    N.lor (ints fo P rnd disk sr jr inside ng nr nints gdq i g r c)
          (flag_if (persisted fo P nints ng i g && was_core fo P rnd disk sr jr inside ng nr gdq (i - 1) r c) (s_jump P)).
Proof. exact run_exact. Qed.
Print Assumptions C25_persistence.

(** Apart from persistence an integration is searched as if it were alone. *)
Theorem C25_integrations_independent : forall fo (P : snow fo) kj ks rnd disk sr jr inside ng nr nc nints i a b,
  snow_ok fo P kj ks disk sr jr nr nc ->
  (forall k r c, r < nr -> c < nc -> a i k r c = b i k r c) ->
  forall k r c, r < nr -> c < nc ->
  ints fo P rnd disk sr jr inside ng nr nints a i k r c = ints fo P rnd disk sr jr inside ng nr nints b i k r c /\
  was_core fo P rnd disk sr jr inside ng nr a i r c = was_core fo P rnd disk sr jr inside ng nr b i r c.
Proof.
  intros fo P kj ks rnd disk sr jr inside ng nr nc nints i a b K H k r c Hr Hc. destruct K as [Hj Hs Hd _ Fs Fj _].
  set (eqi := fun x y : arr4 N => forall k r c, r < nr -> c < nc -> x i k r c = y i k r c).
  assert (B : forall x y g, eqi x y -> became_sat fo P sr x i g = became_sat fo P sr y i g).
  { intros x y g E. unfold became_sat. apply Fs. intros. rewrite !E by assumption. reflexivity. }
  assert (J : forall x y g, eqi x y -> jump_areas fo P jr x i g = jump_areas fo P jr y i g).
  { intros x y g E. unfold jump_areas. apply Fj. intros. rewrite !E by assumption. reflexivity. }
  assert (M : forall x y g, eqi x y -> eqi (mark fo P rnd disk sr jr inside ng nr x i g) (mark fo P rnd disk sr jr inside ng nr y i g)).
  { intros x y g E k' r' c' Hr' Hc'. unfold mark, grown, hit, snowball, will_sat. rewrite (E k' r' c') by assumption.
    rewrite !(B x y), (J x y) by assumption. reflexivity. }
  assert (G : forall n x y, eqi x y -> eqi (groups fo P rnd disk sr jr inside ng nr n x i) (groups fo P rnd disk sr jr inside ng nr n y i)).
  { induction n as [|n IH]; intros x y E; [exact E|]. cbn [groups]. apply M, IH, E. }
  assert (I0 : eqi (ints fo P rnd disk sr jr inside ng nr i a) (ints fo P rnd disk sr jr inside ng nr i b)).
  { intros k' r' c' Hr' Hc'. rewrite !(ints_later fo P kj ks) by (assumption || lia). apply H; assumption. }
  split.
  - destruct (Nat.lt_ge_cases i nints) as [L|L].
    + rewrite !(ints_at fo P kj ks) by assumption. apply G; assumption.
    + rewrite !(ints_later fo P kj ks) by assumption. apply H; assumption.
  - unfold was_core, before. apply existsb_ext_in. intros g _. unfold core. rewrite (B _ (groups fo P rnd disk sr jr inside ng nr (g - 1) (ints fo P rnd disk sr jr inside ng nr i b) i)); [reflexivity|].
    apply G, I0.
Qed.
Print Assumptions C25_integrations_independent.

(** ** An example: 2 integrations, 4 groups, 7 x 7; a 3 x 3 jump around (3,3) saturates at group 2. *)
Definition zr (x : B64) : Z :=   (* rounding of the small integers and halves used here *)
  match List.find (fun z => feq B64 x (fofZ B64 z) || feq B64 x (fdiv B64 (fofZ B64 (2 * z + 1)) (fofZ B64 2))) [0; 1; 2; 3; 4; 5; 6; 7]%Z with Some z => z | None => 0%Z end.
Definition ellZ (a b : Z) (t : B64) (x y : Z) : bool :=
  Z.ltb 0 a && Z.ltb 0 b && Z.ltb ((x * b) * (x * b) + (y * a) * (y * a)) ((a * b) * (a * b)).
Lemma ellZ_within : @within_radius B64 ellZ.
Proof.
  intros a b t x y H. unfold ellZ in H. rewrite !andb_true_iff, !Z.ltb_lt in H. destruct H as [[Ha Hb] H].
  assert (Q : (x * x < a * a /\ y * y < b * b)%Z) by (split; nia). nia.
Qed.
Definition exell (h : Z) : ellipse B64 := {| e_col := fofZ B64 3; e_row := fofZ B64 3; e_h := fofZ B64 h; e_w := fofZ B64 h; e_angle := fzero B64 |}.
Definition exreg (p : img bool) : list (ellipse B64) := if p 3 3 && p 3 4 then [exell 4] else [].
(** jumps form a ring around the saturated core *)
Definition exjreg (p : img bool) : list (ellipse B64) := if p 1 3 && p 5 3 then [exell 4] else [].
Definition exinside (pt : B64 * B64) (e : ellipse B64) : bool := feq B64 (fst pt) (e_col e) && feq B64 (snd pt) (e_row e).
Definition exS (req : bool) : snow B64 := {|
  s_jump := bit 2; s_sat := bit 1; s_dnu := bit 0; s_ref := bit 31; s_required := req; s_minrad := fofZ B64 2; s_satexpand := fofZ B64 2;
  s_maxwidth := fofZ B64 200; s_expand := fofZ B64 2; s_edge := 0; s_mask_next := true; s_persist := 3; s_shower_expand := fone B64;
  s_shower_grps := 1; s_maxamp := fofZ B64 100 |}.
Lemma exS_ok req : snow_ok B64 (exS req) 2 1 ellZ exreg exjreg 7 7.
Proof.
  split; try reflexivity; [discriminate|apply ellZ_within| | |].
  1, 2: intros p q H; unfold exreg, exjreg; rewrite !H by lia; reflexivity.
  intros p e e' H H' _. unfold exjreg in *. destruct (p 1 3 && p 5 3); [|destruct H]. destruct H as [<-|[]], H' as [<-|[]]. reflexivity.
Qed.
(** group 2 of integration 0: 3 x 3 saturated (2), a ring of JUMP_DET (4) around it; in group 3 the ring
    carries JUMP_DET in column 1 and DO_NOT_USE (1) elsewhere; SATURATED in integration 1 group 1 at the centre *)
Definition exg : arr4 N := fun i g r c =>
  let ring := Nat.leb 1 r && Nat.leb r 5 && Nat.leb 1 c && Nat.leb c 5 in
  let inner := Nat.leb 2 r && Nat.leb r 4 && Nat.leb 2 c && Nat.leb c 4 in
  match i, g with
  | 0, 2 => if inner then 2%N else if ring then 4%N else 0%N
  | 0, 3 => if inner then 2%N else if ring then (if Nat.eqb c 1 then 4%N else 1%N) else 0%N
  | 1, 1 => if Nat.eqb r 3 && Nat.eqb c 3 then 2%N else 0%N
  | _, _ => 0%N
  end.
Definition exrun req nints ng g := flag_large_events B64 (exS req) zr ellZ exreg exjreg exinside nints ng 7 7 g.
Example C24_example : snow_ok B64 (exS true) 2 1 ellZ exreg exjreg 7 7 /\
  match exrun true 2 4 exg with
  | Some (out, t) => t = 1 /\
      map (fun g => map (fun c => out 0 g 3 c) (seq 0 7)) [1; 2; 3] = [[0; 0; 0; 0; 0; 0; 0]; [4; 2; 2; 2; 2; 2; 4]; [0; 2; 2; 2; 2; 2; 0]]%N /\
      map (fun g => map (fun c => out 1 g 3 c) (seq 0 7)) [0; 1; 2; 3] = [[0; 0; 0; 0; 0; 0; 0]; [0; 0; 4; 6; 4; 0; 0]; [0; 0; 4; 4; 4; 0; 0]; [0; 0; 0; 0; 0; 0; 0]]%N
  | None => False end.
Proof. split; [apply exS_ok|]. vm_compute. auto. Qed.

(** Growing a saturated core overwrites the whole word: a JUMP_DET flag is lost and so is DO_NOT_USE. *)
Theorem C24_keeps_flags_refuted : exists P sr jr inside gdq out t i k r c1 c2,
  snow_ok B64 P 2 1 ellZ sr jr 7 7 /\
  flag_large_events B64 P zr ellZ sr jr inside 2 4 7 7 gdq = Some (out, t) /\
  gdq i k r c1 = 4%N /\ out i k r c1 = 2%N /\ gdq i k r c2 = 1%N /\ out i k r c2 = 2%N.
Proof.
  pose proof (exS_ok true) as K.
  assert (H : match exrun true 2 4 exg with Some (out, t) => out 0 3 3 1 = 2%N /\ out 0 3 3 5 = 2%N | None => False end) by (vm_compute; auto).
  unfold exrun in H. destruct (flag_large_events B64 (exS true) zr ellZ exreg exjreg exinside 2 4 7 7 exg) as [[out t]|] eqn:E; [|destruct H].
  exists (exS true), exreg, exjreg, exinside, exg, out, t, 0, 3, 3, 1, 5. repeat (split; [first [assumption | reflexivity | apply H]|]). apply H.
Qed.
Print Assumptions C24_keeps_flags_refuted.
Theorem C24_every_group_count_refuted : exists P sr jr inside gdq,
  snow_ok B64 P 2 1 ellZ sr jr 7 7 /\ flag_large_events B64 P zr ellZ sr jr inside 1 2 7 7 gdq = None.
Proof. exists (exS false), exreg, exjreg, exinside, exg. split; [apply exS_ok|reflexivity]. Qed.
Print Assumptions C24_every_group_count_refuted.

(** ** C62: persistence puts JUMP_DET on a saturated group after the detection stage removed such pairs. *)
Theorem C62_jump_on_saturated_refuted : exists P sr jr inside gdq out t i k r c,
  snow_ok B64 P 2 1 ellZ sr jr 7 7 /\
  flag_large_events B64 P zr ellZ sr jr inside 2 4 7 7 gdq = Some (out, t) /\
  (gdq i k r c = 2%N /\ out i k r c = 6%N).
Proof.
  pose proof (exS_ok true) as K.
  assert (H : match exrun true 2 4 exg with Some (out, t) => out 1 1 3 3 = 6%N | None => False end) by (vm_compute; auto).
  unfold exrun in H. destruct (flag_large_events B64 (exS true) zr ellZ exreg exjreg exinside 2 4 7 7 exg) as [[out t]|] eqn:E; [|destruct H].
  exists (exS true), exreg, exjreg, exinside, exg, out, t, 1, 1, 3, 3. split; [exact K|]. split; [exact E|]. split; [reflexivity|exact H].
Qed.
Print Assumptions C62_jump_on_saturated_refuted.

(** ** C59: which events need no saturated core *)
Theorem C59_edge_exemption_square_partial : forall (P : snow RF) n (e : ellipse RF), (0 <= s_edge P <= Z.of_nat n)%Z ->
  near_edge RF P n e = true <->
  (e_col e < IZR (s_edge P) \/ e_row e < IZR (s_edge P) \/ IZR (Z.of_nat n) - e_col e < IZR (s_edge P) \/ IZR (Z.of_nat n) - e_row e < IZR (s_edge P))%R.
Proof.
  intros P n e H. unfold near_edge. rewrite Z.max_r by lia. cbn [flt fofZ RF].
  rewrite !orb_true_iff, !Rltb_spec, minus_IZR. split; intros; lra.
Qed.
Print Assumptions C59_edge_exemption_square_partial.
Example C59_example : (0 <= s_edge (Build_snow RF 1 1 1 1 true 0%R 0%R 0%R 0%R 25 true 1 0%R 1 0%R) <= Z.of_nat 2048)%Z.
Proof. cbn. lia. Qed.
(** On a frame of 20 rows and 100 columns an event at row 10, column 50, with a 5-pixel edge, is exempt. *)
Definition wideS : snow B64 := Build_snow B64 1 1 1 1 true (fzero B64) (fzero B64) (fzero B64) (fzero B64) 5 true 1 (fzero B64) 1 (fzero B64).
Theorem C59_edge_exemption_refuted : exists (P : snow B64) (nr nc : nat) (row col : Z) e,
  e_col e = fofZ B64 col /\ e_row e = fofZ B64 row /\
  (s_edge P + 5 <= row <= Z.of_nat nr - s_edge P - 5 /\ s_edge P + 40 <= col <= Z.of_nat nc - s_edge P - 40)%Z /\
  near_edge B64 P nr e = true.
Proof.
  exists wideS, 20, 100, 10%Z, 50%Z, {| e_col := fofZ B64 50; e_row := fofZ B64 10; e_h := fzero B64; e_w := fzero B64; e_angle := fzero B64 |}.
  split; [reflexivity|]. split; [reflexivity|]. split; [cbn; lia|]. vm_compute. reflexivity.
Qed.
Print Assumptions C59_edge_exemption_refuted.

(** ** C60: what shower flagging may change *)
Section Shower.
  Variable fo : FOps.
  Hypothesis L : FLaws fo.
  Hypothesis HN : fisnan fo (fnan fo) = true.
  Variable P : snow fo.
  Variables kj ks kd : N.
  Hypothesis Hj : s_jump P = bit kj.
  Hypothesis Hs : s_sat P = bit ks.
  Hypothesis Hdn : s_dnu P = bit kd.
  Hypothesis Hjs : kj <> ks.
  Hypothesis Hjd : kj <> kd.
  Variable rnd : fo -> Z.
  Variable disk : Z -> Z -> fo -> Z -> Z -> bool.
  Variable reg : arr4 fo -> arr4 N -> img N -> nat -> nat -> list (ellipse fo).
  Variable mean : list fo -> fo.
  Variables ng nr nc : nat.

  Definition flagged (w : N) : bool := N.testbit w kd || N.testbit w ks || N.testbit w kj.
  Lemma flagged_spec w : has w (N.lor (N.lor (s_dnu P) (s_sat P)) (s_jump P)) = flagged w.
  Proof.
    unfold flagged. rewrite Hdn, Hs, Hj. unfold has. rewrite !N.land_lor_distr_r.
    assert (A : forall a b, negb (N.eqb (N.lor a b) 0) = negb (N.eqb a 0) || negb (N.eqb b 0)).
    { intros a b. destruct (N.eqb_spec (N.lor a b) 0) as [H|H], (N.eqb_spec a 0) as [Ha|Ha], (N.eqb_spec b 0) as [Hb|Hb]; cbn; try reflexivity.
      - exfalso. apply Hb. apply (N.lor_eq_0_iff a b) in H. tauto.
      - exfalso. apply Ha. apply (N.lor_eq_0_iff a b) in H. tauto.
      - exfalso. apply Ha. apply (N.lor_eq_0_iff a b) in H. tauto.
      - exfalso. apply H. subst. reflexivity. }
    rewrite !A. change (negb (N.eqb (N.land w (bit kd)) 0)) with (has w (bit kd)). change (negb (N.eqb (N.land w (bit ks)) 0)) with (has w (bit ks)).
    change (negb (N.eqb (N.land w (bit kj)) 0)) with (has w (bit kj)). rewrite !has_bit. reflexivity.
  Qed.
  (** a rate that is not NaN needs two adjacent usable groups *)
  Lemma flux_pair dat gdq i r c : fisnan fo (flux fo P mean ng dat gdq i r c) = false ->
    exists g, g + 1 < ng /\ flagged (gdq i g r c) = false /\ flagged (gdq i (g + 1) r c) = false.
  Proof.
    unfold flux, nanmean. set (l := map _ _). destruct (filter _ l) as [|x l'] eqn:E; [congruence|]. intros _.
    assert (I : In x (filter (fun x => negb (fisnan fo x)) l)) by (rewrite E; left; reflexivity).
    apply filter_In in I. destruct I as [I HX]. unfold l in I. apply in_map_iff in I. destruct I as (g & <- & Hg). apply in_seq in Hg.
    exists g. split; [clear -Hg; lia|]. rewrite negb_true_iff in HX. rewrite !flagged_spec in HX.
    destruct (flagged (gdq i g r c)); [rewrite (sub_nan_r fo L) in HX by exact HN; discriminate|].
    destruct (flagged (gdq i (g + 1) r c)); [rewrite (sub_nan_l fo L) in HX by exact HN; discriminate|]. auto.
  Qed.
  Definition in_shower (g : arr4 N) (i k r c : nat) (ev : nat * nat * list (ellipse fo)) : bool :=
    let '(i0, grp, es) := ev in
    Nat.eqb i i0 && Nat.leb grp k && Nat.leb k (grp + s_shower_grps P) && Nat.ltb k ng && unsat_through ks g i0 grp k r c
         && existsb (fun e => drawn fo rnd disk nr nc e (compute_axes fo P rnd e (s_shower_expand P)) r c) es.
  Lemma shower_fold (evs : list (nat * nat * list (ellipse fo))) : forall g i k r c,
    flag_showers fo P rnd disk ng nr nc evs g i k r c = N.lor (g i k r c) (flag_if (existsb (in_shower g i k r c) evs) (bit kj)).
  Proof.
    unfold flag_showers. induction evs as [|[[i0 grp0] es0] evs IH]; intros g i k r c; [cbn; rewrite N.lor_0_r; reflexivity|]. cbn [fold_left existsb].
    rewrite IH. clear IH. rewrite (extend_ellipses_spec fo P kj ks Hj Hs Hjs), Hj.
    set (g1 := extend_ellipses fo P rnd disk ng nr nc i0 grp0 es0 (s_shower_expand P) (s_shower_grps P) g).
    assert (E : existsb (in_shower g1 i k r c) evs = existsb (in_shower g i k r c) evs).
    { apply existsb_ext_in. intros [[i1 grp1] es1] _. unfold in_shower. rewrite (unsat_ext ks g1 g); [reflexivity|].
      intro j. unfold g1. rewrite (extend_ellipses_spec fo P kj ks Hj Hs Hjs). apply (lor_sat fo P kj ks); assumption. }
    rewrite E, <- N.lor_assoc. f_equal. cbn [in_shower]. clear E g1. set (A := _ && existsb _ es0). set (X := existsb _ evs).
    clearbody A X. destruct A, X; cbn [orb flag_if]; rewrite ?N.lor_diag, ?N.lor_0_r, ?N.lor_0_l; reflexivity.
  Qed.
  Variable nints : nat.
  (** pixel by pixel: all groups reverted, or flagged inside the showers *)
  Lemma shower_words dat gdq pdq i r c :
    let out := fst (find_faint_extended fo P rnd disk reg mean nints ng nr nc dat gdq pdq) in
    let evs := shower_events fo P reg nints ng nr nc (nan_invalid fo P dat gdq) (ref_masked fo P gdq pdq) pdq in
    (forall k, out i k r c = gdq i k r c) \/
    ((forall k, out i k r c = N.lor (gdq i k r c) (flag_if (existsb (in_shower gdq i k r c) evs) (bit kj))) /\
     let x := fabs fo (fsub fo (flux fo P mean ng dat gdq i r c) (flux fo P mean ng dat out i r c)) in
     fisfinite fo x = true /\ flt fo (s_maxamp P) x = false /\
     pdq r c <> s_ref P /\ exists g, g + 1 < ng /\ flagged (out i g r c) = false /\ flagged (out i (g + 1) r c) = false).
  Proof.
    cbv zeta. unfold find_faint_extended.
    destruct (Z.ltb _ 10); [left; reflexivity|]. cbv zeta. cbn [fst].
    set (gdq0 := ref_masked fo P gdq pdq). set (evs := shower_events _ _ _ _ _ _ _ _ _ _). set (gdq1 := flag_showers _ _ _ _ _ _ _ evs gdq0).
    set (x := fabs fo (fsub fo (flux fo P mean ng dat gdq i r c) (flux fo P mean ng dat gdq1 i r c))).
    destruct (negb (fisfinite fo x) || flt fo (s_maxamp P) x) eqn:D.
    - left. intros k'. unfold max_flux_showers. fold x. rewrite D. reflexivity.
    - right. apply orb_false_iff in D. destruct D as [D1 D2]. rewrite negb_false_iff in D1.
      assert (OUT : forall k', max_flux_showers fo P mean ng dat gdq gdq1 i k' r c = gdq1 i k' r c).
      { intro k'. unfold max_flux_showers. fold x. rewrite D1, D2. reflexivity. }
      assert (FN : fisnan fo (flux fo P mean ng dat gdq1 i r c) = false).
      { destruct (fisnan fo (flux fo P mean ng dat gdq1 i r c)) eqn:E; [|reflexivity]. exfalso.
        apply (finite_not_nan fo L) in D1. unfold x in D1. rewrite (abs_nan fo L), (sub_nan_r fo L) in D1 by exact E. discriminate. }
      destruct (flux_pair dat gdq1 i r c FN) as (g & Hg & F1 & F2).
      assert (NR : N.eqb (pdq r c) (s_ref P) = false).
      { destruct (N.eqb (pdq r c) (s_ref P)) eqn:E; [|reflexivity]. exfalso.
        unfold flagged, gdq1 in F1. rewrite shower_fold in F1. unfold gdq0, ref_masked in F1. rewrite E, Hdn, N.lor_spec, bit_testbit, N.eqb_refl in F1.
        discriminate. }
      assert (G0 : forall k', gdq0 i k' r c = gdq i k' r c) by (intro; unfold gdq0, ref_masked; rewrite NR; reflexivity).
      split.
      + intro k. rewrite OUT. unfold gdq1. rewrite shower_fold, G0. f_equal. f_equal. apply existsb_ext_in.
        intros [[i1 grp1] es1] _. unfold in_shower. destruct (Nat.eqb_spec i i1) as [<-|]; [|reflexivity].
        rewrite (unsat_ext ks gdq0 gdq); [reflexivity|]. intro j. rewrite G0. reflexivity.
      + assert (FL : flux fo P mean ng dat (max_flux_showers fo P mean ng dat gdq gdq1) i r c = flux fo P mean ng dat gdq1 i r c).
        { unfold flux. cbv zeta. f_equal. apply map_ext. intro g'. rewrite !OUT. reflexivity. }
        rewrite FL. fold x. split; [exact D1|]. split; [exact D2|]. split; [apply N.eqb_neq; exact NR|]. exists g. split; [exact Hg|]. rewrite !OUT. auto.
  Qed.
End Shower.

Record shower_ok (fo : FOps) (P : snow fo) (kj ks kd : N) : Prop := {
  sh_jump : s_jump P = bit kj; sh_sat : s_sat P = bit ks; sh_dnu : s_dnu P = bit kd; sh_js : kj <> ks; sh_jd : kj <> kd }.

(** Shower flagging changes no bit but JUMP_DET, never clears it, and sets it only at a pixel unsaturated
    in that group, inside a shower that started at this group or at most [s_shower_grps] groups earlier
    (never at the first group).  Reference pixels in particular keep their flags. *)
Theorem C60_shower_only_adds_jump : forall fo, FLaws fo -> fisnan fo (fnan fo) = true ->
  forall (P : snow fo) kj ks kd rnd disk reg mean nints ng nr nc dat gdq pdq,
  shower_ok fo P kj ks kd -> within_radius disk ->
  let out := fst (find_faint_extended fo P rnd disk reg mean nints ng nr nc dat gdq pdq) in
  forall i k r c, r < nr -> c < nc ->
  (forall b, b <> kj -> N.testbit (out i k r c) b = N.testbit (gdq i k r c) b) /\
  (N.testbit (gdq i k r c) kj = true -> N.testbit (out i k r c) kj = true) /\
  (N.testbit (out i k r c) kj = true -> N.testbit (gdq i k r c) kj = false ->
     i < nints /\ N.testbit (gdq i k r c) ks = false /\ pdq r c <> s_ref P /\
     exists g e, 0 < g /\ g <= k <= g + s_shower_grps P /\ k < ng /\
       In e (reg (nan_invalid fo P dat gdq) (ref_masked fo P gdq pdq) pdq i g) /\
       covers fo rnd disk e (compute_axes fo P rnd e (s_shower_expand P)) r c = true).
Proof.
  intros fo L HN P kj ks kd rnd disk reg mean nints ng nr nc dat gdq pdq [Hj Hs Hdn Hjs Hjd] W. cbv zeta. intros i k r c Hr Hc.
  destruct (shower_words fo L HN P kj ks kd Hj Hs Hdn Hjs rnd disk reg mean ng nr nc nints dat gdq pdq i r c) as [H|[H H']].
  - rewrite H. split; [reflexivity|]. split; [auto|]. congruence.
  - rewrite H. split; [|split].
    + intros b Hb. rewrite lor_flag_testbit. destruct (N.eqb_spec kj b); [congruence|]. rewrite andb_false_r. apply orb_false_r.
    + intro H1. rewrite lor_flag_testbit, H1. reflexivity.
    + intros H1 H0. rewrite lor_flag_testbit, H0, N.eqb_refl, andb_true_r in H1. cbn [orb] in H1. apply existsb_exists in H1.
      destruct H1 as ([[i0 grp] es] & E1 & E2). unfold in_shower in E2. rewrite !andb_true_iff, Nat.eqb_eq, !Nat.leb_le, Nat.ltb_lt, existsb_exists in E2.
      destruct E2 as (((((<- & A1) & A2) & A3) & A4) & (e & A5 & A6)). unfold shower_events in E1. apply in_flat_map in E1.
      destruct E1 as (i0 & B1 & B2). apply in_map_iff in B2. destruct B2 as (g0 & B2 & B3). injection B2 as -> -> <-. apply in_seq in B1, B3.
      split; [lia|]. split; [|split].
      * unfold unsat_through in A4. rewrite forallb_forall in A4. rewrite <- negb_true_iff. apply A4, in_seq. clear -A1. lia.
      * apply H'.
      * exists grp, e. split; [lia|]. split; [lia|]. split; [exact A3|]. split; [exact A5|]. rewrite <- (drawn_covers fo rnd disk nr nc) by assumption. exact A6.
Qed.
Print Assumptions C60_shower_only_adds_jump.
(** A pixel whose flags change keeps two adjacent usable groups (so it can still be fitted), and its mean
    group difference is finite and changed by no more than max_shower_amplitude. *)
Theorem C60_shower_keeps_pixel_usable : forall fo, FLaws fo -> fisnan fo (fnan fo) = true ->
  forall (P : snow fo) kj ks kd rnd disk reg mean nints ng nr nc dat gdq pdq,
  shower_ok fo P kj ks kd ->
  let out := fst (find_faint_extended fo P rnd disk reg mean nints ng nr nc dat gdq pdq) in
  forall i r c, (exists k, out i k r c <> gdq i k r c) ->
  (exists g, g + 1 < ng /\ forall b, (b = kd \/ b = ks \/ b = kj) -> N.testbit (out i g r c) b = false /\ N.testbit (out i (g + 1) r c) b = false) /\
  let change := fabs fo (fsub fo (flux fo P mean ng dat gdq i r c) (flux fo P mean ng dat out i r c)) in
  fisfinite fo change = true /\ flt fo (s_maxamp P) change = false.
Proof.
  intros fo L HN P kj ks kd rnd disk reg mean nints ng nr nc dat gdq pdq [Hj Hs Hdn Hjs Hjd]. cbv zeta. intros i r c (k & Hk).
  destruct (shower_words fo L HN P kj ks kd Hj Hs Hdn Hjs rnd disk reg mean ng nr nc nints dat gdq pdq i r c) as [H|[_ (H1 & H2 & _ & g & Hg & F1 & F2)]].
  - contradict Hk. apply H.
  - split; [|auto]. exists g. split; [exact Hg|]. unfold flagged in F1, F2. rewrite !orb_false_iff in F1, F2. intros b [-> | [-> | ->]]; tauto.
Qed.
Print Assumptions C60_shower_keeps_pixel_usable.
(** Too few differences: nothing changes. *)
Theorem C60_too_few_differences : forall fo (P : snow fo) rnd disk reg mean nints ng nr nc dat gdq pdq,
  (Z.of_nat nints * (Z.of_nat ng - 1) - Z.of_nat (count_dnu_groups fo P nints ng nr nc gdq) < 10)%Z ->
  find_faint_extended fo P rnd disk reg mean nints ng nr nc dat gdq pdq = (gdq, 0).
Proof. intros. unfold find_faint_extended. apply Z.ltb_lt in H. rewrite H. reflexivity. Qed.
Print Assumptions C60_too_few_differences.

(** Exactly: when there are enough differences, a non-reference pixel gets JUMP_DET in every group in
    which a shower reaches it - unless that would change its mean group difference by more than
    max_shower_amplitude (or leave it undefined), in which case it keeps its flags.  [marked] is the pixel
    with the showers' flags. *)
Theorem C60_shower_exact : forall fo, FLaws fo -> fisnan fo (fnan fo) = true ->
  forall (P : snow fo) kj ks kd rnd disk reg mean nints ng nr nc dat gdq pdq (marked : arr4 N),
  shower_ok fo P kj ks kd -> within_radius disk ->
  (10 <= Z.of_nat nints * (Z.of_nat ng - 1) - Z.of_nat (count_dnu_groups fo P nints ng nr nc gdq))%Z ->
  let out := fst (find_faint_extended fo P rnd disk reg mean nints ng nr nc dat gdq pdq) in
  let masked := ref_masked fo P gdq pdq in
  forall i r c, i < nints -> r < nr -> c < nc -> pdq r c <> s_ref P ->
  (forall k b, N.testbit (marked i k r c) b = true <-> N.testbit (gdq i k r c) b = true \/
     b = kj /\ k < ng /\ exists g e,
       first_good_group fo P ng nr nc (masked i) < g /\ g <= k <= g + s_shower_grps P /\
       In e (reg (nan_invalid fo P dat gdq) masked pdq i g) /\
       covers fo rnd disk e (compute_axes fo P rnd e (s_shower_expand P)) r c = true /\
       forall j, g <= j <= k -> N.testbit (gdq i j r c) ks = false) ->
  let change := fabs fo (fsub fo (flux fo P mean ng dat gdq i r c) (flux fo P mean ng dat marked i r c)) in
  forall k, out i k r c = if fisfinite fo change && negb (flt fo (s_maxamp P) change) then marked i k r c else gdq i k r c.
Proof.
  intros fo L HN P kj ks kd rnd disk reg mean nints ng nr nc dat gdq pdq marked [Hj Hs Hdn Hjs Hjd] W Hten. cbv zeta.
  intros i r c Hi Hr Hc Href HM k. unfold find_faint_extended. replace (Z.ltb _ 10) with false by (symmetry; apply Z.ltb_ge; exact Hten).
  cbv zeta. cbn [fst]. set (gdq0 := ref_masked fo P gdq pdq) in *. set (evs := shower_events _ _ _ _ _ _ _ _ _ _).
  set (gdq1 := flag_showers _ _ _ _ _ _ _ evs gdq0).
  assert (G0 : forall k', gdq0 i k' r c = gdq i k' r c) by (intro; unfold gdq0, ref_masked; apply N.eqb_neq in Href; rewrite Href; reflexivity).
  assert (E : forall k', gdq1 i k' r c = marked i k' r c).
  { intro k'. apply N.bits_inj. intro b. unfold gdq1. rewrite (shower_fold fo P kj ks Hj Hs Hjs), G0, lor_flag_testbit.
    apply eq_true_iff_eq. rewrite HM, orb_true_iff. apply or_iff_compat_l. rewrite andb_true_iff, N.eqb_eq, existsb_exists. split.
    - intros (([[i0 g] es] & E1 & E2) & <-). split; [reflexivity|]. unfold in_shower in E2.
      rewrite !andb_true_iff, Nat.eqb_eq, !Nat.leb_le, Nat.ltb_lt, existsb_exists in E2.
      destruct E2 as (((((<- & A1) & A2) & A3) & A4) & (e & A5 & A6)). unfold evs, shower_events in E1. apply in_flat_map in E1.
      destruct E1 as (i0 & B1 & B2). apply in_map_iff in B2. destruct B2 as (g0 & B2 & B3). injection B2 as -> -> <-. apply in_seq in B3.
      split; [exact A3|]. exists g, e. split; [clear -B3; lia|]. split; [clear -A1 A2; lia|]. split; [exact A5|].
      split; [rewrite <- (drawn_covers fo rnd disk nr nc) by assumption; exact A6|].
      intros j Hjk. unfold unsat_through in A4. rewrite forallb_forall in A4. rewrite <- G0, <- negb_true_iff. apply A4, in_seq. clear -Hjk. lia.
    - intros (-> & A3 & g & e & B1 & B2 & B3 & B4 & B5). split; [|reflexivity].
      exists (i, g, reg (nan_invalid fo P dat gdq) gdq0 pdq i g). split.
      + unfold evs, shower_events. apply in_flat_map. exists i. split; [apply in_seq; clear -Hi; lia|]. apply in_map_iff. exists g.
        split; [reflexivity|]. apply in_seq. fold gdq0. clear -B1 B2 A3. lia.
      + unfold in_shower. rewrite !andb_true_iff, Nat.eqb_eq, !Nat.leb_le, Nat.ltb_lt, existsb_exists.
        split; [split; [split; [split; [split|]|]|]|].
        * reflexivity.
        * apply B2.
        * apply B2.
        * exact A3.
        * unfold unsat_through. apply forallb_forall. intros j Hjk. apply in_seq in Hjk. rewrite G0, negb_true_iff. apply B5. clear -Hjk B2. lia.
        * exists e. split; [exact B3|]. rewrite (drawn_covers fo rnd disk nr nc) by assumption. exact B4. }
  unfold max_flux_showers.
  assert (FL : flux fo P mean ng dat gdq1 i r c = flux fo P mean ng dat marked i r c).
  { unfold flux. cbv zeta. f_equal. apply map_ext. intro g'. rewrite !E. reflexivity. }
  rewrite FL, E. destruct (fisfinite fo _), (flt fo _ _); reflexivity.
Qed.
Print Assumptions C60_shower_exact.

(** a 4 x 2 ellipse expanded by 2 is 6 x 4: half axes 3 and 2 *)
Example C24_expansion_example : compute_axes B64 (exS true) zr
  {| e_col := fzero B64; e_row := fzero B64; e_h := fofZ B64 4; e_w := fofZ B64 2; e_angle := fzero B64 |} (fofZ B64 2) = (3, 2)%Z.
Proof. vm_compute. reflexivity. Qed.
(** 1 integration, 12 groups, 1 x 2 pixels, a shower over both pixels at group 4: pixel 0 is flagged in
    groups 4 and 5; pixel 1 is a reference pixel (pixel DQ 2^31) and keeps its SATURATED flag. *)
Definition exreg2 : arr4 B64 -> arr4 N -> img N -> nat -> nat -> list (ellipse B64) := fun _ _ _ i g =>
  if Nat.eqb g 4 then [{| e_col := fofZ B64 0; e_row := fofZ B64 0; e_h := fofZ B64 4; e_w := fofZ B64 4; e_angle := fzero B64 |}] else [].
Definition exmean (l : list B64) : B64 := fdiv B64 (fold_left (fadd B64) l (fzero B64)) (fofZ B64 (Z.of_nat (length l))).
Example C60_example :
  let gdq : arr4 N := fun i g r c => if Nat.eqb c 1 && Nat.leb 9 g then 2%N else 0%N in
  let pdq : img N := fun r c => if Nat.eqb c 1 then bit 31 else 0%N in
  let out := fst (find_faint_extended B64 (exS true) zr ellZ exreg2 exmean 1 12 1 2 (fun i g r c => fofZ B64 (10 * Z.of_nat g)) gdq pdq) in
  shower_ok B64 (exS true) 2 1 0 /\
  map (fun g => out 0 g 0 0) (seq 0 12) = [0; 0; 0; 0; 4; 4; 0; 0; 0; 0; 0; 0]%N /\
  map (fun g => out 0 g 0 1) (seq 0 12) = [0; 0; 0; 0; 0; 0; 0; 0; 0; 2; 2; 2]%N.
Proof. cbv zeta. split; [split; (reflexivity || discriminate)|]. vm_compute. auto. Qed.

(** ** C61: groups left out of the shower search *)
(** A group whose flags are exactly one of these combinations is blanked ... *)
Theorem C61_masked_exactly_partial : forall fo (P : snow fo) dat gdq i g r c,
  nan_invalid fo P dat gdq i g r c =
  if existsb (N.eqb (gdq i g r c)) [s_dnu P; s_sat P; s_jump P; s_sat P + s_dnu P; s_jump P + s_dnu P]%N then fnan fo else dat i g r c.
Proof.
  intros. unfold nan_invalid. cbn [existsb]. rewrite orb_false_r.
  destruct (N.eqb _ (s_jump P + s_dnu P)), (N.eqb _ (s_sat P + s_dnu P)), (N.eqb _ (s_sat P)), (N.eqb _ (s_jump P)), (N.eqb _ (s_dnu P)); reflexivity.
Qed.
Print Assumptions C61_masked_exactly_partial.
Example C61_example : nan_invalid B64 (exS true) (fun _ _ _ _ => fone B64) (fun _ _ _ _ => 3%N) 0 0 0 0 = fnan B64.
Proof. reflexivity. Qed.
(** ... but a saturated group that also carries another flag (here AD_FLOOR = 64) is used. *)
Theorem C61_flagged_groups_masked_refuted : exists (P : snow B64) dat (gdq : arr4 N),
  shower_ok B64 P 2 1 0 /\ N.testbit (gdq 0 0 0 0) 1 = true /\ fisnan B64 (nan_invalid B64 P dat gdq 0 0 0 0) = false.
Proof.
  exists (exS true), (fun _ _ _ _ => fone B64), (fun _ _ _ _ => 66%N). split; [split; (reflexivity || discriminate)|]. vm_compute. auto.
Qed.
Print Assumptions C61_flagged_groups_masked_refuted.

(** ** C63: pixels with unusable gain *)
Theorem C63_bad_gain : forall fo, FLaws fo -> forall kn kd (gain : img fo) pdq r c,
  let out := setup_pdq fo (bit kn) (bit kd) gain pdq in
  (flt fo (fzero fo) (gain r c) = true -> out r c = pdq r c) /\
  (flt fo (fzero fo) (gain r c) = false ->
     N.testbit (out r c) kn = true /\ N.testbit (out r c) kd = true /\
     forall b, b <> kn -> b <> kd -> N.testbit (out r c) b = N.testbit (pdq r c) b).
Proof.
  intros fo L kn kd gain pdq r c. cbv zeta. unfold setup_pdq. rewrite (fle_spec fo L).
  assert (Z0 : fisnan fo (fzero fo) = false) by apply (finite_not_nan fo L), (zero_finite fo L). rewrite Z0. cbn [negb].
  destruct (fisnan fo (gain r c)) eqn:EN; cbn [negb andb orb].
  - split; [intro H; rewrite (lt_nan_r fo L) in H by exact EN; discriminate|]. intros _.
    rewrite !N.lor_spec, !bit_testbit, !N.eqb_refl. split; [destruct (N.eqb kd kn); rewrite ?orb_true_r; reflexivity|].
    split; [rewrite !orb_true_r; reflexivity|]. intros b H1 H2. rewrite !N.lor_spec, !bit_testbit.
    destruct (N.eqb_spec kn b), (N.eqb_spec kd b); try congruence. apply orb_false_r.
  - destruct (flt fo (fzero fo) (gain r c)) eqn:E; cbn [negb orb]; (split; [intro H; reflexivity || discriminate|]); [discriminate|].
    intros _. rewrite !N.lor_spec, !bit_testbit, !N.eqb_refl. split; [destruct (N.eqb kd kn); rewrite ?orb_true_r; reflexivity|].
    split; [rewrite !orb_true_r; reflexivity|]. intros b H1 H2. rewrite !N.lor_spec, !bit_testbit.
    destruct (N.eqb_spec kn b), (N.eqb_spec kd b); try congruence. apply orb_false_r.
Qed.
Print Assumptions C63_bad_gain.
Example C63_example : map (fun g => setup_pdq B64 (bit 19) (bit 0) (fun _ _ => g) (fun _ _ => 4%N) 0 0) [fone B64; fzero B64; fnan B64; fofZ B64 (-2)]
  = [4; 524293; 524293; 524293]%N.
Proof. vm_compute. reflexivity. Qed.
