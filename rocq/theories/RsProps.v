(** C99: the weight threshold of outlier detection.  C100: pixel areas and scales of resampled products.
    C101: the estimated output shape.  C102: recorded sky levels.  Exact arithmetic unless a theorem says otherwise. *)
From Verif Require Import Base RBase RNBase ResModel ResUtilModel ResVar RsModel Cas22Fit ResUtilProps.
From Coq Require Import Reals Lra List.
Local Open Scope R_scope.

(** ** C99 *)
(** a median: at most half of the values lie below it, at most half above *)
Definition count_if (p : R -> bool) (l : list R) : nat := length (filter p l).
Definition is_median (m : R) (l : list R) : Prop :=
  (2 * count_if (fun x => Rltb x m) l <= length l)%nat /\ (2 * count_if (fun x => Rltb m x) l <= length l)%nat.

Lemma Rltb_f x y : Rltb x y = false <-> y <= x.
Proof. destruct (Rltb x y) eqn:E; split; intro H; try discriminate; try reflexivity. - apply Rltb_spec in E. lra. - destruct (Rle_dec y x); [assumption|]. exfalso. assert (T : Rltb x y = true) by (apply Rltb_spec; lra). congruence. Qed.
(** a median minimises the sum of absolute deviations *)
Lemma abs_dev_side (f : R -> R) (p : R -> bool) d l : 0 <= d -> (forall x, In x l -> (if p x then - d else d) <= f x) -> (2 * count_if p l <= length l)%nat -> 0 <= Rsum (map f l).
Proof.
  intros D H C. assert (G : d * (INR (length l) - 2 * INR (count_if p l)) <= Rsum (map f l)).
  { clear C. induction l as [|x l IH]; [cbn; lra|]. cbn [map]. rewrite Rsum_cons. specialize (IH (fun y Y => H y (or_intror Y))). pose proof (H x (or_introl eq_refl)) as Hx.
    unfold count_if in *. cbn [filter length]. destruct (p x); cbn [length]; rewrite ?S_INR; lra. }
  apply le_INR in C. rewrite mult_INR in C. cbn [INR] in C. assert (0 <= d * (INR (length l) - 2 * INR (count_if p l))) by (apply Rmult_le_pos; lra). lra.
Qed.
Lemma median_min m l c : is_median m l -> Rsum (map (fun x => Rabs (x - m)) l) <= Rsum (map (fun x => Rabs (x - c)) l).
Proof.
  intros [A B]. enough (0 <= Rsum (map (fun x => Rabs (x - c) - Rabs (x - m)) l)).
  { replace (Rsum (map (fun x => Rabs (x - c) - Rabs (x - m)) l)) with (Rsum (map (fun x => Rabs (x - c)) l) - Rsum (map (fun x => Rabs (x - m)) l)) in H; [lra|].
    clear. induction l as [|x l IH]; cbn [map]; rewrite ?Rsum_cons, ?Rsum_nil; lra. }
  destruct (Rle_dec m c) as [L|L].
  - apply (abs_dev_side _ (fun x => Rltb m x) (c - m)); [lra| |exact B]. intros x _. destruct (Rltb m x) eqn:E.
    + unfold Rabs; destruct (Rcase_abs (x - c)), (Rcase_abs (x - m)); lra.
    + apply Rltb_f in E. rewrite (Rabs_left1 (x - c)), (Rabs_left1 (x - m)); lra.
  - apply (abs_dev_side _ (fun x => Rltb x m) (m - c)); [lra| |exact A]. intros x _. destruct (Rltb x m) eqn:E.
    + unfold Rabs; destruct (Rcase_abs (x - c)), (Rcase_abs (x - m)); lra.
    + apply Rltb_f in E. rewrite (Rabs_right (x - c)), (Rabs_right (x - m)); lra.
Qed.
(** mean and standard deviation *)
Lemma lsum_R (l : list R) : lsum RF l = Rsum l. Proof. reflexivity. Qed.
Lemma len_pos {A} (l : list A) : l <> [] -> 0 < INR (length l).
Proof. intro H. apply lt_0_INR. destruct l; [congruence|cbn; lia]. Qed.
Lemma lmean_R (l : list R) : lmean RF l = Rsum l / INR (length l).
Proof. unfold lmean. cbn [fdiv fofZ RF F]. rewrite lsum_R, <- INR_IZR_INZ. reflexivity. Qed.
Lemma lstd_nonneg (l : list R) : 0 <= lstd RF l. Proof. apply sqrt_pos. Qed.
Lemma sq_sum_nonneg (f : R -> R) l : 0 <= Rsum (map (fun x => f x * f x) l).
Proof. apply Rsum_nonneg. intros y _. apply Rle_0_sqr. Qed.
Lemma lstd_sq (l : list R) : l <> [] -> INR (length l) * (lstd RF l * lstd RF l) = Rsum (map (fun x => (x - lmean RF l) * (x - lmean RF l)) l).
Proof.
  intro N. pose proof (len_pos l N) as P. unfold lstd. cbn [fsqrt fmul fsub RF F].
  set (s := Rsum (map (fun x => (x - lmean RF l) * (x - lmean RF l)) l)).
  assert (E : lmean RF (map (fun x : R => (x - lmean RF l) * (x - lmean RF l)) l) = s / INR (length l)) by (rewrite lmean_R, map_length; reflexivity).
  change (INR (length l) * (sqrt (lmean RF (map (fun x : R => (x - lmean RF l) * (x - lmean RF l)) l)) * sqrt (lmean RF (map (fun x : R => (x - lmean RF l) * (x - lmean RF l)) l))) = s).
  rewrite E, sqrt_sqrt; [field; lra|]. apply Rmult_le_pos; [apply sq_sum_nonneg|]. left. apply Rinv_0_lt_compat, P.
Qed.
(** some value lies within three standard deviations of a median *)
Lemma abs_cs (f : R -> R) l : (Rsum (map (fun x => Rabs (f x)) l)) * (Rsum (map (fun x => Rabs (f x)) l)) <= INR (length l) * Rsum (map (fun x => f x * f x) l).
Proof.
  induction l as [|x l IH]; [cbn; lra|]. cbn [map length]. rewrite !Rsum_cons, S_INR.
  set (A := Rsum (map (fun x => Rabs (f x)) l)) in *. set (B := Rsum (map (fun x => f x * f x) l)) in *. set (n := INR (length l)) in *. set (a := Rabs (f x)).
  assert (Ea : f x * f x = a * a) by (unfold a; rewrite <- Rabs_mult, Rabs_right; [reflexivity|apply Rle_ge, Rle_0_sqr]).
  rewrite Ea. assert (A0 : 0 <= A) by (apply Rsum_nonneg; intros y _; apply Rabs_pos).
  assert (B0 : 0 <= B) by apply sq_sum_nonneg. assert (n0 : 0 <= n) by apply pos_INR. assert (a0 : 0 <= a) by apply Rabs_pos.
  (* 2 a A <= n a^2 + B *)
  assert (K : 2 * a * A <= n * (a * a) + B).
  { unfold A, B, n. clear. induction l as [|y l IH]; [cbn; lra|]. cbn [map length]. rewrite !Rsum_cons, S_INR.
    assert (0 <= (a - Rabs (f y)) * (a - Rabs (f y))) by apply Rle_0_sqr. assert (Ey : f y * f y = Rabs (f y) * Rabs (f y)) by (rewrite <- Rabs_mult, Rabs_right; [reflexivity|apply Rle_ge, Rle_0_sqr]).
    rewrite Ey. nra. }
  nra.
Qed.
Lemma mean_zero (l : list R) : l <> [] -> Rsum (map (fun x => x - lmean RF l) l) = 0.
Proof. intro N. pose proof (len_pos l N). set (m := lmean RF l : R). assert (E : m = Rsum l / INR (length l)) by apply lmean_R. transitivity (Rsum (map (fun x => x) l) - INR (length l) * m).
  - clearbody m. clear. induction l as [|x l IH]; [cbn; lra|]. cbn [map length]. rewrite !Rsum_cons, S_INR, IH. ring.
  - rewrite map_id, E. field. lra. Qed.
Lemma near_median m l : l <> [] -> is_median m l -> exists x, In x l /\ Rabs (x - m) <= 3 * lstd RF l.
Proof.
  intros N M. set (s := lstd RF l : R). assert (s0 : 0 <= s) by apply lstd_nonneg. pose proof (len_pos l N) as P. set (n := INR (length l)) in *.
  set (D := Rsum (map (fun x => Rabs (x - m)) l)). set (c := lmean RF l : R). set (E := Rsum (map (fun x => Rabs (x - c)) l)).
  assert (DE : D <= E) by (apply median_min; exact M).
  assert (EE : E * E <= n * (n * (s * s))). { pose proof (lstd_sq l N) as Q. change (n * (s * s) = Rsum (map (fun x => (x - c) * (x - c)) l)) in Q. rewrite Q. apply (abs_cs (fun x => x - c)). }
  assert (E0 : 0 <= E) by (apply Rsum_nonneg; intros y _; apply Rabs_pos).
  assert (En : E <= n * s). { apply Rsqr_incr_0_var; [|apply Rmult_le_pos; lra]. unfold Rsqr. replace (n * s * (n * s)) with (n * (n * (s * s))) by ring. exact EE. }
  (* otherwise D > 3 n s >= ... *)
  destruct (List.existsb (fun x => Rleb (Rabs (x - m)) (3 * s)) l) eqn:X.
  - apply existsb_exists in X. destruct X as (x & I & Hx). apply Rleb_spec in Hx. exists x. auto.
  - exfalso. assert (A : forall x, In x l -> 3 * s < Rabs (x - m)).
    { intros x I. destruct (Rle_dec (Rabs (x - m)) (3 * s)) as [L|L]; [|lra]. exfalso. assert (T : existsb (fun x => Rleb (Rabs (x - m)) (3 * s)) l = true) by (apply existsb_exists; exists x; split; [exact I|apply Rleb_spec, L]). congruence. }
    assert (S3 : n * (3 * s) < D).
    { unfold n, D. clearbody s. clear - A N. destruct l as [|x l]; [congruence|]. cbn [map length]. rewrite Rsum_cons, S_INR.
      assert (INR (length l) * (3 * s) <= Rsum (map (fun x => Rabs (x - m)) l)).
      { assert (A' : forall y, In y l -> 3 * s < Rabs (y - m)) by (intros y Y; apply A; right; exact Y). clear - A'. induction l as [|y l IH]; [cbn; lra|]. cbn [map length]. rewrite Rsum_cons, S_INR. pose proof (A' y (or_introl eq_refl)). specialize (IH (fun z Z => A' z (or_intror Z))). lra. }
      pose proof (A x (or_introl eq_refl)). lra. }
    assert (n * s <= n * (3 * s)) by (apply Rmult_le_compat_l; lra). lra.
Qed.

(** clipping keeps a non-empty part of the values *)
Lemma clip1_nonempty (med : list R -> R) l : (forall l, l <> [] -> is_median (med l) l) -> l <> [] -> clip1 RF med l <> [].
Proof.
  intros M N. destruct (near_median (med l) l N (M l N)) as (x & I & Hx). intro E. unfold clip1 in E. cbn [fge fle fsub fadd fmul fofZ RF F] in E.
  assert (J : In x (clip1 RF med l)). { unfold clip1. apply filter_In. split; [exact I|]. cbn [fge fle fsub fadd fmul fofZ RF F]. apply andb_true_intro.
    unfold fge. cbn [fle fsub fadd fmul fofZ RF F]. split; apply Rleb_spec; unfold Rabs in Hx; destruct (Rcase_abs (x - med l)); lra. }
  unfold clip1 in J. cbn [fge fle fsub fadd fmul fofZ RF F] in J. rewrite E in J. destruct J.
Qed.
Lemma clip_incl (fo : FOps) med n (l : list fo) x : In x (clip fo med n l) -> In x l.
Proof. revert l. induction n as [|n IH]; intros l H; [exact H|]. cbn [clip] in H. destruct (Nat.eqb _ _); [|apply IH in H]; unfold clip1 in H; apply filter_In in H; apply H. Qed.
Lemma clip_nonempty (med : list R -> R) n l : (forall l, l <> [] -> is_median (med l) l) -> l <> [] -> clip RF med n l <> [].
Proof. intro M. revert l. induction n as [|n IH]; intros l N; [exact N|]. cbn [clip]. destruct (Nat.eqb _ _); [|apply IH]; apply clip1_nonempty; assumption. Qed.
Lemma mean_between (l : list R) lo hi : l <> [] -> (forall x, In x l -> lo <= x <= hi) -> lo <= lmean RF l <= hi.
Proof.
  intros N H. rewrite lmean_R. pose proof (len_pos l N) as P.
  assert (S : INR (length l) * lo <= Rsum l <= INR (length l) * hi).
  { clear N P. induction l as [|x l IH]; [cbn; lra|]. cbn [length]. rewrite Rsum_cons, S_INR. specialize (IH (fun y Y => H y (or_intror Y))). pose proof (H x (or_introl eq_refl)). lra. }
  split; apply Rmult_le_reg_r with (INR (length l)); try exact P; unfold Rdiv; rewrite Rmult_assoc, Rinv_l, Rmult_1_r by lra; lra.
Qed.

(** the weights that count: those that are not zero (exact arithmetic has no infinities) *)
Definition seen (w : list R) : list R := filter (fun x => negb (Reqb x 0)) w.
Lemma covered_R w : covered RF w = seen w. Proof. reflexivity. Qed.
Lemma seen_in w x : In x (seen w) <-> In x w /\ x <> 0.
Proof. unfold seen. rewrite filter_In. split; intros [I H]; (split; [exact I|]). - intro E. rewrite (proj2 (Reqb_spec x 0) E) in H. discriminate. - destruct (Reqb x 0) eqn:E; [apply Reqb_spec in E; contradiction|reflexivity]. Qed.

(** between the fraction of the smallest and of the largest weight that is not zero *)
Theorem C99_between : forall (med : list R -> R) w maskpt lo hi, (forall l, l <> [] -> is_median (med l) l) -> 0 <= maskpt ->
  (exists x, In x w /\ x <> 0) -> (forall x, In x w -> x <> 0 -> lo <= x <= hi) ->
  lo * maskpt <= weight_threshold RF med w maskpt <= hi * maskpt.
Proof.
  intros med w k lo hi M K [x [I X]] B. unfold weight_threshold. rewrite covered_R. cbn [fmul RF F].
  assert (N : seen w <> []) by (intro E; assert (In x (seen w)) by (apply seen_in; auto); rewrite E in H; exact H).
  destruct (mean_between (clip RF med 5 (seen w)) lo hi) as [L H].
  - apply clip_nonempty; assumption.
  - intros y Y. apply (clip_incl RF) in Y. apply seen_in in Y. apply B; apply Y.
  - split; apply Rmult_le_compat_r; assumption.
Qed.
(** evenly covered images keep every covered pixel, whatever the fraction below one *)
Theorem C99_even_coverage : forall (med : list R -> R) w maskpt c, (forall l, l <> [] -> is_median (med l) l) -> 0 <= maskpt -> 0 < c -> In c w -> (forall x, In x w -> x = 0 \/ x = c) ->
  weight_threshold RF med w maskpt = c * maskpt /\ (maskpt < 1 -> forall x, In x w -> x <> 0 -> weight_threshold RF med w maskpt < x).
Proof.
  intros med w k c M K C I A. assert (E : weight_threshold RF med w k = c * k).
  { apply Rle_antisym; apply (C99_between med w k c c M K); try (exists c; split; [exact I|lra]); intros x X Z; destruct (A x X); lra. }
  split; [exact E|]. intros L x X Z. rewrite E. destruct (A x X) as [->| ->]; [lra|]. cbn in *. nra.
Qed.
(** with positive weights and a fraction of at most one, the most exposed pixel is never masked *)
Theorem C99_best_kept : forall (med : list R -> R) w maskpt top, (forall l, l <> [] -> is_median (med l) l) -> 0 <= maskpt <= 1 -> In top w -> 0 < top -> (forall x, In x w -> 0 <= x <= top) ->
  weight_threshold RF med w maskpt <= top.
Proof.
  intros med w k top M K I T B. apply Rle_trans with (top * k); [|nra]. apply (C99_between med w k 0 top M); [lra|exists top; split; [exact I|lra]|]. intros x X _. apply B, X.
Qed.
(** pixels without weight (zero, NaN, infinite) play no part, in any arithmetic *)
Theorem C99_uncovered : forall (fo : FOps) med (w1 w2 z : list fo) maskpt, (forall x, In x z -> fisfinite fo x = false \/ feq fo x (fzero fo) = true) ->
  weight_threshold fo med (w1 ++ z ++ w2) maskpt = weight_threshold fo med (w1 ++ w2) maskpt.
Proof.
  intros fo med w1 w2 z k Z. unfold weight_threshold, covered. rewrite !filter_app. replace (filter _ z) with (@nil fo); [reflexivity|]. symmetry.
  induction z as [|x z IH]; [reflexivity|]. cbn [filter]. destruct (Z x (or_introl eq_refl)) as [E|E]; rewrite E; [|rewrite andb_false_r]; cbn [andb]; apply IH; intros y Y; apply Z; right; exact Y.
Qed.
(** scaling all weights scales the threshold *)
Lemma Rsum_map_scal k l : Rsum (map (Rmult k) l) = k * Rsum l.
Proof. etransitivity; [exact (Rsum_scal (fun x => x) k l)|]. rewrite map_id. reflexivity. Qed.
Lemma lmean_scal k (l : list R) : (lmean RF (map (Rmult k) l) : R) = k * lmean RF l.
Proof. rewrite !lmean_R, map_length, Rsum_map_scal. toR. unfold Rdiv. ring. Qed.
Lemma lstd_scal k (l : list R) : 0 < k -> (lstd RF (map (Rmult k) l) : R) = k * lstd RF l.
Proof.
  intro K. unfold lstd. cbn [fsqrt fmul fsub RF F]. set (m := lmean RF l : R). assert (Em : lmean RF (map (Rmult k) l) = k * m) by apply lmean_scal.
  assert (E : map (fun x : R => (x - lmean RF (map (Rmult k) l)) * (x - lmean RF (map (Rmult k) l))) (map (Rmult k) l) = map (Rmult (k * k)) (map (fun x => (x - m) * (x - m)) l)).
  { rewrite !map_map. apply map_ext. intro x. rewrite Em. ring. }
  rewrite E, lmean_scal. replace (k * k) with (k²) by reflexivity. rewrite sqrt_mult_alt by apply Rle_0_sqr. rewrite sqrt_Rsqr by lra. reflexivity.
Qed.
Lemma filter_map_scal k (p q : R -> bool) l : (forall x, In x l -> p (k * x) = q x) -> filter p (map (Rmult k) l) = map (Rmult k) (filter q l).
Proof. induction l as [|x l IH]; intro H; [reflexivity|]. cbn [map filter]. rewrite (H x (or_introl eq_refl)), IH by (intros y Y; apply H; right; exact Y). destruct (q x); reflexivity. Qed.
Lemma Rleb_scal k x y : 0 < k -> Rleb (k * x) (k * y) = Rleb x y.
Proof. intro K. destruct (Rleb x y) eqn:E; [apply Rleb_spec in E; apply Rleb_spec; apply Rmult_le_compat_l; lra|]. destruct (Rleb (k * x) (k * y)) eqn:E'; [|reflexivity]. apply Rleb_spec in E'. apply Rmult_le_reg_l in E'; [|exact K]. apply Rleb_spec in E'. congruence. Qed.
Lemma clip1_scal (med : list R -> R) k l : 0 < k -> (forall l, med (map (Rmult k) l) = k * med l) -> clip1 RF med (map (Rmult k) l) = map (Rmult k) (clip1 RF med l).
Proof.
  intros K M. unfold clip1. apply filter_map_scal. intros x _. unfold fge. cbn [fle fsub fadd fmul fofZ RF F]. rewrite M, (lstd_scal k l K).
  replace (k * med l - 3 * (k * lstd RF l)) with (k * (med l - 3 * lstd RF l)) by ring. replace (k * med l + 3 * (k * lstd RF l)) with (k * (med l + 3 * lstd RF l)) by ring. rewrite !Rleb_scal by exact K. reflexivity.
Qed.
Lemma clip_scal (med : list R -> R) k n l : 0 < k -> (forall l, med (map (Rmult k) l) = k * med l) -> clip RF med n (map (Rmult k) l) = map (Rmult k) (clip RF med n l).
Proof.
  intros K M. revert l. induction n as [|n IH]; intro l; [reflexivity|]. cbn [clip]. rewrite (clip1_scal med k l K M), !map_length. destruct (Nat.eqb _ _); [reflexivity|apply IH].
Qed.
Theorem C99_scaling : forall (med : list R -> R) k w maskpt, 0 < k -> (forall l, med (map (Rmult k) l) = k * med l) ->
  weight_threshold RF med (map (Rmult k) w) maskpt = k * weight_threshold RF med w maskpt.
Proof.
  intros med k w p K M. unfold weight_threshold. rewrite !covered_R.
  assert (E : seen (map (Rmult k) w) = map (Rmult k) (seen w)).
  { apply filter_map_scal. intros x _. f_equal. destruct (Reqb x 0) eqn:X. - apply Reqb_spec in X. apply Reqb_spec. subst x. ring. - destruct (Reqb (k * x) 0) eqn:Y; [|reflexivity]. apply Reqb_spec in Y. apply Rmult_integral in Y. destruct Y as [Y|Y]; [lra|]. apply Reqb_spec in Y. congruence. }
  rewrite E, (clip_scal med k 5 (seen w) K M), lmean_scal. set (m := lmean RF (clip RF med 5 (seen w)) : R). change (k * m * p = k * (m * p)). ring.
Qed.
(** one deviating weight among seven or more equal ones does not move the threshold *)
Lemma Rsum_repeat c n : Rsum (repeat c n) = INR n * c.
Proof. induction n as [|n IH]; [cbn; lra|]. cbn [repeat]. rewrite Rsum_cons, S_INR, IH. lra. Qed.
Lemma map_repeat' (f : R -> R) c n : map f (repeat c n) = repeat (f c) n.
Proof. induction n as [|n IH]; [reflexivity|]. cbn [repeat map]. rewrite IH. reflexivity. Qed.
Lemma clip_clip1 (fo : FOps) med n (l : list fo) x : In x (clip fo med (S n) l) -> In x (clip1 fo med l).
Proof. cbn [clip]. destruct (Nat.eqb _ _); [exact (fun H => H)|apply clip_incl]. Qed.
Lemma count_repeat p c n : count_if p (repeat c n) = if p c then n else 0%nat.
Proof. unfold count_if. induction n as [|n IH]; [destruct (p c); reflexivity|]. cbn [repeat filter]. destruct (p c) eqn:E; cbn [length]; congruence. Qed.
Lemma count_odd p c x n1 n2 : count_if p (repeat c n1 ++ x :: repeat c n2) = ((if p c then n1 + n2 else 0) + (if p x then 1 else 0))%nat.
Proof. unfold count_if. rewrite filter_app, app_length. cbn [filter]. pose proof (count_repeat p c n1) as A. pose proof (count_repeat p c n2) as B. unfold count_if in A, B. destruct (p x); cbn [length]; rewrite A, B; destruct (p c); lia. Qed.
Lemma odd_median m c x n1 n2 : (2 <= n1 + n2)%nat -> is_median m (repeat c n1 ++ x :: repeat c n2) -> m = c.
Proof.
  intros N [A B]. rewrite count_odd in A, B. rewrite app_length in A, B. cbn [length] in A, B. rewrite !repeat_length in A, B.
  destruct (Rtotal_order m c) as [L|[E|G]]; [|exact E|]; exfalso.
  - assert (T : Rltb m c = true) by (apply Rltb_spec, L). rewrite T in B. lia.
  - assert (T : Rltb c m = true) by (apply Rltb_spec, G). rewrite T in A. lia.
Qed.
Lemma odd_std c x n1 n2 : let n := INR (n1 + n2) in
  (n + 1) * (n + 1) * (lstd RF (repeat c n1 ++ x :: repeat c n2) * lstd RF (repeat c n1 ++ x :: repeat c n2)) = n * ((x - c) * (x - c)).
Proof.
  intro n. set (l := repeat c n1 ++ x :: repeat c n2). assert (N : l <> []) by (unfold l; destruct n1; discriminate).
  assert (n0 : 0 <= n) by apply pos_INR.
  assert (Len : INR (length l) = n + 1) by (unfold l, n; rewrite app_length; cbn [length]; rewrite !repeat_length, Nat.add_succ_r, S_INR; reflexivity).
  set (s := lstd RF l : R). assert (Q : INR (length l) * (s * s) = Rsum (map (fun y => (y - lmean RF l) * (y - lmean RF l)) l)) by exact (lstd_sq l N). rewrite Len in Q.
  assert (M : (lmean RF l : R) = c + (x - c) / (n + 1)).
  { assert (Z : (lmean RF l : R) = Rsum l / INR (length l)) by exact (lmean_R l). rewrite Len in Z. etransitivity; [exact Z|]. unfold l. rewrite Rsum_app, Rsum_cons, !Rsum_repeat. unfold n. rewrite plus_INR. field. rewrite <- plus_INR. fold n. lra. }
  assert (E : Rsum (map (fun y => (y - lmean RF l) * (y - lmean RF l)) l) = n * (x - c) * (x - c) / (n + 1)).
  { set (m := lmean RF l : R) in *. clearbody m. unfold l. rewrite map_app. cbn [map]. rewrite Rsum_app, Rsum_cons, !map_repeat', !Rsum_repeat. subst m. unfold n in *. rewrite plus_INR in *. field. lra. }
  rewrite E in Q. change ((n + 1) * (n + 1) * (s * s) = n * ((x - c) * (x - c))). rewrite Rmult_assoc. change ((n + 1) * (s * s) = n * (x - c) * (x - c) / (n + 1)) in Q. rewrite Q. field. lra.
Qed.
Theorem C99_outlier : forall (med : list R -> R) c x n1 n2 maskpt, (forall l, l <> [] -> is_median (med l) l) -> c <> 0 -> (7 <= n1 + n2)%nat ->
  weight_threshold RF med (repeat c n1 ++ x :: repeat c n2) maskpt = c * maskpt.
Proof.
  intros med c x n1 n2 k M C N.
  assert (G : forall l, l <> [] -> (forall y, In y (clip1 RF med l) -> y = c) -> lmean RF (clip RF med 5 l) = c).
  { intros l L H. apply Rle_antisym; (eapply (mean_between _ c c); [apply clip_nonempty; assumption|intros y Y; apply (clip_clip1 RF med 4), H in Y; lra]). }
  assert (R0 : forall n, seen (repeat c n) = repeat c n).
  { induction n as [|n IH]; [reflexivity|]. cbn [repeat]. unfold seen in *. cbn [filter]. destruct (Reqb c 0) eqn:E; [apply Reqb_spec in E; contradiction|]. cbn [negb]. rewrite IH. reflexivity. }
  unfold weight_threshold. rewrite covered_R. cbn [fmul RF F]. f_equal. unfold seen. rewrite filter_app. cbn [filter]. fold (seen (repeat c n1)). fold (seen (repeat c n2)). rewrite !R0.
  destruct (Req_dec x 0) as [X0|X0].
  - rewrite (proj2 (Reqb_spec x 0) X0). cbn [negb]. apply G.
    + intro E. apply (f_equal (@length R)) in E. rewrite app_length, !repeat_length in E. cbn in E. lia.
    + intros y Y. unfold clip1 in Y. apply filter_In in Y. destruct Y as [Y _]. apply in_app_or in Y. destruct Y as [Y|Y]; apply repeat_spec in Y; exact Y.
  - assert (E : Reqb x 0 = false) by (destruct (Reqb x 0) eqn:E; [apply Reqb_spec in E; contradiction|reflexivity]). rewrite E. cbn [negb].
    set (l := repeat c n1 ++ x :: repeat c n2). assert (L : l <> []) by (unfold l; destruct n1; discriminate).
    apply G; [exact L|]. intros y Y. destruct (Req_dec y c) as [|D]; [assumption|]. exfalso.
    unfold clip1 in Y. apply filter_In in Y. destruct Y as [I Y]. assert (y = x).
    { unfold l in I. apply in_app_or in I. destruct I as [I|[I|I]]; [apply repeat_spec in I; contradiction|congruence|apply repeat_spec in I; contradiction]. } subst y.
    unfold fge in Y. cbn [fle fsub fadd fmul fofZ RF F] in Y. apply andb_prop in Y. destruct Y as [Y1 Y2]. apply Rleb_spec in Y1, Y2.
    assert (Em : med l = c) by (apply (odd_median (med l) c x n1 n2); [lia|apply M, L]). rewrite Em in Y1, Y2.
    pose proof (odd_std c x n1 n2) as Q. cbv zeta in Q. fold l in Q. set (s := lstd RF l : R) in *. assert (s0 : 0 <= s) by apply lstd_nonneg.
    set (n := INR (n1 + n2)) in *. assert (n7 : 7 <= n) by (unfold n; apply le_INR in N; cbn [INR] in N; lra). change ((n + 1) * (n + 1) * (s * s) = n * ((x - c) * (x - c))) in Q.
    assert (B : (x - c) * (x - c) <= 9 * (s * s)). { assert (0 <= (3 * s - (x - c)) * (3 * s + (x - c))) by (apply Rmult_le_pos; lra). nra. }
    assert (P : 0 < (x - c) * (x - c)) by (apply Rsqr_pos_lt; lra). set (d2 := (x - c) * (x - c)) in *. set (s2 := s * s) in *.
    assert (n * d2 >= (n + 1) * (n + 1) * (d2 / 9)). { apply Rle_ge. rewrite <- Q. apply Rmult_le_compat_l; [nra|lra]. }
    assert (0 < (n * n - 7 * n + 1) * d2) by (apply Rmult_lt_0_compat; [nra|exact P]). nra.
Qed.
(** no covered pixel at all: NaN, so nothing compares below it *)
Theorem C99_no_coverage : forall med w maskpt, (forall x, In x w -> fisfinite B64 x = false \/ feq B64 x (fzero B64) = true) -> fisnan B64 (weight_threshold B64 med w maskpt) = true.
Proof.
  intros med w k Z. replace (weight_threshold B64 med w k) with (weight_threshold B64 med ([] ++ [] : list B64) k).
  - destruct k as [s|s| |s m e]; vm_compute; reflexivity.
  - symmetry. rewrite <- (C99_uncovered B64 med [] [] w k Z). rewrite app_nil_r. reflexivity.
Qed.
Print Assumptions C99_between. Print Assumptions C99_even_coverage. Print Assumptions C99_best_kept. Print Assumptions C99_uncovered. Print Assumptions C99_scaling. Print Assumptions C99_outlier. Print Assumptions C99_no_coverage.
