(** C68, C29: the significance of a difference and the signal-to-noise that picks the weights of the
    Casertano+22 fit, in terms of the reads themselves. *)
From Verif Require Import Base BaseLemmas FLaws RBase JumpProofs JumpStage Cas22Model Cas22Spec Cas22Proofs Cas22Fit Cas22Props.
From Coq Require Import Sorting.Sorted Reals Lra.
Local Open Scope R_scope.

(** The mean time of a set of reads, one every [rt] seconds. *)
Definition mean_time (rt : R) (reads : list Z) : R := Rmean (map (fun k => rt * IZR k) reads).
(** The weight of one read in (mean of the later resultant) - (mean of the earlier one). *)
Definition weighted (a b : list Z) : list (R * Z) :=
  map (fun k => (/ INR (length b), k)) b ++ map (fun k => (- / INR (length a), k)) a.
(** Variance of that difference: photons arriving at [rate] are counted from the start, so two reads share
    those before the earlier one; every read adds its own noise of variance [rn]^2. *)
Definition difference_variance (rt rn rate : R) (a b : list Z) : R :=
  rate * Rsum (map (fun p => Rsum (map (fun q => fst p * fst q * (rt * Rmin (IZR (snd p)) (IZR (snd q)))) (weighted a b))) (weighted a b))
  + Rsum (map (fun p => fst p * fst p * (rn * rn)) (weighted a b)).
(** The local rate minus the fitted rate, over its standard deviation; the fitted rate comes from the same
    ramp, lasting [T], which takes off [rate / T]. *)
Definition rate_variance (rt rn rate T : R) (a b : list Z) : R :=
  difference_variance rt rn rate a b / Rsqr (mean_time rt b - mean_time rt a) - rate / T.
Definition significance (rt rn rate T : R) (a b : list Z) (ya yb : R) : R :=
  ((yb - ya) / (mean_time rt b - mean_time rt a) - rate) / sqrt (rate_variance rt rn rate T a b).

Lemma mean_time_bar rt l : t_bar_of RF rt l = mean_time rt l.
Proof.
  unfold t_bar_of, mean_time, Rmean. rewrite map_length, Rsum_scal, sum_ints. unfold fn. cbn [fmul fdiv fofZ RF]. rewrite <- INR_IZR_INZ. change (F RF) with R; unfold Rdiv; ring.
Qed.
Lemma Rsum_swap {A B} (f : A -> B -> R) l l' :
  Rsum (map (fun a => Rsum (map (fun b => f a b) l')) l) = Rsum (map (fun b => Rsum (map (fun a => f a b) l)) l').
Proof.
  induction l as [|x l IH]; [cbn; rewrite Rsum_const; cbn; ring|]. cbn [map]. rewrite Rsum_cons, IH.
  rewrite <- Rsum_plus. apply Rsum_ext. intros b _. rewrite Rsum_cons. reflexivity.
Qed.
Lemma double_scal (k1 k2 rt : R) (l l' : list Z) :
  Rsum (map (fun s => Rsum (map (fun t => k1 * k2 * (rt * Rmin (IZR s) (IZR t))) l')) l)
  = k1 * k2 * rt * Rsum (map (fun s => Rsum (map (fun t => Rmin (IZR s) (IZR t)) l')) l).
Proof.
  rewrite <- Rsum_scal. apply Rsum_ext. intros s _. rewrite <- Rsum_scal. apply Rsum_ext. intros t _. ring.
Qed.
Lemma photon_variance rt (a b : list Z) : a <> [] -> b <> [] ->
  Rsum (map (fun p => Rsum (map (fun q => fst p * fst q * (rt * Rmin (IZR (snd p)) (IZR (snd q)))) (weighted a b))) (weighted a b))
  = pcov rt b b + pcov rt a a - 2 * pcov rt a b.
Proof.
  intros NA NB. assert (INR (length a) <> 0) by (apply not_0_INR; destruct a; [congruence|discriminate]).
  assert (INR (length b) <> 0) by (apply not_0_INR; destruct b; [congruence|discriminate]).
  unfold weighted. rewrite map_app, Rsum_app, !map_map. cbn [fst snd].
  rewrite (Rsum_ext _ (fun s => Rsum (map (fun t => / INR (length b) * / INR (length b) * (rt * Rmin (IZR s) (IZR t))) b)
                              + Rsum (map (fun t => / INR (length b) * - / INR (length a) * (rt * Rmin (IZR s) (IZR t))) a)) b).
  2:{ intros s _. rewrite map_app, Rsum_app, !map_map. reflexivity. }
  rewrite (Rsum_ext _ (fun s => Rsum (map (fun t => - / INR (length a) * / INR (length b) * (rt * Rmin (IZR s) (IZR t))) b)
                              + Rsum (map (fun t => - / INR (length a) * - / INR (length a) * (rt * Rmin (IZR s) (IZR t))) a)) a).
  2:{ intros s _. rewrite map_app, Rsum_app, !map_map. reflexivity. }
  rewrite !Rsum_plus, !double_scal. unfold pcov.
  rewrite (Rsum_swap (fun s t => Rmin (IZR s) (IZR t)) b a).
  rewrite (Rsum_ext (fun b0 => Rsum (map (fun a0 => Rmin (IZR a0) (IZR b0)) b)) (fun s => Rsum (map (fun t => Rmin (IZR s) (IZR t)) b)) a)
    by (intros s _; apply Rsum_ext; intros t _; apply Rmin_comm).
  field. auto.
Qed.
Lemma read_variance rn (a b : list Z) : a <> [] -> b <> [] ->
  Rsum (map (fun p => fst p * fst p * (rn * rn)) (weighted a b)) = rn * rn * (1 / INR (length b) + 1 / INR (length a)).
Proof.
  intros NA NB. assert (INR (length a) <> 0) by (apply not_0_INR; destruct a; [congruence|discriminate]).
  assert (INR (length b) <> 0) by (apply not_0_INR; destruct b; [congruence|discriminate]).
  unfold weighted. rewrite map_app, Rsum_app, !map_map. cbn [fst snd]. rewrite !Rsum_const. field. auto.
Qed.

(** The statistic of a single or double difference is its significance: the local rate less the fitted one,
    in standard deviations of the local rate. *)
Theorem C68_statistic : forall (y : nat -> R) rt pattern (rn : R) n b rate r d i, in_order pattern -> 0 <= rt -> n = length pattern -> within r d i -> (snd r < n)%nat ->
  let t i := t_bar_of RF rt (nth i pattern []) in let tau i := tau_of RF rt (nth i pattern []) in let nr i := length (nth i pattern []) in
  let reads i := nth i pattern [] in
  statistic RF t tau nr (fill_pixel RF y t tau nr rn n b) d i rate (correction RF t r rate)
  = significance rt rn rate (mean_time rt (reads (snd r)) - mean_time rt (reads (fst r))) (reads i) (reads (i + d)%nat) (y i) (y (i + d)%nat).
Proof.
  intros y rt pattern rn n b rate r d i O RT EN [D [W1 W2]] W3 t tau nr reads. subst n.
  unfold statistic. rewrite fill_pixel_spec by (auto; lia). unfold pixel_at.
  pose proof (C67_difference_variance rt pattern d i O RT ltac:(lia) ltac:(lia)) as XS. cbv zeta in XS.
  destruct (proj1 O i ltac:(lia)) as [NA _]. destruct (proj1 O (i + d)%nat ltac:(lia)) as [NB _].
  unfold t, tau, nr. rewrite XS. unfold fixed_at. cbn [x_diff x_diff2 x_recip]. unfold correction, significance, rate_variance, difference_variance.
  unfold reads. rewrite photon_variance, read_variance by assumption. rewrite !mean_time_bar. unfold fn, Rsqr.
  cbn [fadd fsub fmul fdiv fsqrt fone fzero fofZ RF]. rewrite <- !INR_IZR_INZ. f_equal. f_equal.
  change (F RF) with R; unfold Rdiv; ring.
Qed.
Print Assumptions C68_statistic.

Definition capped (rate : R) : R := Rmin (Rmax 1 rate) 10000.
Lemma threshold_capped lg ic cc rate : threshold RF lg ic cc rate = ic - cc * lg (capped rate).
Proof.
  unfold threshold, capped. cbv zeta. change (flt RF) with Rltb. unfold fz. cbn [fone fofZ fsub fmul RF].
  assert (A : (if Rltb 1 rate then rate else 1) = Rmax 1 rate).
  { destruct (Rltb 1 rate) eqn:E.
    - apply Rltb_spec in E. rewrite Rmax_right; lra.
    - assert (~ 1 < rate) by (rewrite <- Rltb_spec; congruence). rewrite Rmax_left; lra. }
  rewrite A. generalize (Rmax 1 rate). clear A. intro m.
  assert (B : (if Rltb m 10000 then m else 10000) = Rmin m 10000).
  { destruct (Rltb m 10000) eqn:E.
    - apply Rltb_spec in E. rewrite Rmin_left; lra.
    - assert (~ m < 10000) by (rewrite <- Rltb_spec; congruence). rewrite Rmin_right; lra. }
  exact (f_equal (fun z : R => ic - cc * lg z) B).
Qed.

(** A ramp of a pixel is split exactly when some single or double difference within it stands out by more
    than the threshold.  (The variances are required to be positive, so that every significance is a number:
    C68_nan_hides_jump_refuted shows what happens otherwise.) *)
Theorem C68_split_reads : forall (lg : R -> R) (y : nat -> R) rt pattern (rn : R) b ic cc r (f : rfit RF), in_order pattern -> 0 <= rt -> (fst r < snd r < length pattern)%nat ->
  let n := length pattern in
  let t i := t_bar_of RF rt (nth i pattern []) in let tau i := tau_of RF rt (nth i pattern []) in let nr i := length (nth i pattern []) in
  let reads i := nth i pattern [] in
  let T := mean_time rt (reads (snd r)) - mean_time rt (reads (fst r)) in
  (forall d i, within r d i -> 0 < rate_variance rt rn (f_slope f) T (reads i) (reads (i + d)%nat)) ->
  let stands_out d i := ic - cc * lg (capped (f_slope f)) < significance rt rn (f_slope f) T (reads i) (reads (i + d)%nat) (y i) (y (i + d)%nat) in
  detect RF lg t tau nr true ic cc (fill_pixel RF y t tau nr rn n b) r f <> None <->
  exists d i, (d = 1 \/ d = 2)%nat /\ (fst r <= i)%nat /\ (i + d <= snd r)%nat /\ stands_out d i.
Proof.
  intros lg y rt pattern rn b ic cc r f O RT [H1 H2] n t tau nr reads T _ so.
  destruct (C68_split_iff RF RF_laws lg t tau nr ic cc (fill_pixel RF y t tau nr rn n b) r f H1 eq_refl) as [I _]. rewrite I. clear I.
  split; intros (d & i & Q).
  - destruct Q as [W Q]. exists d, i. pose proof W as [D [W1 W2]]. repeat split; try assumption. unfold so.
    change (flt RF) with Rltb in Q. apply Rltb_spec in Q. rewrite threshold_capped in Q.
    pose proof (C68_statistic y rt pattern rn n b (f_slope f) r d i O RT eq_refl W H2) as ST. cbv zeta in ST. unfold T, reads. rewrite <- ST. exact Q.
  - destruct Q as (D & W1 & W2 & Q). assert (W : within r d i) by (split; [exact D|split; assumption]). exists d, i. split; [exact W|].
    change (flt RF) with Rltb. apply Rltb_spec. rewrite threshold_capped.
    pose proof (C68_statistic y rt pattern rn n b (f_slope f) r d i O RT eq_refl W H2) as ST. cbv zeta in ST. unfold so, T, reads in Q. rewrite <- ST in Q. exact Q.
Qed.
Print Assumptions C68_split_reads.

(** The exponent of the weights: by how many standard deviations, of read noise [rn] plus photon noise, the
    last resultant of the ramp lies above the first. *)
Theorem C29_ramp_exponent : forall (y : nat -> R) (rn : R) r, let rise := Rmax (y (snd r) - y (fst r)) 0 in 0 < rn * rn + rise ->
  let at_least k := k * k * (rn * rn + rise) <= rise * rise in let p := ramp_power RF y rn r in
  (~ at_least 5 -> p = 0) /\ (at_least 5 -> ~ at_least 10 -> p = 4 / 10) /\ (at_least 10 -> ~ at_least 20 -> p = 1) /\
  (at_least 20 -> ~ at_least 50 -> p = 3) /\ (at_least 50 -> ~ at_least 100 -> p = 6) /\ (at_least 100 -> p = 10).
Proof.
  intros y rn r rise P al p.
  assert (R0 : 0 <= rise) by (unfold rise; apply Rmax_r).
  assert (EP : p = get_power RF (rise / sqrt (rn * rn + rise))).
  { unfold p, ramp_power. cbv zeta.
    assert (M : fmaxf RF (fsub RF (y (snd r)) (y (fst r))) (fzero RF) = rise).
    { unfold fmaxf, rise, Rmax. cbn [fisnan fsub fzero RF]. change (flt RF) with Rltb.
      destruct (Rltb (y (snd r) - y (fst r)) 0) eqn:E.
      - apply Rltb_spec in E. destruct (Rle_dec (y (snd r) - y (fst r)) 0); [reflexivity|lra].
      - assert (~ y (snd r) - y (fst r) < 0) by (rewrite <- Rltb_spec; congruence). destruct (Rle_dec (y (snd r) - y (fst r)) 0); lra. }
    rewrite M. reflexivity. }
  assert (S0 : 0 < sqrt (rn * rn + rise)) by (apply sqrt_lt_R0; exact P).
  assert (SS : sqrt (rn * rn + rise) * sqrt (rn * rn + rise) = rn * rn + rise) by (apply sqrt_sqrt; lra).
  set (s := sqrt (rn * rn + rise)) in *. set (x := rise / s) in *.
  assert (EX : rise = x * s) by (unfold x; field; lra).
  assert (X0 : 0 <= x) by (unfold x; apply Rmult_le_pos; [exact R0|left; apply Rinv_0_lt_compat; exact S0]).
  assert (AL : forall k, 0 <= k -> (al k <-> k <= x)).
  { intros k K. unfold al. rewrite <- SS. clearbody x s. rewrite EX. replace (k * k * (s * s)) with ((k * s) * (k * s)) by ring.
    split; intro Q.
    - apply Rnot_lt_le. intro C. assert (x * s < k * s) by (apply Rmult_lt_compat_r; assumption). assert (0 <= x * s) by (apply Rmult_le_pos; lra). nra.
    - assert (k * s <= x * s) by (apply Rmult_le_compat_r; lra). assert (0 <= k * s) by (apply Rmult_le_pos; lra). nra. }
  destruct (C29_table_real x) as (T1 & T2 & T3 & T4 & T5 & T6). rewrite EP. rewrite !AL by lra.
  repeat split; intros; [apply T1|apply T2|apply T3|apply T4|apply T5|apply T6]; lra.
Qed.
Print Assumptions C29_ramp_exponent.

Example C68_reads_example : let pattern := [[1]; [2]; [3]; [4]]%Z in let r := (0, 3)%nat in
  in_order pattern /\ (forall d i, within r d i -> 0 < rate_variance 1 1 1 3 (nth i pattern []) (nth (i + d) pattern [])) /\
  significance 1 1 1 3 [1]%Z [2]%Z 0 10 = 9 / sqrt (8 / 3) /\ rate_variance 1 1 1 3 [1]%Z [3]%Z = 2 / 3.
Proof.
  cbv zeta.
  assert (SV : forall a b : Z, (a <= b)%Z -> difference_variance 1 1 1 [a] [b] = IZR b - IZR a + 2).
  { intros a b L. apply IZR_le in L. unfold difference_variance, weighted. cbn [map app length fst snd Rsum fold_right INR].
    rewrite !Rmin_left by lra. rewrite ?(Rmin_right (IZR b) (IZR a)), ?Rmin_left by lra. field. }
  assert (MT : forall k, mean_time 1 [k] = IZR k) by (intro k; unfold mean_time, Rmean; cbn; field).
  assert (RV : forall a b : Z, (a < b)%Z -> rate_variance 1 1 1 3 [a] [b] = (IZR b - IZR a + 2) / Rsqr (IZR b - IZR a) - 1 / 3).
  { intros a b L. unfold rate_variance. rewrite SV by lia. rewrite !MT. reflexivity. }
  split; [split|split; [|split]].
  - intros i H. cbn in H. destruct i as [|[|[|[|]]]]; [| | | |lia]; (split; [discriminate|repeat constructor]).
  - intros i j H a b IA IB. assert (Q : (i < 4 /\ j < 4)%nat) by (cbn in H; lia).
    destruct i as [|[|[|[|]]]]; destruct j as [|[|[|[|]]]]; cbn in IA, IB; try lia; destruct IA as [<-|[]]; destruct IB as [<-|[]]; lia.
  - intros d i [D [W1 W2]]. cbn [fst snd] in *. destruct D as [-> | ->]; destruct i as [|[|[|]]]; try lia; cbn [nth plus]; rewrite RV by lia; unfold Rsqr; lra.
  - unfold significance. rewrite RV by lia. rewrite !MT. unfold Rsqr. f_equal; [field|]. f_equal. field.
  - rewrite RV by lia. unfold Rsqr. field.
Qed.
Example C29_exponent_example : let y i := 1000 * INR i in 0 < 5 * 5 + Rmax (y 3%nat - y 0%nat) 0 /\ ramp_power RF y 5 (0, 3)%nat = 6.
Proof.
  cbv beta zeta. assert (E : Rmax (1000 * INR 3 - 1000 * INR 0) 0 = 3000) by (cbn; rewrite Rmax_left; lra). rewrite E. split; [lra|].
  pose proof (C29_ramp_exponent (fun i => 1000 * INR i) 5 (0, 3)%nat) as H. cbn [fst snd] in H. cbv beta zeta in H. rewrite E in H.
  destruct (H ltac:(lra)) as (_ & _ & _ & _ & H5 & _). apply H5; lra.
Qed.
