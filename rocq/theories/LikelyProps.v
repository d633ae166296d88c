(** Theorems about the likelihood ramp fit (C37-C40, C72-C77). *)
From Verif Require Import Base BaseLemmas FLaws RBase LikelyModel LikelySpec LikelyProofs LikelyFit LikelyNoise LikelyOmit LikelyMask LikelyImage.
From Coq Require Import Reals Lra Lia Sorted SpecFloat.
Local Open Scope R_scope.

(** ** Bridging the table to the covariance of the differences *)
Lemma solves_ext n use V W x f : (forall i j, (i < n)%nat -> (j < n)%nat -> V i j = W i j) -> solves n use V x f -> solves n use W x f.
Proof. intros E H i Hi Ui. rewrite <- (H i Hi Ui). apply Sn_ext. intros j Hj. rewrite (E i j Hi Hj). reflexivity. Qed.
Lemma quad_ext n use V W x y : (forall i j, (i < n)%nat -> (j < n)%nat -> V i j = W i j) -> quad n use V x y = quad n use W x y.
Proof. intro E. apply Sn_ext. intros i Hi. destruct (use i); [|reflexivity]. f_equal. apply Sn_ext. intros j Hj. rewrite (E i j Hi Hj). reflexivity. Qed.
(** what a call of the fitter needs *)
Record sane (times : list (list R)) (guess gain rn : R) (root : R -> nat -> R) (use : nat -> bool) : Prop := {
  sane_times : good_times times; sane_len : (2 <= length times)%nat; sane_rate : 0 <= guess / gain; sane_rn : rn <> 0;
  sane_root : forall x i, 0 < x -> (1 <= i)%nat -> 0 < root x i;
  sane_use : exists i, (i < length times - 1)%nat /\ use i = true }.
Section Bridge.
  Variables (times : list (list R)) (guess gain rn : R) (root : R -> nat -> R) (use : nat -> bool) (d : nat -> R) (r : lfit RF).
  Hypothesis OK : sane times guess gain rn root use.
  Let n := (length times - 1)%nat.
  Let c := pixel_cov RF (mk_covar RF times) guess gain rn.
  Let s := scale_of RF root n (p_alpha RF c) (p_beta RF c).
  Hypothesis H : fit_ramps RF n (mk_covar RF times) root gain rn (Some guess) d use = Some r.
  Lemma b_r : r = fit_ramp RF n c s d use. Proof. injection H as <-. reflexivity. Qed.
  Lemma b_n : (1 <= n)%nat. Proof. clear - OK. destruct OK. unfold n. lia. Qed.
  Lemma b_pd : posdef n (tri (p_alpha RF c) (p_beta RF c)).
  Proof. destruct OK. apply table_posdef; assumption. Qed.
  Lemma b_ext : forall i j, (i < n)%nat -> (j < n)%nat -> diff_cov (guess / gain) rn times i j = tri (p_alpha RF c) (p_beta RF c) i j.
  Proof. clear - OK. intros i j Hi Hj. destruct OK. apply cov_is_tri; [assumption|unfold n in Hi; lia|unfold n in Hj; lia]. Qed.
  Lemma b_theta : forall i, (i <= n)%nat -> 0 < theta RF (p_alpha RF c) (p_beta RF c) i.
  Proof.
    intros i Hi. apply (minors_pos n (p_alpha RF c) (p_beta RF c)); [apply theta_0|apply theta_1|intro; apply theta_S| |exact Hi].
    intros x Hx. exact (b_pd x Hx).
  Qed.
  Lemma b_s : 0 < s.
  Proof. apply scale_pos; [apply b_theta|destruct OK; assumption]. Qed.
End Bridge.

(** ** C37 *)
(** For every read pattern whose reads come in order, every positive read noise, every non-negative guess and every mask:
    the covariance of the differences has a solution of V x = 1 on the used differences, and with any such x the rate,
    its error and the weights are the generalised least-squares ones. *)
Theorem C37_gls : forall times guess gain rn root use d r,
  sane times guess gain rn root use ->
  let n := (length times - 1)%nat in let V := diff_cov (guess / gain) rn times in
  fit_ramps RF n (mk_covar RF times) root gain rn (Some guess) d use = Some r ->
  (exists x, solves n use V x (fun _ => 1)) /\
  forall x, solves n use V x (fun _ => 1) ->
    0 < Su n use x /\ f_rate RF r = Su n use (fun i => d i * x i) / Su n use x /\ f_uncert RF r = sqrt (1 / Su n use x) /\
    forall i, (i < n)%nat -> f_w RF r i = if use i then x i / Su n use x else 0.
Proof.
  intros times guess gain rn root use d r OK n V H.
  pose proof (b_r times guess gain rn root use d r H) as E. fold n in E. pose proof (b_n _ _ _ _ _ _ OK) as N. fold n in N.
  pose proof (b_pd _ _ _ _ _ _ OK) as PD. fold n in PD. pose proof (b_s _ _ _ _ _ _ OK) as Sc. fold n in Sc. pose proof (b_ext _ _ _ _ _ _ OK) as X. fold n in X. fold V in X.
  set (c := pixel_cov RF (mk_covar RF times) guess gain rn) in *.
  split.
  - destruct (solution_exists n c N PD use (fun _ => 1)) as [x Hx]. exists x. apply (solves_ext n use (tri (p_alpha RF c) (p_beta RF c))); [intros; symmetry; apply X; assumption|exact Hx].
  - intros x Hx. apply (solves_ext n use V (tri (p_alpha RF c) (p_beta RF c)) x _ X) in Hx.
    pose proof (sane_use _ _ _ _ _ _ OK) as U. fold n in U. rewrite E.
    split; [exact (sum_pos n c PD use x Hx U)|]. split; [exact (val_rate n c d N PD _ use x Sc Hx U)|]. split; [exact (val_uncert n c d N PD _ use x Sc Hx U)|].
    intros i Hi. exact (val_w n c d N PD _ use x Sc Hx U i Hi).
Qed.
Print Assumptions C37_gls.
(** The same for any positive definite covariance handed to the recursions. *)
Theorem C37_any_covariance : forall n (c : pixcov RF) scale d use,
  let V := tri (p_alpha RF c) (p_beta RF c) in
  (1 <= n)%nat -> posdef n V -> 0 < scale -> (exists i, (i < n)%nat /\ use i = true) ->
  (exists x, solves n use V x (fun _ => 1)) /\
  forall x, solves n use V x (fun _ => 1) ->
    0 < Su n use x /\ f_rate RF (fit_ramp RF n c scale d use) = Su n use (fun i => d i * x i) / Su n use x.
Proof.
  intros n c scale d use V N PD Sc U. split; [exact (solution_exists n c N PD use (fun _ => 1))|].
  intros x X. split; [exact (sum_pos n c PD use x X U)|exact (val_rate n c d N PD scale use x Sc X U)].
Qed.
Print Assumptions C37_any_covariance.
(** The rate is an unbiased weighted mean of the used differences, and no other has a smaller variance. *)
Theorem C37_best_linear_unbiased : forall times guess gain rn root use d r,
  sane times guess gain rn root use ->
  let n := (length times - 1)%nat in let V := diff_cov (guess / gain) rn times in
  fit_ramps RF n (mk_covar RF times) root gain rn (Some guess) d use = Some r ->
  Su n use (f_w RF r) = 1 /\ f_rate RF r = Su n use (fun i => f_w RF r i * d i) /\ f_uncert RF r * f_uncert RF r = quad n use V (f_w RF r) (f_w RF r) /\
  forall w, Su n use w = 1 -> quad n use V (f_w RF r) (f_w RF r) <= quad n use V w w.
Proof.
  intros times guess gain rn root use d r OK n V H. destruct (C37_gls _ _ _ _ _ _ _ _ OK H) as [[x X] G]. fold n V in X, G.
  destruct (G x X) as [P [Rt [Un W]]]. set (C := Su n use x) in *.
  pose proof (b_pd _ _ _ _ _ _ OK) as PD. fold n in PD. pose proof (b_ext _ _ _ _ _ _ OK) as E. fold n in E. fold V in E.
  assert (PV : posdef n V) by (apply (posdef_ext n (tri (p_alpha RF (pixel_cov RF (mk_covar RF times) guess gain rn)) (p_beta RF (pixel_cov RF (mk_covar RF times) guess gain rn)))); [intros; symmetry; apply E; assumption|exact PD]).
  assert (W' : forall i, (i < n)%nat -> use i = true -> f_w RF r i = / C * x i) by (intros i Hi Ui; rewrite W, Ui by exact Hi; unfold Rdiv; eqR; ring).
  assert (S1 : Su n use (f_w RF r) = 1) by (rewrite (Su_ext n use _ (fun i => / C * x i) W'), Su_scal; fold C; field; lra).
  assert (VW : forall i, (i < n)%nat -> use i = true -> Su n use (fun j => V i j * f_w RF r j) = / C).
  { intros i Hi Ui. rewrite (Su_ext n use _ (fun j => / C * (V i j * x j))) by (intros j Hj Uj; rewrite (W' j Hj Uj); ring). rewrite Su_scal, (X i Hi Ui). ring. }
  assert (Q : quad n use V (f_w RF r) (f_w RF r) = / C).
  { unfold quad. rewrite (Su_ext n use _ (fun i => / C * f_w RF r i)) by (intros i Hi Ui; rewrite (VW i Hi Ui); ring). rewrite Su_scal, S1. ring. }
  split; [exact S1|]. split.
  { rewrite Rt. unfold Rdiv. rewrite Rmult_comm, <- Su_scal. apply Su_ext. intros i Hi Ui. rewrite (W' i Hi Ui). eqR. ring. }
  split; [rewrite Un, Q, sqrt_sqrt; [unfold Rdiv; ring|]; unfold Rdiv; rewrite Rmult_1_l; left; apply Rinv_0_lt_compat, P|].
  intros w Sw. rewrite Q.
  assert (D : 0 <= quad n use V (fun i => w i - f_w RF r i) (fun i => w i - f_w RF r i)) by (apply posdef_used_nonneg, PV).
  assert (Ex : quad n use V (fun i => w i - f_w RF r i) (fun i => w i - f_w RF r i) = quad n use V w w - / C).
  { unfold quad.
    rewrite (Su_ext n use (fun i => (w i - f_w RF r i) * _) (fun i => w i * Su n use (fun j => V i j * w j) + (- / C * w i + (/ C * f_w RF r i + -1 * (f_w RF r i * Su n use (fun j => V i j * w j)))))).
    - rewrite !Su_plus, !Su_scal, S1, Sw.
      assert (Z : Su n use (fun i => f_w RF r i * Su n use (fun j => V i j * w j)) = / C).
      { transitivity (Su n use (fun i => Su n use (fun j => V i j * w j * f_w RF r i))); [apply Su_ext; intros i Hi Ui; rewrite <- Su_scal; apply Su_ext; intros; ring|].
        rewrite Su_swap. rewrite (Su_ext n use _ (fun j => / C * w j)); [rewrite Su_scal, Sw; ring|].
        intros j Hj Uj. rewrite <- (VW j Hj Uj). rewrite (Rmult_comm (Su _ _ _) (w j)), <- Su_scal. apply Su_ext. intros i Hi Ui. assert (V i j = V j i) as -> by (rewrite !E by assumption; apply tri_sym). ring. }
      rewrite Z. ring.
    - intros i Hi Ui. rewrite (Su_ext n use (fun j => V i j * (w j - f_w RF r j)) (fun j => V i j * w j - V i j * f_w RF r j)) by (intros; ring). rewrite Su_minus, (VW i Hi Ui). ring. }
  rewrite Ex in D. lra.
Qed.
Print Assumptions C37_best_linear_unbiased.
(** The reported chi squared is that of the fitted rate, and no other rate has a smaller one. *)
Theorem C37_minimises_chisq : forall times guess gain rn root use d r,
  sane times guess gain rn root use ->
  let n := (length times - 1)%nat in let V := diff_cov (guess / gain) rn times in
  fit_ramps RF n (mk_covar RF times) root gain rn (Some guess) d use = Some r ->
  chi2 n use V d (f_rate RF r) (f_chisq RF r) /\ 0 <= f_chisq RF r /\ forall q ch, chi2 n use V d q ch -> f_chisq RF r <= ch.
Proof.
  intros times guess gain rn root use d r OK n V H.
  pose proof (b_r times guess gain rn root use d r H) as E. fold n in E. pose proof (b_n _ _ _ _ _ _ OK) as N. fold n in N.
  pose proof (b_pd _ _ _ _ _ _ OK) as PD. fold n in PD. pose proof (b_s _ _ _ _ _ _ OK) as Sc. fold n in Sc. pose proof (b_ext _ _ _ _ _ _ OK) as X. fold n in X. fold V in X.
  set (c := pixel_cov RF (mk_covar RF times) guess gain rn) in *. set (T := tri (p_alpha RF c) (p_beta RF c)) in *.
  pose proof (sane_use _ _ _ _ _ _ OK) as U. fold n in U.
  destruct (solution_exists n c N PD use (fun _ => 1)) as [x Hx]. destruct (solution_exists n c N PD use d) as [y Hy].
  fold T in Hx, Hy.
  pose proof (val_rate n c d N PD _ use x Sc Hx U) as Rt. pose proof (val_chisq n c d N PD _ use x y Sc Hx Hy U) as Ch. rewrite <- E in Rt, Ch.
  pose proof (sum_pos n c PD use x Hx U) as P. set (C := Su n use x) in *. set (B := Su n use (fun i => d i * x i)) in *. set (A := Su n use (fun i => d i * y i)) in *.
  assert (Yx : Su n use y = B) by (rewrite <- (Su_one n use y); symmetry; exact (solves_pair n use T x y (fun _ => 1) d (tri_sym _ _) Hx Hy)).
  assert (Val : forall q w, solves n use V w (fun i => d i - q) -> Su n use (fun i => (d i - q) * w i) = A - 2 * q * B + q * q * C).
  { intros q w W. apply (solves_ext n use V T w _ X) in W.
    assert (Eq : forall i, (i < n)%nat -> use i = true -> w i = y i + - q * x i).
    { apply (solves_unique n use T w _ (fun i => d i - q) PD W). apply (solves_rhs _ _ _ _ (fun i => d i + - q * 1)); [intros; ring|]. apply solves_comb; assumption. }
    rewrite (Su_ext n use _ (fun i => d i * y i + (- q * (d i * x i) + (- q * y i + q * q * x i)))) by (intros i Hi Ui; rewrite (Eq i Hi Ui); ring).
    rewrite !Su_plus, !Su_scal, Yx. fold A B C. ring. }
  assert (Ex : forall q, exists w, solves n use V w (fun i => d i - q)).
  { intro q. destruct (solution_exists n c N PD use (fun i => d i - q)) as [w W]. exists w. apply (solves_ext n use T); [intros; symmetry; apply X; assumption|exact W]. }
  assert (Fit : f_chisq RF r = A - 2 * f_rate RF r * B + f_rate RF r * f_rate RF r * C).
  { rewrite Ch, Rt. eqR. field. lra. }
  split; [intros w W; rewrite (Val _ w W); exact Fit|]. split.
  - destruct (Ex (f_rate RF r)) as [w W]. rewrite Fit, <- (Val _ w W).
    assert (PV : 0 <= quad n use T w w) by (apply posdef_used_nonneg, PD). apply (solves_ext n use V T w _ X) in W.
    replace (Su n use (fun i => (d i - f_rate RF r) * w i)) with (quad n use T w w); [exact PV|]. unfold quad. apply Su_ext. intros i Hi Ui. rewrite (W i Hi Ui). ring.
  - intros q ch Hc. destruct (Ex q) as [w W]. rewrite (Hc w W), (Val q w W), Ch.
    replace (A - 2 * q * B + q * q * C) with (A - B * B / C + C * ((q - B / C) * (q - B / C))) by (field; lra).
    assert (0 <= C * ((q - B / C) * (q - B / C))) by (apply Rmult_le_pos; [lra|apply Rle_0_sqr]). cbn [F RF] in *. lra.
Qed.
Print Assumptions C37_minimises_chisq.
Definition ex_times : list (list R) := [[0]; [1]; [2]].
Lemma ex_sane use : (use 0%nat = true) -> sane ex_times 1 1 1 (fun x _ => x) use.
Proof.
  intro U. split; [split; [repeat constructor; discriminate|cbn; repeat constructor; lra]|cbn; lia|lra|lra|auto|exists 0%nat; split; [cbn; lia|exact U]].
Qed.
Lemma ex_cov i j : (i < 2)%nat -> (j < 2)%nat -> diff_cov (1 / 1) 1 ex_times i j = if Nat.eqb i j then 3 else -1.
Proof.
  intros Hi Hj. destruct i as [|[|i]]; [| |lia]; destruct j as [|[|j]]; try lia; cbn; unfold diff_cov, group_cov, pcovR, Rmean; cbn;
    unfold Rmin; repeat match goal with |- context[Rle_dec ?a ?b] => destruct (Rle_dec a b); try lra end; field.
Qed.
(** three reads at times 0, 1, 2, unit rate and noise, differences 1 and 3: V = [3 -1; -1 3], the rate is 2, the error 1 *)
Example C37_gls_ex : forall r, fit_ramps RF 2 (mk_covar RF ex_times) (fun x _ => x) 1 1 (Some 1) (fun i => match i with O => 1 | _ => 3 end) (fun _ => true) = Some r ->
  f_rate RF r = 2 /\ f_uncert RF r = 1.
Proof.
  intros r H. destruct (C37_gls ex_times 1 1 1 (fun x _ => x) (fun _ => true) _ r (ex_sane _ eq_refl) H) as [_ G].
  assert (X : solves 2 (fun _ => true) (diff_cov (1 / 1) 1 ex_times) (fun _ => / 2) (fun _ => 1)).
  { intros i Hi _. unfold Su. cbn [Sn]. rewrite !ex_cov by lia. destruct i as [|[|i]]; [| |lia]; cbn; lra. }
  destruct (G (fun _ => / 2) X) as [_ [A [B _]]]. change (length ex_times - 1)%nat with 2%nat in A, B. unfold Su in A, B. cbn [Sn] in A, B. split.
  - rewrite A. lra.
  - rewrite B. replace (1 / (0 + / 2 + / 2)) with 1 by lra. apply sqrt_1.
Qed.
(** ** C38 *)
(** If all used differences equal q the rate is q and chi squared is zero, for every noise model and mask. *)
Theorem C38_constant_rate : forall n (c : pixcov RF) scale d use q,
  (1 <= n)%nat -> posdef n (tri (p_alpha RF c) (p_beta RF c)) -> 0 < scale -> (exists i, (i < n)%nat /\ use i = true) ->
  (forall i, (i < n)%nat -> use i = true -> d i = q) ->
  f_rate RF (fit_ramp RF n c scale d use) = q /\ f_chisq RF (fit_ramp RF n c scale d use) = 0.
Proof.
  intros n c scale d use q N PD Sc U Hd.
  assert (W : solves n use (tri (p_alpha RF c) (p_beta RF c)) (fun _ => 0) (fun i => d i - q)).
  { intros i Hi Ui. rewrite (Hd i Hi Ui). rewrite (Su_ext n use _ (fun _ => 0 * 0)) by (intros; ring). rewrite Su_scal. ring. }
  assert (Z : Su n use (fun _ : nat => 0) = 0) by (apply Sn_zero; intros i _; destruct (use i); reflexivity).
  destruct (residual n c d N PD scale use q (fun _ => 0) Sc U W Z) as [A B]. split; [exact A|]. rewrite B.
  apply Sn_zero. intros i _. destruct (use i); ring.
Qed.
Print Assumptions C38_constant_rate.
(** The differences that are not used have no influence (exact arithmetic). *)
Theorem C38_masked_ignored : forall n (c : pixcov RF) scale d d' use,
  (1 <= n)%nat -> posdef n (tri (p_alpha RF c) (p_beta RF c)) -> 0 < scale -> (exists i, (i < n)%nat /\ use i = true) ->
  (forall i, (i < n)%nat -> use i = true -> d i = d' i) ->
  f_rate RF (fit_ramp RF n c scale d use) = f_rate RF (fit_ramp RF n c scale d' use) /\
  f_chisq RF (fit_ramp RF n c scale d use) = f_chisq RF (fit_ramp RF n c scale d' use) /\
  f_uncert RF (fit_ramp RF n c scale d use) = f_uncert RF (fit_ramp RF n c scale d' use).
Proof.
  intros n c scale d d' use N PD Sc U Hd.
  destruct (solution_exists n c N PD use (fun _ => 1)) as [x X]. destruct (solution_exists n c N PD use d) as [y Y].
  assert (Y' : solves n use (tri (p_alpha RF c) (p_beta RF c)) y d') by (apply (solves_rhs _ _ _ _ d); assumption).
  rewrite !(val_rate n c _ N PD scale use x Sc X U), (val_chisq n c d N PD scale use x y Sc X Y U), (val_chisq n c d' N PD scale use x y Sc X Y' U), !(val_uncert n c _ N PD scale use x Sc X U).
  rewrite (Su_ext n use (fun i => d' i * x i) (fun i => d i * x i)) by (intros i Hi Ui; rewrite (Hd i Hi Ui); ring).
  rewrite (Su_ext n use (fun i => d' i * y i) (fun i => d i * y i)) by (intros i Hi Ui; rewrite (Hd i Hi Ui); ring). auto.
Qed.
Print Assumptions C38_masked_ignored.
Definition flat_cov : pixcov RF := @Build_pixcov RF (fun _ => 2) (fun _ => 0) (fun _ => 0) (fun _ => 0).
Lemma flat_posdef n : posdef n (tri (p_alpha RF flat_cov) (p_beta RF flat_cov)).
Proof.
  intros x [i [Hi Xi]]. unfold quad, Su. apply (Sn_pos n _ i); [|exact Hi|].
  - intros j Hj. rewrite (Sn_single n j) by (exact Hj || (intros k _ Ne; unfold tri; destruct (Nat.eqb_spec j k); [congruence|]; unfold p_beta; cbn; destruct (Nat.eqb k (S j)), (Nat.eqb j (S k)); ring)).
    unfold tri. rewrite Nat.eqb_refl. unfold p_alpha. cbn. pose proof (Rle_0_sqr (x j)). unfold Rsqr in *. lra.
  - rewrite (Sn_single n i) by (exact Hi || (intros k _ Ne; unfold tri; destruct (Nat.eqb_spec i k); [congruence|]; unfold p_beta; cbn; destruct (Nat.eqb k (S i)), (Nat.eqb i (S k)); ring)).
    unfold tri. rewrite Nat.eqb_refl. unfold p_alpha. cbn. pose proof (Rsqr_pos_lt _ Xi). unfold Rsqr in *. lra.
Qed.
(** four differences, the third masked and wild, the others 7 *)
Example C38_constant_rate_ex : f_rate RF (fit_ramp RF 4 flat_cov 1 (fun i => if Nat.eqb i 2 then 1000 else 7) (fun i => negb (Nat.eqb i 2))) = 7.
Proof.
  apply C38_constant_rate; [lia|apply flat_posdef|lra|exists 0%nat; split; [lia|reflexivity]|].
  intros i Hi Ui. destruct (Nat.eqb i 2); [discriminate|reflexivity].
Qed.
Example C38_masked_ignored_ex : f_rate RF (fit_ramp RF 4 flat_cov 1 (fun i => if Nat.eqb i 2 then 1000 else 7) (fun i => negb (Nat.eqb i 2))) = f_rate RF (fit_ramp RF 4 flat_cov 1 (fun i => if Nat.eqb i 2 then -3 else 7) (fun i => negb (Nat.eqb i 2))).
Proof.
  apply C38_masked_ignored; [lia|apply flat_posdef|lra|exists 0%nat; split; [lia|reflexivity]|].
  intros i Hi Ui. destruct (Nat.eqb i 2); [discriminate|reflexivity].
Qed.
(** In floating point a masked difference that is NaN is not ignored: masking multiplies by zero. *)
Notation z64 := (fofZ B64).
Definition ex_tm (l : list Z) : list (list B64) := map (fun t => [z64 t]) l.
Theorem C38_masked_nan_refuted : exists (c : pixcov B64) (d : nat -> B64) (use : nat -> bool),
  use 1%nat = false /\ (forall i, i <> 1%nat -> (d i : spec_float) = z64 7) /\ fisnan B64 (d 1%nat) = true /\
  fisnan B64 (f_rate B64 (fit_ramp B64 3 c (z64 1) d use)) = true.
Proof.
  exists (pixel_cov B64 (mk_covar B64 (ex_tm [1; 2; 3; 5]%Z)) (z64 0) (z64 1) (z64 1)), (fun i => if Nat.eqb i 1 then fnan B64 else z64 7), (fun i => negb (Nat.eqb i 1)).
  split; [reflexivity|]. split; [intros i Ne; destruct (Nat.eqb_spec i 1); [congruence|reflexivity]|]. split; [reflexivity|]. vm_compute. reflexivity.
Qed.
Print Assumptions C38_masked_nan_refuted.
(** ** C39 *)
Section C39.
  Local Open Scope nat_scope.
  (** the differences in use after the search, at pixel [c] of a row *)
  Definition kept fo n nc nreads h fit (use0 : nat -> nat -> bool) c i := m_use fo (mask_jumps fo n nc nreads h fit use0 c) i.
  (** the same after [k] rounds only *)
  Definition kept_after fo n nc nreads h fit (use0 : nat -> nat -> bool) k c i :=
    m_use fo (mask_loop fo n nc nreads h fit k (fun c => {| m_use := use0 c; m_rate := j_rate fo (fit c (use0 c)); m_re := true |}) c) i.
  (** For every fit whatsoever: differences are only removed, never restored, and a difference of a group with a flag in
      its low eight bits is never used. *)
  Theorem C39_only_removes : forall fo n nc nreads h fit gdq c i,
    kept fo n nc nreads h fit (fun c => diffs2use (gdq c)) c i = true ->
    (gdq c i mod 256 = 0 /\ gdq c (S i) mod 256 = 0)%N.
  Proof.
    intros fo n nc nreads h fit gdq c i H. unfold kept, mask_jumps in H. apply loop_use in H. cbn [m_use] in H.
    unfold diffs2use in H. apply andb_true_iff in H. destruct H as [A B]. apply N.eqb_eq in A, B. auto.
  Qed.
  Theorem C39_monotone : forall fo n nc nreads h fit use0 k c i,
    kept_after fo n nc nreads h fit use0 (S k) c i = true -> kept_after fo n nc nreads h fit use0 k c i = true.
  Proof.
    intros fo n nc nreads h fit use0 k c i. unfold kept_after. generalize (fun c => {| m_use := use0 c; m_rate := j_rate fo (fit c (use0 c)); m_re := true |}).
    induction k as [|k IH]; intros s H; [apply loop_use in H; exact H|].
    rewrite loop_S in H. rewrite loop_S. destruct (anyb _ nc); [apply IH, H|exact H].
  Qed.
  (** Once three or fewer differences are left after a round the pixel is not searched again. *)
  Theorem C39_three_left : forall fo n nc nreads h fit use0 k c i, 1 <= k ->
    count_used (kept_after fo n nc nreads h fit use0 k c) n <= 3 ->
    kept_after fo n nc nreads h fit use0 (S k) c i = kept_after fo n nc nreads h fit use0 k c i.
  Proof.
    intros fo n nc nreads h fit use0 k c i Hk. unfold kept_after. destruct k as [|k]; [lia|].
    set (s := fun c => {| m_use := use0 c; m_rate := j_rate fo (fit c (use0 c)); m_re := true |}).
    rewrite (loop_S fo n nc nreads h fit (S k) s), (loop_S fo n nc nreads h fit k s). destruct (anyb _ nc); [|reflexivity].
    intro H. f_equal. apply loop_stop; [|exact H]. intros c' R. apply round_re; [reflexivity|exact R].
  Qed.
  (** The search always ends by itself: allowing more rounds than there are differences changes nothing.  The fit must
      report masked differences as bringing no improvement, which the code's does ([C39_fit_filled]). *)
  Theorem C39_rounds_suffice : forall fo n nc nreads h fit use0 m c i, FLaws fo -> fisnan fo (fnan fo) = true ->
    (forall x v, feq fo (fsub fo x x) v = true -> feq fo v (fzero fo) = true) ->
    (forall c, filled fo (fit c)) -> c < nc -> i < n ->
    kept_after fo n nc nreads h fit use0 (n + m) c i = kept fo n nc nreads h fit use0 c i.
  Proof.
    intros fo n nc nreads h fit use0 m c i L Nn Se F Hc Hi. unfold kept_after, kept, mask_jumps.
    apply loop_enough; try assumption. intros c' _ _. cbn [m_use]. apply count_le.
  Qed.
  Theorem C39_fit_filled : forall prec emax n c scale d,
    let fo := ieee prec emax in
    filled fo (fun u => {| j_rate := f_rate fo (fit_ramp fo n c scale d u); j_chisq := f_chisq fo (fit_ramp fo n c scale d u); j_om := omissions fo n c scale d u |}) /\
    (forall x v : spec_float, feq fo (fsub fo x x) v = true -> feq fo v (fzero fo) = true).
  Proof. intros. split; [apply fit_filled|apply ieee_self]. Qed.
  (** A pixel's differences do not depend on the other pixels of its row. *)
  Lemma pix_fit fo n nreads h (fit : nat -> (nat -> bool) -> jfit fo) c k : forall s, pix_loop fo n nreads h fit c k s = pix_loop fo n nreads h (fun _ => fit c) 0 k s.
  Proof. induction k as [|k IH]; intro s; [reflexivity|]. cbn [pix_loop]. rewrite IH. reflexivity. Qed.
  Theorem C39_pixel_alone : forall fo n nc nreads h fit use0 c i, c < nc -> i < n ->
    kept fo n nc nreads h fit use0 c i = kept fo n 1 nreads h (fun _ => fit c) (fun _ => use0 c) 0 i.
  Proof.
    intros fo n nc nreads h fit use0 c i Hc Hi. unfold kept, mask_jumps. rewrite !loop_pix by lia. cbn beta. rewrite pix_fit. reflexivity.
  Qed.
  (** JUMP_DET is added exactly to the groups closing a removed difference; nothing else in the group words changes. *)
  Theorem C39_jump_flags : forall n jbit gdq before after g b,
    (forall i, after i = true -> before i = true) ->
    N.testbit (jump_dq (bit jbit) gdq before after n g) b =
      (N.testbit (gdq g) b || (N.eqb b jbit && match g with 0 => false | S i => Nat.ltb i n && before i && negb (after i) end)).
  Proof.
    intros n jbit gdq before after g b Mo. unfold jump_dq. destruct g as [|i]; [rewrite andb_false_r, orb_false_r; reflexivity|].
    rewrite N.lor_spec. f_equal. unfold flag_if. replace (xorb (before i) (after i)) with (before i && negb (after i)).
    - rewrite <- andb_assoc. destruct (Nat.ltb i n && (before i && negb (after i))).
      + rewrite bit_testbit, andb_true_r. apply N.eqb_sym.
      + rewrite N.bits_0, andb_false_r. reflexivity.
    - pose proof (Mo i). destruct (before i), (after i); cbn; try reflexivity. discriminate (H eq_refl).
  Qed.
  Print Assumptions C39_only_removes. Print Assumptions C39_monotone. Print Assumptions C39_three_left.
  Print Assumptions C39_rounds_suffice. Print Assumptions C39_fit_filled. Print Assumptions C39_pixel_alone. Print Assumptions C39_jump_flags.
  (** reads at 1, 2, 3, 4, no photon noise, unit read noise *)
  Definition memo (n : nat) (f : nat -> B64) : nat -> B64 := let t := map f (seq 0 n) in fun i => nth i t (z64 0).
  Definition memo_cov n (c : pixcov B64) : pixcov B64 := @Build_pixcov B64 (memo n (p_ap B64 c)) (memo n (p_ar B64 c)) (memo n (p_bp B64 c)) (memo n (p_br B64 c)).
  Definition memo_om n (o : omits B64) : omits B64 := @Build_omits B64 (memo n (o_r1 B64 o)) (memo n (o_x1 B64 o)) (memo (n - 1) (o_r2 B64 o)) (memo (n - 1) (o_x2 B64 o)).
  Definition ex_jf (l : list Z) (d : list Z) (u : nat -> bool) : jfit B64 :=
    let n := length l - 1 in let t := map u (seq 0 n) in let u i := nth i t false in
    let c := memo_cov n (pixel_cov B64 (mk_covar B64 (ex_tm l)) (z64 0) (z64 1) (z64 1)) in
    let s := scale_of B64 (fun x _ => x) n (p_alpha B64 c) (p_beta B64 c) in let d i := z64 (nth i d 0%Z) in
    {| j_rate := f_rate B64 (fit_ramp B64 n c s d u); j_chisq := f_chisq B64 (fit_ramp B64 n c s d u); j_om := memo_om n (omissions B64 n c s d u) |}.
  Definition ex_h : thresholds B64 := {| h_one := fdiv B64 (z64 81) (z64 4); h_two := fdiv B64 (z64 238) (z64 10) |}.
  (** two pixels: a cosmic ray in the second difference of the first, a group flagged in the second *)
  Example C39_ex : let fit c := ex_jf [1; 2; 3; 4]%Z (nth c [[-1; 1000; -1]; [5; 5; 5]]%Z []) in
    let gdq c := nth c [fun _ => 0%N; fun g => if Nat.eqb g 3 then 2%N else 0%N] (fun _ => 0%N) in
    let m c := mask_jumps B64 3 2 (fun _ => 1) ex_h fit (fun c => diffs2use (gdq c)) c in
    (let a := m 0 in map (m_use B64 a) (seq 0 3)) = [true; false; true] /\ (let a := m 1 in map (m_use B64 a) (seq 0 3)) = [true; true; false] /\
    (let a := m 0 in let t := map (m_use B64 a) (seq 0 3) in map (jump_dq 4 (gdq 0) (diffs2use (gdq 0)) (fun i => nth i t false) 3) (seq 0 4)) = [0; 0; 4; 0]%N.
  Proof. vm_compute. auto. Qed.
  (** flags above the low eight bits are not seen *)
  Theorem C39_wide_flags_refuted : exists (gdq : nat -> N) i, gdq (S i) <> 0%N /\ diffs2use gdq i = true.
  Proof. exists (fun g => if Nat.eqb g 1 then 256%N else 0%N), 0. split; [discriminate|reflexivity]. Qed.
  Print Assumptions C39_wide_flags_refuted.
End C39.
(** ** C40 *)
Section C40.
  Local Open Scope nat_scope.
  (** what happens to the caller's read pattern: with a ZEROFRAME and at least two reads in the first group it is rewritten *)
  Theorem C40_pattern_after : forall T (p : list (list T)) zeroframe,
    read_pattern_after (Some p) zeroframe = Some p <-> ~ (zeroframe = true /\ exists t0 t1 ts gs, p = (t0 :: t1 :: ts) :: gs).
  Proof.
    intros T p zf. destruct p as [|[|t0 [|t1 ts]] gs]; cbn.
    - split; [|auto]. intros _ [_ [? [? [? [? Q]]]]]. discriminate.
    - split; [|auto]. intros _ [_ [? [? [? [? Q]]]]]. discriminate.
    - split; [|auto]. intros _ [_ [? [? [? [? Q]]]]]. discriminate.
    - destruct zf; split.
      + intro Q. exfalso. apply (f_equal (fun o => match o with Some (g :: _) => length g | _ => 0 end)) in Q. cbn in Q. lia.
      + intro Q. exfalso. apply Q. split; [reflexivity|]. eauto 6.
      + intros _ [Q _]. discriminate.
      + reflexivity.
  Qed.
  Theorem C40_read_pattern_refuted : exists (p : list (list Z)) zeroframe ng, fst (likely_call p zeroframe ng) = true /\ snd (likely_call p zeroframe ng) <> p.
  Proof. exists [[1; 2]; [3; 4]; [5; 6]; [7; 8]]%Z, true, 4. split; [reflexivity|discriminate]. Qed.
  (** and a second call with the same pattern then fails, whatever the (consistent) pattern was *)
  Theorem C40_second_call_fails : forall T (p : list (list T)), 4 <= length p -> (exists t0 t1 ts gs, p = (t0 :: t1 :: ts) :: gs) ->
    fst (likely_call p true (length p)) = true /\ fst (likely_call (snd (likely_call p true (length p))) true (length p)) = false.
  Proof.
    intros T p L [t0 [t1 [ts [gs E]]]]. subst p. cbn [length] in *. unfold likely_call. destruct (Nat.ltb_spec (S (length gs)) 4); [lia|]. cbn [read_pattern_after fst snd].
    unfold shapes_agree. cbn [andb length]. split; [rewrite Nat.eqb_refl; reflexivity|].
    rewrite !orb_false_iff, !Nat.eqb_neq. lia.
  Qed.
  Example C40_second_call_ex : let p := [[1; 2]; [3; 4]; [5; 6]; [7; 8]]%Z in
    likely_call p true 4 = (true, [[1]; [2]; [3; 4]; [5; 6]; [7; 8]]%Z) /\ fst (likely_call (snd (likely_call p true 4)) true 4) = false /\ likely_call p false 4 = (true, p).
  Proof. vm_compute. auto. Qed.
  Print Assumptions C40_pattern_after. Print Assumptions C40_read_pattern_refuted. Print Assumptions C40_second_call_fails.
End C40.
(** ** C72: the noise model *)
(** The table's entries are the covariances of the differences of the group means under Poisson counts at rate
    guess/gain and independent read noise: the diagonal, the first off-diagonal, and zero beyond; and the matrix is
    positive definite. *)
Theorem C72_covariance : forall times guess gain rn i j, good_times times -> (S i < length times)%nat -> (S j < length times)%nat ->
  let c := pixel_cov RF (mk_covar RF times) guess gain rn in
  diff_cov (guess / gain) rn times i j =
    if Nat.eqb i j then p_alpha RF c i else if Nat.eqb j (S i) then p_beta RF c i else if Nat.eqb i (S j) then p_beta RF c j else 0.
Proof. intros times guess gain rn i j G Hi Hj c. exact (cov_is_tri times guess gain rn G i j Hi Hj). Qed.
Print Assumptions C72_covariance.
Theorem C72_positive_definite : forall times rate rn, good_times times -> 0 <= rate -> rn <> 0 -> posdef (length times - 1) (diff_cov rate rn times).
Proof. exact noise_posdef. Qed.
Print Assumptions C72_positive_definite.
Example C72_ex : let c := pixel_cov RF (mk_covar RF ex_times) 1 1 1 in p_alpha RF c 1 = 3 /\ p_beta RF c 0 = -1.
Proof.
  intro c. pose proof (C72_covariance ex_times 1 1 1 1 1 (sane_times _ _ _ _ _ _ (ex_sane (fun _ => true) eq_refl)) ltac:(cbn; lia) ltac:(cbn; lia)) as A.
  pose proof (C72_covariance ex_times 1 1 1 0 1 (sane_times _ _ _ _ _ _ (ex_sane (fun _ => true) eq_refl)) ltac:(cbn; lia) ltac:(cbn; lia)) as B.
  rewrite ex_cov in A, B by lia. cbn [Nat.eqb] in A, B. split; symmetry; [exact A|exact B].
Qed.
