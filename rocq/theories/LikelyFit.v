(** The likelihood fit solves the normal equations of the differences in use. *)
From Verif Require Import Base RBase LikelyModel LikelySpec LikelyProofs.
From Coq Require Import Reals Lra Lia.
Local Open Scope R_scope.

Ltac toF := cbn [fadd fsub fmul fdiv fofZ fzero fone fsqrt RF].
Section Mats.
  Variables (n : nat) (a b dm : nat -> R) (use : nat -> bool).
  Let k := matrices RF n a b dm use.
  Lemma mats_dC i : (i < n)%nat -> k_dC RF k i = slv n a b (fun _ => 1) i * (if use i then 1 else 0).
  Proof. intro H. subst k. unfold matrices. cbn [k_dC]. rewrite Theta_1, Phi_1 by exact H. unfold slv, b2f. destruct (use i); reflexivity. Qed.
  Lemma mats_dB i : k_dB RF k i = slv n a b dm i.
  Proof. reflexivity. Qed.
  Lemma mats_C : k_C RF k = Sn n (k_dC RF k).
  Proof. subst k. unfold matrices. cbn [k_C k_dC]. rewrite lsum_Sn. reflexivity. Qed.
  Lemma mats_B : k_B RF k = Sn n (fun i => dm i * k_dC RF k i).
  Proof. subst k. unfold matrices. cbn [k_B k_dC]. rewrite lsum_Sn. reflexivity. Qed.
  Lemma mats_A : (1 <= n)%nat -> theta RF a b n <> 0 -> k_A RF k = Sn n (fun i => dm i * slv n a b dm i).
  Proof.
    intros N D. rewrite slv_quad by assumption. subst k. unfold matrices. cbn [k_A]. rewrite !lsum_Sn. toF. eqR.
    f_equal. f_equal. apply Sn_ext. intros i _. destruct i as [|j]; toF; cbn [ThetaD]; toF; eqR; ring.
  Qed.
End Mats.

Section Fit.
  Variables (n : nat) (c : pixcov RF) (scale : R) (d : nat -> R) (use : nat -> bool).
  Let al : nat -> R := p_alpha RF c. Let be : nat -> R := p_beta RF c.
  Let V := tri al be.
  Let sa : nat -> R := fun i => al i / scale.
  Let sb : nat -> R := masked_beta RF (fun i => be i / scale) use.
  Definition fit_det : R := theta RF sa sb n.
  Lemma masked_row rhs x : (forall i, (i < n)%nat -> Sn n (fun j => tri sa sb i j * x j) = rhs i) -> scale <> 0 ->
    solves n use V (fun i => x i / scale) rhs.
  Proof.
    intros H Z i Hi Ui. rewrite <- H by exact Hi. apply Sn_ext. intros j Hj. unfold V, tri, sa, sb, masked_beta, b2f. toF.
    destruct (Nat.eqb_spec i j) as [<-|N]; [rewrite Ui; unfold Rdiv; ring|].
    destruct (Nat.eqb_spec j (S i)) as [->|N1].
    - rewrite Ui. destruct (use (S i)); unfold Rdiv; ring.
    - destruct (Nat.eqb_spec i (S j)) as [->|N2]; [rewrite Ui|]; destruct (use j); unfold Rdiv; ring.
  Qed.
  Definition fx (i : nat) : R := slv n sa sb (fun _ => 1) i / scale.
  Definition fy (i : nat) : R := slv n sa sb (masked_diff RF d use) i / scale.
  Let k := fit_mats RF n c scale d use.
  Hypothesis n1 : (1 <= n)%nat. Hypothesis sc : scale <> 0. Hypothesis det : fit_det <> 0.
  Lemma fx_solves : solves n use V fx (fun _ => 1).
  Proof. apply (masked_row (fun _ => 1) (slv n sa sb (fun _ => 1))); [|exact sc]. intros i Hi. apply slv_row; [exact n1|exact det|exact Hi]. Qed.
  Lemma fy_solves : solves n use V fy d.
  Proof.
    intros i Hi Ui. unfold fy. rewrite (masked_row (masked_diff RF d use) (slv n sa sb (masked_diff RF d use)) (fun i Hi => slv_row n sa sb _ i n1 det Hi) sc i Hi Ui).
    unfold masked_diff, b2f. rewrite Ui. toF. ring.
  Qed.
  Lemma fit_dC i : (i < n)%nat -> k_dC RF k i = if use i then scale * fx i else 0.
  Proof.
    intro H. unfold k, fit_mats. rewrite mats_dC by exact H. unfold fx.
    change (@eq R (slv n sa sb (fun _ => 1) i * (if use i then 1 else 0)) (if use i then scale * (slv n sa sb (fun _ => 1) i / scale) else 0)).
    destruct (use i); field; exact sc.
  Qed.
  Lemma fit_dB i : k_dB RF k i = scale * fy i.
  Proof. unfold k, fit_mats. rewrite mats_dB. unfold fy. change (slv n sa sb (masked_diff RF d use) i = scale * (slv n sa sb (masked_diff RF d use) i / scale)). field. exact sc. Qed.
  Lemma fit_C : k_C RF k = scale * Su n use fx.
  Proof. unfold k, fit_mats. rewrite mats_C. fold (fit_mats RF n c scale d use). fold k. rewrite <- Su_scal. apply Sn_ext. intros i Hi. apply fit_dC, Hi. Qed.
  Lemma fit_B : k_B RF k = scale * Su n use (fun i => d i * fx i).
  Proof.
    unfold k, fit_mats. rewrite mats_B. fold (fit_mats RF n c scale d use). fold k. rewrite <- Su_scal. apply Sn_ext. intros i Hi.
    change (@eq R (masked_diff RF d use i * k_dC RF k i) (if use i then scale * (d i * fx i) else 0)).
    rewrite fit_dC by exact Hi. unfold masked_diff, b2f. toF. destruct (use i); ring.
  Qed.
  Lemma fit_A : k_A RF k = scale * Su n use (fun i => d i * fy i).
  Proof.
    unfold k, fit_mats. rewrite mats_A by (exact n1 || exact det). rewrite <- Su_scal. apply Sn_ext. intros i Hi.
    unfold fy. change (@eq R (masked_diff RF d use i * slv n sa sb (masked_diff RF d use) i) (if use i then scale * (d i * (slv n sa sb (masked_diff RF d use) i / scale)) else 0)).
    unfold masked_diff at 1, b2f. toF. destruct (use i); field; exact sc.
  Qed.
End Fit.

(** positive definite covariance: the determinant the fit divides by is positive *)
Lemma posdef_diag n V i : posdef n V -> (i < n)%nat -> 0 < V i i.
Proof.
  intros P H. assert (Q : 0 < quad n (fun _ => true) V (fun j => if Nat.eqb j i then 1 else 0) (fun j => if Nat.eqb j i then 1 else 0)).
  { apply P. exists i. split; [exact H|]. rewrite Nat.eqb_refl. lra. }
  unfold quad, Su in Q. rewrite (Sn_single n i) in Q by (exact H || (intros j _ N; destruct (Nat.eqb_spec j i); [congruence|ring])).
  rewrite (Sn_single n i) in Q by (exact H || (intros j _ N; destruct (Nat.eqb_spec j i); [congruence|ring])). rewrite Nat.eqb_refl in Q. lra.
Qed.
Lemma Sn_pos n f i : (forall j, (j < n)%nat -> 0 <= f j) -> (i < n)%nat -> 0 < f i -> 0 < Sn n f.
Proof.
  intros H Hi P. induction n as [|n IH]; [lia|]. cbn [Sn]. destruct (Nat.eq_dec i n) as [->|N].
  - assert (0 <= Sn n f) by (apply Sn_nonneg; intros; apply H; lia). lra.
  - assert (0 < Sn n f) by (apply IH; [intros; apply H; lia|lia]). pose proof (H n ltac:(lia)). lra.
Qed.
Lemma masked_posdef n al be scale use : posdef n (tri al be) -> 0 < scale ->
  forall x, (exists i, (i < n)%nat /\ x i <> 0) ->
  0 < Sn n (fun i => x i * Sn n (fun j => tri (fun i => al i / scale) (masked_beta RF (fun i => be i / scale) use) i j * x j)).
Proof.
  intros P Sc x [i0 [Hi0 X0]].
  set (u := fun i => if use i then x i else 0).
  assert (E : Sn n (fun i => x i * Sn n (fun j => tri (fun i => al i / scale) (masked_beta RF (fun i => be i / scale) use) i j * x j))
            = / scale * (quad n (fun _ => true) (tri al be) u u + Sn n (fun i => if use i then 0 else al i * x i * x i))).
  { unfold quad, Su. rewrite <- Sn_plus, <- Sn_scal. apply Sn_ext. intros i Hi.
    unfold u at 1. destruct (use i) eqn:Ui.
    - rewrite Rplus_0_r, <- Rmult_assoc, (Rmult_comm (/ scale)), Rmult_assoc. f_equal. rewrite <- Sn_scal. apply Sn_ext. intros j Hj.
      unfold u, tri, masked_beta, b2f. toF. destruct (Nat.eqb_spec i j) as [<-|N]; [rewrite Ui; unfold Rdiv; ring|].
      destruct (Nat.eqb_spec j (S i)) as [->|N1].
      + rewrite Ui. destruct (use (S i)); unfold Rdiv; ring.
      + destruct (Nat.eqb_spec i (S j)) as [->|N2]; [rewrite Ui|]; destruct (use j); unfold Rdiv; ring.
    - rewrite (Sn_single n i); [unfold tri; rewrite Nat.eqb_refl; unfold Rdiv; ring|exact Hi|].
      intros j Hj N. unfold tri, masked_beta, b2f. toF. destruct (Nat.eqb_spec i j); [congruence|].
      destruct (Nat.eqb_spec j (S i)) as [->|N1]; [rewrite Ui; ring|]. destruct (Nat.eqb_spec i (S j)) as [->|N2]; [rewrite Ui; ring|ring]. }
  rewrite E. apply Rmult_lt_0_compat; [apply Rinv_0_lt_compat, Sc|].
  assert (M : forall i, (i < n)%nat -> 0 <= (if use i then 0 else al i * x i * x i)).
  { intros i Hi. destruct (use i); [lra|]. pose proof (posdef_diag n _ i P Hi) as D. unfold tri in D. rewrite Nat.eqb_refl in D.
    rewrite Rmult_assoc. apply Rmult_le_pos; [lra|]. apply Rle_0_sqr. }
  assert (Q0 : 0 <= quad n (fun _ => true) (tri al be) u u).
  { destruct (Classical_Prop.classic (exists i, (i < n)%nat /\ u i <> 0)) as [Y|Nn]; [left; apply P, Y|right].
    symmetry. apply Sn_zero. intros i Hi. assert (u i = 0) as -> by (apply Classical_Prop.NNPP; intro; apply Nn; eauto). ring. }
  destruct (use i0) eqn:U0.
  - assert (0 < quad n (fun _ => true) (tri al be) u u) by (apply P; exists i0; split; [exact Hi0|unfold u; rewrite U0; exact X0]).
    pose proof (Sn_nonneg n _ M). lra.
  - assert (0 < Sn n (fun i => if use i then 0 else al i * x i * x i)).
    { apply (Sn_pos n _ i0 M Hi0). rewrite U0. pose proof (posdef_diag n _ i0 P Hi0) as D. unfold tri in D. rewrite Nat.eqb_refl in D.
      rewrite Rmult_assoc. apply Rmult_lt_0_compat; [exact D|]. apply Rsqr_pos_lt. exact X0. }
    lra.
Qed.
Lemma fit_det_pos n c scale use : posdef n (tri (p_alpha RF c) (p_beta RF c)) -> 0 < scale -> 0 < fit_det n c scale use.
Proof.
  intros P Sc. unfold fit_det.
  apply (minors_pos n (fun i => p_alpha RF c i / scale) (masked_beta RF (fun i => p_beta RF c i / scale) use)); [apply theta_0|apply theta_1|intro; apply theta_S| |lia].
  intros x Hx. apply (masked_posdef n (p_alpha RF c) (p_beta RF c) scale use P Sc x Hx).
Qed.
(** a positive definite matrix is positive on the differences in use *)
Lemma posdef_used n use V x : posdef n V -> (exists i, (i < n)%nat /\ use i = true /\ x i <> 0) -> 0 < quad n use V x x.
Proof.
  intros P [i [Hi [Ui X]]].
  assert (Q := P (fun i => if use i then x i else 0)).
  replace (quad n use V x x) with (quad n (fun _ => true) V (fun i => if use i then x i else 0) (fun i => if use i then x i else 0)).
  - apply Q. exists i. rewrite Ui. auto.
  - unfold quad, Su. apply Sn_ext. intros j Hj. destruct (use j); [|ring]. f_equal. apply Sn_ext. intros l Hl. destruct (use l); ring.
Qed.
Lemma posdef_used_nonneg n use V x : posdef n V -> 0 <= quad n use V x x.
Proof.
  intros P. destruct (Classical_Prop.classic (exists i, (i < n)%nat /\ use i = true /\ x i <> 0)) as [Y|N]; [left; apply posdef_used; assumption|right].
  symmetry. apply Sn_zero. intros i Hi. destruct (use i) eqn:U; [|reflexivity]. assert (x i = 0) as -> by (apply Classical_Prop.NNPP; intro; apply N; eauto). ring.
Qed.
(** the sum of the solution of V x = 1 is positive as soon as one difference is in use *)
Lemma solves_sum_pos n use V x : posdef n V -> (exists i, (i < n)%nat /\ use i = true) -> solves n use V x (fun _ => 1) -> 0 < Su n use x.
Proof.
  intros P [i [Hi Ui]] Sx.
  assert (E : quad n use V x x = Su n use x).
  { unfold quad. apply Su_ext. intros j Hj Uj. rewrite (Sx j Hj Uj). ring. }
  rewrite <- E. apply posdef_used; [exact P|].
  destruct (Classical_Prop.classic (exists j, (j < n)%nat /\ use j = true /\ x j <> 0)) as [Y|N]; [exact Y|exfalso].
  assert (Z : Su n use (fun j => V i j * x j) = 0).
  { apply Sn_zero. intros j Hj. destruct (use j) eqn:U; [|reflexivity]. assert (x j = 0) as -> by (apply Classical_Prop.NNPP; intro; apply N; eauto). ring. }
  rewrite (Sx i Hi Ui) in Z. lra.
Qed.
(** two solutions agree on the differences in use *)
Lemma solves_unique n use V x y rhs : posdef n V -> solves n use V x rhs -> solves n use V y rhs -> forall i, (i < n)%nat -> use i = true -> x i = y i.
Proof.
  intros P X Y i Hi Ui. apply Classical_Prop.NNPP. intro N.
  assert (Q : 0 < quad n use V (fun i => x i - y i) (fun i => x i - y i)) by (apply posdef_used; [exact P|exists i; repeat split; auto; lra]).
  assert (Z : quad n use V (fun i => x i - y i) (fun i => x i - y i) = 0).
  { apply Sn_zero. intros j Hj. destruct (use j) eqn:U; [|reflexivity].
    rewrite (Su_ext n use _ (fun l => V j l * x l - V j l * y l)) by (intros; ring). rewrite Su_minus, (X j Hj U), (Y j Hj U). ring. }
  lra.
Qed.
