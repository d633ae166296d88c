(** What the fit returns in terms of the normal equations, and the one- and two-omission searches. *)
From Verif Require Import Base RBase LikelyModel LikelySpec LikelyProofs LikelyFit LikelyNoise.
From Coq Require Import Reals Lra Lia.
Local Open Scope R_scope.

Lemma solves_rhs n use V x f g : (forall i, (i < n)%nat -> use i = true -> f i = g i) -> solves n use V x f -> solves n use V x g.
Proof. intros E H i Hi Ui. rewrite <- E by assumption. apply H; assumption. Qed.
Lemma solves_comb n use V x y f g k : solves n use V x f -> solves n use V y g -> solves n use V (fun i => x i + k * y i) (fun i => f i + k * g i).
Proof.
  intros X Y i Hi Ui. rewrite (Su_ext n use _ (fun j => V i j * x j + k * (V i j * y j))) by (intros; ring).
  rewrite Su_plus, Su_scal, (X i Hi Ui), (Y i Hi Ui). reflexivity.
Qed.
Section Values.
  Variables (n : nat) (c : pixcov RF) (d : nat -> R).
  Let V := tri (p_alpha RF c) (p_beta RF c).
  Hypothesis n1 : (1 <= n)%nat. Hypothesis PD : posdef n V.
  Lemma det_ne scale use : 0 < scale -> fit_det n c scale use <> 0.
  Proof. intro H. pose proof (fit_det_pos n c scale use PD H). lra. Qed.
  Lemma solution_exists use rhs : exists x, solves n use V x rhs.
  Proof.
    exists (fy n c 1 rhs use). apply fy_solves; [exact n1|lra|apply det_ne; lra].
  Qed.
  Section Mask.
    Variables (scale : R) (use : nat -> bool) (x y : nat -> R).
    Hypothesis Sc : 0 < scale.
    Hypothesis X : solves n use V x (fun _ => 1). Hypothesis Y : solves n use V y d.
    Let k := fit_mats RF n c scale d use.
    Lemma val_dC i : (i < n)%nat -> k_dC RF k i = if use i then scale * x i else 0.
    Proof.
      intro Hi. unfold k. rewrite fit_dC by (lra || exact Hi). destruct (use i) eqn:U; [|reflexivity]. f_equal.
      apply (solves_unique n use V _ x (fun _ => 1) PD); [apply fx_solves; [exact n1|lra|apply det_ne, Sc]|exact X|exact Hi|exact U].
    Qed.
    Lemma val_fy i : (i < n)%nat -> use i = true -> fy n c scale d use i = y i.
    Proof. apply (solves_unique n use V _ y d PD); [apply fy_solves; [exact n1|lra|apply det_ne, Sc]|exact Y]. Qed.
    Lemma val_dB i : (i < n)%nat -> use i = true -> k_dB RF k i = scale * y i.
    Proof. intros Hi U. unfold k. rewrite fit_dB by lra. rewrite val_fy by assumption. reflexivity. Qed.
    Lemma val_C : k_C RF k = scale * Su n use x.
    Proof.
      unfold k. rewrite fit_C by lra. f_equal. apply Su_ext. intros i Hi U.
      apply (solves_unique n use V _ x (fun _ => 1) PD); [apply fx_solves; [exact n1|lra|apply det_ne, Sc]|exact X|exact Hi|exact U].
    Qed.
    Lemma val_B : k_B RF k = scale * Su n use (fun i => d i * x i).
    Proof.
      unfold k. rewrite fit_B by lra. f_equal. apply Su_ext. intros i Hi U. f_equal.
      apply (solves_unique n use V _ x (fun _ => 1) PD); [apply fx_solves; [exact n1|lra|apply det_ne, Sc]|exact X|exact Hi|exact U].
    Qed.
    Lemma val_A : k_A RF k = scale * Su n use (fun i => d i * y i).
    Proof.
      unfold k. rewrite fit_A by (exact n1 || lra || apply det_ne, Sc). f_equal. apply Su_ext. intros i Hi U. rewrite val_fy by assumption. reflexivity.
    Qed.
    Hypothesis U : exists i, (i < n)%nat /\ use i = true.
    Let r := fit_ramp RF n c scale d use.
    Lemma sum_pos : 0 < Su n use x. Proof. exact (solves_sum_pos n use V x PD U X). Qed.
    Lemma val_rate : f_rate RF r = Su n use (fun i => d i * x i) / Su n use x.
    Proof.
      unfold r, fit_ramp, ramp_result. cbn [f_rate]. fold k. rewrite val_B, val_C. toF. eqR. field. pose proof sum_pos. lra.
    Qed.
    Lemma val_chisq : f_chisq RF r = Su n use (fun i => d i * y i) - Su n use (fun i => d i * x i) * Su n use (fun i => d i * x i) / Su n use x.
    Proof.
      unfold r, fit_ramp, ramp_result. cbn [f_chisq]. fold k. rewrite val_A, val_B, val_C. toF. eqR. field. pose proof sum_pos. lra.
    Qed.
    Lemma val_uncert : f_uncert RF r = sqrt (1 / Su n use x).
    Proof.
      unfold r, fit_ramp, ramp_result. cbn [f_uncert]. fold k. rewrite val_C. toF. eqR. f_equal. field. pose proof sum_pos. lra.
    Qed.
    Lemma val_w i : (i < n)%nat -> f_w RF r i = if use i then x i / Su n use x else 0.
    Proof.
      intro Hi. unfold r, fit_ramp, ramp_result. cbn [f_w]. fold k. rewrite val_C, val_dC by exact Hi. toF. eqR. pose proof sum_pos. destruct (use i); field; lra.
    Qed.
  End Mask.
  (** a vector that solves the residual equation and sums to zero identifies rate and chi squared *)
  Lemma residual scale use a w : 0 < scale -> (exists i, (i < n)%nat /\ use i = true) -> solves n use V w (fun i => d i - a) -> Su n use w = 0 ->
    f_rate RF (fit_ramp RF n c scale d use) = a /\ f_chisq RF (fit_ramp RF n c scale d use) = Su n use (fun i => d i * w i).
  Proof.
    intros Sc U W Z. destruct (solution_exists use (fun _ => 1)) as [x X].
    assert (Y : solves n use V (fun i => w i + a * x i) d).
    { apply (solves_rhs _ _ _ _ (fun i => (d i - a) + a * 1)); [intros; ring|]. apply solves_comb; assumption. }
    pose proof (solves_pair n use V x w (fun _ => 1) (fun i => d i - a) (tri_sym _ _) X W) as E.
    cbv beta in E. rewrite (Su_ext n use (fun i => 1 * w i) w) in E by (intros; ring). rewrite Z in E.
    rewrite (Su_ext n use _ (fun i => d i * x i + - a * x i)) in E by (intros; ring). rewrite Su_plus, Su_scal in E.
    pose proof (sum_pos use x X U) as P.
    rewrite (val_rate scale use x Sc X U), (val_chisq scale use x (fun i => w i + a * x i) Sc X Y U).
    rewrite (Su_ext n use (fun i => d i * (w i + a * x i)) (fun i => d i * w i + a * (d i * x i))) by (intros; ring). rewrite Su_plus, Su_scal.
    assert (B : Su n use (fun i => d i * x i) = a * Su n use x) by lra. rewrite B. split; eqR; field; lra.
  Qed.
End Values.
(** ** Removing differences *)
Definition without (use : nat -> bool) (k : nat) : nat -> bool := fun i => use i && negb (Nat.eqb i k).
Definition delta (k i : nat) : R := if Nat.eqb i k then 1 else 0.
Lemma without_true use k i : without use k i = true <-> use i = true /\ i <> k.
Proof. unfold without. rewrite andb_true_iff, negb_true_iff, Nat.eqb_neq. tauto. Qed.
Lemma Su_without n use k f : f k = 0 -> Su n (without use k) f = Su n use f.
Proof. intro Z. apply Sn_ext. intros i _. unfold without. destruct (use i); [|reflexivity]. destruct (Nat.eqb_spec i k) as [->|]; cbn; [lra|reflexivity]. Qed.
Lemma Su_delta n use k f : (k < n)%nat -> use k = true -> Su n use (fun i => delta k i * f i) = f k.
Proof.
  intros H U. unfold Su. rewrite (Sn_single n k); [rewrite U; unfold delta; rewrite Nat.eqb_refl; ring|exact H|].
  intros i _ N. unfold delta. destruct (Nat.eqb_spec i k); [congruence|]. destruct (use i); ring.
Qed.
Lemma Su_one n use f : Su n use (fun i => 1 * f i) = Su n use f.
Proof. apply Su_ext. intros; ring. Qed.
Section Inverse.
  (** entries of the inverse of the masked, scaled matrix *)
  Variables (n : nat) (a b : nat -> R).
  Lemma ThetaD_delta_lo k i : (i <= k)%nat -> ThetaD RF a b (delta k) i = 0.
  Proof.
    induction i as [|i IH]; intro H; [reflexivity|]. destruct i as [|i].
    - rewrite ThetaD_0. unfold delta. destruct (Nat.eqb_spec 0 k); [lia|eqR; ring].
    - rewrite ThetaD_S, IH by lia. unfold delta. destruct (Nat.eqb_spec (S i) k); [lia|eqR; ring].
  Qed.
  Lemma ThetaD_delta_at k : ThetaD RF a b (delta k) (S k) = sgn RF k * theta RF a b k.
  Proof.
    destruct k as [|k]; [rewrite ThetaD_0; unfold delta; rewrite Nat.eqb_refl; eqR; ring|].
    rewrite ThetaD_S, ThetaD_delta_lo by lia. unfold delta. rewrite Nat.eqb_refl. eqR. ring.
  Qed.
  Lemma PhiD_delta_hi k i : (k <= i)%nat -> (i < n)%nat -> PhiD RF n a b (delta k) i = 0.
  Proof.
    intros H Hi. remember (n - 1 - i)%nat as r eqn:E. revert i H Hi E. induction r as [|r IH]; intros i H Hi E.
    - replace i with (n - 1)%nat by lia. apply PhiD_n.
    - rewrite PhiD_S by lia. rewrite IH by lia. unfold delta. destruct (Nat.eqb_spec (S i) k); [lia|eqR; ring].
  Qed.
  Lemma slv_delta_at k : (k < n)%nat -> slv n a b (delta k) k = theta RF a b k * phi RF n a b (S k) / theta RF a b n.
  Proof.
    intro H. unfold slv. rewrite ThetaD_delta_at, PhiD_delta_hi by lia. pose proof (s_sq (sgn RF) sgn_0 sgn_S k) as Q. unfold Rdiv.
    transitivity ((sgn RF k * sgn RF k) * (theta RF a b k * phi RF n a b (S k) * / theta RF a b n)); [eqR; ring|]. rewrite Q. eqR. ring.
  Qed.
  Lemma slv_delta_next k : (S k < n)%nat -> slv n a b (delta k) (S k) = - b k * theta RF a b k * phi RF n a b (S (S k)) / theta RF a b n.
  Proof.
    intro H. unfold slv. rewrite ThetaD_S, ThetaD_delta_at, PhiD_delta_hi by lia. pose proof (s_sq (sgn RF) sgn_0 sgn_S k) as Q. unfold delta.
    destruct (Nat.eqb_spec (S k) k); [lia|]. rewrite sgn_S. unfold Rdiv.
    transitivity (- (sgn RF k * sgn RF k) * (b k * theta RF a b k * phi RF n a b (S (S k)) * / theta RF a b n)); [eqR; ring|]. rewrite Q. eqR. ring.
  Qed.
End Inverse.
Section Omit.
  Variables (n : nat) (c : pixcov RF) (d : nat -> R) (scale : R) (use : nat -> bool).
  Let V := tri (p_alpha RF c) (p_beta RF c).
  Let al : nat -> R := fun i => p_alpha RF c i / scale.
  Let be : nat -> R := masked_beta RF (fun i => p_beta RF c i / scale) use.
  Hypothesis n1 : (1 <= n)%nat. Hypothesis PD : posdef n V. Hypothesis Sc : 0 < scale.
  Let e k (i : nat) : R := slv n al be (delta k) i / scale.
  Lemma e_solves k : (k < n)%nat -> use k = true -> solves n use V (e k) (delta k).
  Proof.
    intros Hk Uk. apply (masked_row n c scale use (delta k) (slv n al be (delta k))); [|lra].
    intros i Hi. apply slv_row; [exact n1| |exact Hi]. apply (det_ne n c PD scale use Sc).
  Qed.
  Lemma diag_e k : (k < n)%nat -> use k = true -> cinv_diag RF n al be use k = scale * e k k.
  Proof. intros Hk Uk. unfold cinv_diag, e, b2f. rewrite Uk, slv_delta_at by exact Hk. toF. eqR. field. split; [|lra]. apply (det_ne n c PD scale use Sc). Qed.
  Lemma off_e k : (S k < n)%nat -> cinv_off RF n al be k = scale * e k (S k).
  Proof. intros Hk. unfold cinv_off, e, lneg. rewrite slv_delta_next by exact Hk. toF. eqR. field. split; [|lra]. apply (det_ne n c PD scale use Sc). Qed.
  Lemma e_pos k : (k < n)%nat -> use k = true -> 0 < e k k.
  Proof.
    intros Hk Uk. pose proof (e_solves k Hk Uk) as E.
    assert (Q : quad n use V (e k) (e k) = e k k).
    { unfold quad. rewrite (Su_ext n use _ (fun i => delta k i * e k i)) by (intros i Hi Ui; rewrite (E i Hi Ui); ring). apply Su_delta; assumption. }
    rewrite <- Q. apply posdef_used; [exact PD|]. destruct (Classical_Prop.classic (exists i, (i < n)%nat /\ use i = true /\ e k i <> 0)) as [Y|N]; [exact Y|exfalso].
    assert (Z : Su n use (fun j => V k j * e k j) = 0).
    { apply Sn_zero. intros j Hj. destruct (use j) eqn:Uj; [|reflexivity]. assert (e k j = 0) as -> by (apply Classical_Prop.NNPP; intro; apply N; eauto). ring. }
    rewrite (E k Hk Uk) in Z. unfold delta in Z. rewrite Nat.eqb_refl in Z. lra.
  Qed.
  (** dropping an index where the vector vanishes *)
  Lemma drop_index use' k w f b : w k = 0 -> solves n use' V w (fun i => f i - b * delta k i) -> solves n (without use' k) V w f.
  Proof.
    intros Z H i Hi Ui. apply without_true in Ui. destruct Ui as [Ui Ne]. rewrite Su_without by (rewrite Z; ring). rewrite (H i Hi Ui). unfold delta. destruct (Nat.eqb_spec i k); [congruence|ring].
  Qed.
  Variables (x y : nat -> R).
  Hypothesis X : solves n use V x (fun _ => 1). Hypothesis Y : solves n use V y d.
  Let C := Su n use x. Let B := Su n use (fun i => d i * x i).
  Lemma pair_e_x k : (k < n)%nat -> use k = true -> Su n use (e k) = x k.
  Proof.
    intros Hk Uk. rewrite <- (Su_one n use (e k)). rewrite (solves_pair n use V (e k) x (delta k) (fun _ => 1) (tri_sym _ _) (e_solves k Hk Uk) X). apply Su_delta; assumption.
  Qed.
  Lemma pair_e_y k : (k < n)%nat -> use k = true -> Su n use (fun i => d i * e k i) = y k.
  Proof.
    intros Hk Uk. rewrite (solves_pair n use V (e k) y (delta k) d (tri_sym _ _) (e_solves k Hk Uk) Y). apply Su_delta; assumption.
  Qed.
  Lemma pair_e_e k l : (k < n)%nat -> use k = true -> (l < n)%nat -> use l = true -> e k l = e l k.
  Proof.
    intros Hk Uk Hl Ul. rewrite <- (Su_delta n use l (e k)), <- (Su_delta n use k (e l)) by assumption. apply (solves_pair n use V (e k) (e l) (delta k) (delta l) (tri_sym _ _)); apply e_solves; assumption.
  Qed.
  Lemma pair_y : Su n use y = B.
  Proof. rewrite <- (Su_one n use y). unfold B. symmetry. exact (solves_pair n use V x y (fun _ => 1) d (tri_sym _ _) X Y). Qed.
  (** another difference in use: C e_kk - x_k^2 > 0 *)
  Lemma cs_one k : (k < n)%nat -> use k = true -> (exists i, (i < n)%nat /\ without use k i = true) -> 0 < C * e k k - x k * x k.
  Proof.
    intros Hk Uk [i [Hi Ui]]. pose proof (e_pos k Hk Uk) as P. apply without_true in Ui. destruct Ui as [Ui Ne].
    set (w := fun i => x i + - (x k / e k k) * e k i).
    assert (W : solves n use V w (fun i => 1 + - (x k / e k k) * delta k i)) by (apply solves_comb; [exact X|apply e_solves; assumption]).
    assert (Z : w k = 0) by (unfold w; field; lra).
    assert (D : solves n (without use k) V w (fun _ => 1)).
    { apply (drop_index use k w (fun _ => 1) (x k / e k k) Z). apply (solves_rhs _ _ _ _ (fun i => 1 + - (x k / e k k) * delta k i)); [intros; ring|exact W]. }
    assert (Q : 0 < Su n (without use k) w).
    { apply (solves_sum_pos n (without use k) V w PD); [|exact D]. exists i. split; [exact Hi|]. apply without_true. auto. }
    rewrite Su_without in Q by exact Z. unfold w in Q. rewrite Su_plus, Su_scal, pair_e_x in Q by assumption. fold C in Q.
    apply (Rmult_lt_reg_r (/ e k k)); [apply Rinv_0_lt_compat, P|]. rewrite Rmult_0_l. replace ((C * e k k - x k * x k) * / e k k) with (C + - (x k / e k k) * x k) by (field; lra). exact Q.
  Qed.
  Let k0 := fit_mats RF n c scale d use.
  Let ci := cinv_diag RF n al be use. Let co := cinv_off RF n al be.
  Section One.
    Variable k : nat.
    Hypothesis Hk : (k < n)%nat. Hypothesis Uk : use k = true. Hypothesis More : exists i, (i < n)%nat /\ without use k i = true.
    Lemma one_values : rate_one RF k0 ci k = (e k k * B - y k * x k) / (C * e k k - x k * x k).
    Proof.
      unfold rate_one, k0, ci. rewrite (val_B n c d n1 PD scale use x Sc X), (val_C n c d n1 PD scale use x Sc X), (val_dC n c d n1 PD scale use x Sc X k Hk), (val_dB n c d n1 PD scale use y Sc Y k Hk Uk), diag_e, Uk by assumption.
      fold B C. pose proof (cs_one k Hk Uk More). toF. eqR. field. split; [lra|]. replace (scale * C * (scale * e k k) - scale * x k * (scale * x k)) with (scale * scale * (C * e k k - x k * x k)) by ring.
      apply Rmult_integral_contrapositive_currified; [|lra]. apply Rmult_integral_contrapositive_currified; lra.
    Qed.
    Lemma one_omit_refit s' : 0 < s' -> let r := fit_ramp RF n c s' d (without use k) in
      rate_one RF k0 ci k = f_rate RF r /\ chisq_one RF k0 ci scale k = f_chisq RF r.
    Proof.
      intros S' r. pose proof (cs_one k Hk Uk More) as Cs. pose proof (e_pos k Hk Uk) as P.
      set (a := (e k k * B - y k * x k) / (C * e k k - x k * x k)). set (b := (y k - a * x k) / e k k).
      set (w := fun i => y i + - a * x i + - b * e k i).
      assert (W : solves n use V w (fun i => d i + - a * 1 + - b * delta k i)) by (apply solves_comb; [apply solves_comb; assumption|apply e_solves; assumption]).
      assert (Z : w k = 0) by (unfold w, b; field; lra).
      assert (D : solves n (without use k) V w (fun i => d i - a)).
      { apply (drop_index use k w _ b Z). apply (solves_rhs _ _ _ _ (fun i => d i + - a * 1 + - b * delta k i)); [intros; ring|exact W]. }
      assert (S0 : Su n (without use k) w = 0).
      { rewrite Su_without by exact Z. unfold w. rewrite !Su_plus, !Su_scal, pair_y, pair_e_x by assumption. fold C. unfold b, a. field. lra. }
      destruct (residual n c d n1 PD s' (without use k) a w S' More D S0) as [E1 E2].
      split.
      - rewrite one_values. symmetry. exact E1.
      - fold r in E2. rewrite E2, Su_without by (rewrite Z; ring).
        unfold chisq_one. rewrite one_values. fold a. unfold k0, ci. rewrite (val_A n c d n1 PD scale use y Sc Y), (val_B n c d n1 PD scale use x Sc X), (val_C n c d n1 PD scale use x Sc X), (val_dC n c d n1 PD scale use x Sc X k Hk), (val_dB n c d n1 PD scale use y Sc Y k Hk Uk), diag_e, Uk by assumption.
        fold B C. unfold w. rewrite (Su_ext n use (fun i => d i * (y i + - a * x i + - b * e k i)) (fun i => d i * y i + - a * (d i * x i) + - b * (d i * e k i))) by (intros; ring).
        rewrite !Su_plus, !Su_scal, pair_e_y by assumption. fold B. toF. eqR.
        replace ((scale * y k - a * (scale * x k)) / (scale * e k k)) with b by (unfold b; field; lra).
        assert (N1 : a * C + b * x k = B) by (unfold b, a; field; lra).
        assert (N2 : a * x k + b * e k k = y k) by (unfold b; field; lra).
        transitivity (Su n use (fun i => d i * y i) - 2 * a * B - 2 * b * y k + a * (a * C + b * x k) + b * (a * x k + b * e k k)); [field; lra|]. rewrite N1, N2. ring.
    Qed.
  End One.
  Section Two.
    Variable k : nat.
    Hypothesis Hk : (S k < n)%nat. Hypothesis Uk : use k = true. Hypothesis Uk1 : use (S k) = true.
    Let use2 := without (without use k) (S k).
    Hypothesis More : exists i, (i < n)%nat /\ use2 i = true.
    Let p := e k k. Let q := e (S k) (S k). Let o := e k (S k).
    Let J := x k * x k - C * p. Let M := x k * x (S k) - C * o. Let Nn := x (S k) * x (S k) - C * q.
    Lemma more1 : exists i, (i < n)%nat /\ without use k i = true.
    Proof. destruct More as [i [Hi Ui]]. apply without_true in Ui. exists i. tauto. Qed.
    Lemma C_pos : 0 < C.
    Proof. apply (solves_sum_pos n use V x PD); [|exact X]. exists k. split; [lia|exact Uk]. Qed.
    Lemma J_neg : J < 0. Proof. pose proof (cs_one k ltac:(lia) Uk more1). unfold J, p. lra. Qed.
    Lemma det2 : J * Nn - M * M <> 0.
    Proof.
      intro Z. pose proof C_pos as Cp. pose proof J_neg as Jn.
      set (v := - M). set (w := J). set (u := - (x k * v + x (S k) * w) / C).
      set (vec := fun i => u * x i + v * e k i + w * e (S k) i).
      assert (Ve : solves n use V vec (fun i => u + v * delta k i + w * delta (S k) i)).
      { apply solves_comb; [|apply e_solves; [lia|exact Uk1]]. apply (solves_comb n use V (fun i => u * x i) (e k) (fun _ => u) (delta k)); [|apply e_solves; [lia|exact Uk]].
        intros i Hi Ui. rewrite (Su_ext n use _ (fun j => u * (V i j * x j))) by (intros; ring). rewrite Su_scal, (X i Hi Ui). ring. }
      assert (Q : quad n use V vec vec = 0).
      { unfold quad. rewrite (Su_ext n use _ (fun i => u * vec i + v * (delta k i * vec i) + w * (delta (S k) i * vec i))) by (intros i Hi Ui; rewrite (Ve i Hi Ui); ring).
        rewrite !Su_plus, !Su_scal, !Su_delta by (lia || assumption). unfold vec at 1. rewrite !Su_plus, !Su_scal, !pair_e_x by (lia || assumption). fold C.
        unfold vec. rewrite (pair_e_e (S k) k) by (lia || assumption). fold p q o.
        assert (G1 : u * C + v * x k + w * x (S k) = 0) by (unfold u; field; lra).
        assert (G2 : u * x k + v * p + w * o = 0).
        { apply (Rmult_eq_reg_l C); [|lra]. rewrite Rmult_0_r. transitivity (- (J * v + M * w)); [unfold u, J, M; field; lra|]. unfold v, w. ring. }
        assert (G3 : u * x (S k) + v * o + w * q = 0).
        { apply (Rmult_eq_reg_l C); [|lra]. rewrite Rmult_0_r. transitivity (- (M * v + Nn * w)); [unfold u, M, Nn; field; lra|]. unfold v, w. lra. }
        rewrite G1, G2, G3. ring. }
      assert (Hz : forall i, (i < n)%nat -> use i = true -> vec i = 0).
      { intros i Hi Ui. apply Classical_Prop.NNPP. intro Ne. assert (0 < quad n use V vec vec) by (apply posdef_used; [exact PD|eauto]). lra. }
      assert (R0 : forall i, (i < n)%nat -> use i = true -> u + v * delta k i + w * delta (S k) i = 0).
      { intros i Hi Ui. rewrite <- (Ve i Hi Ui). apply Sn_zero. intros j Hj. destruct (use j) eqn:Uj; [rewrite (Hz j Hj Uj); ring|reflexivity]. }
      destruct More as [i [Hi Ui]]. apply without_true in Ui. destruct Ui as [Ui N2]. apply without_true in Ui. destruct Ui as [Ui N1'].
      pose proof (R0 i Hi Ui) as A1. unfold delta in A1. destruct (Nat.eqb_spec i k); [congruence|]. destruct (Nat.eqb_spec i (S k)); [congruence|].
      pose proof (R0 (S k) ltac:(lia) Uk1) as A2. unfold delta in A2. destruct (Nat.eqb_spec (S k) k); [lia|]. rewrite Nat.eqb_refl in A2. unfold w in A2. lra.
    Qed.
    (** the model's division by the coupling of the two omissions must not be by zero *)
    Definition coupled : Prop := k_dC RF k0 k * k_dC RF k0 (S k) - k_C RF k0 * co k <> 0.
    Lemma coupled_M : coupled -> M <> 0.
    Proof.
      unfold coupled, k0, co. rewrite (val_C n c d n1 PD scale use x Sc X), !(val_dC n c d n1 PD scale use x Sc X), off_e, Uk, Uk1 by lia. fold C o.
      intros H Z. apply H. toF. replace (scale * x k * (scale * x (S k)) - scale * C * (scale * o)) with (scale * scale * M) by (unfold M; ring). rewrite Z. ring.
    Qed.
    Lemma normal2 : coupled -> exists a b c', abc_two RF k0 ci co k = (a, b, c') /\
      a * C + b * x k + c' * x (S k) = B /\ a * x k + b * p + c' * o = y k /\ a * x (S k) + b * o + c' * q = y (S k).
    Proof.
      intro Cp. apply coupled_M in Cp. pose proof C_pos as Cpos. pose proof J_neg as Jn. pose proof det2 as D2.
      unfold abc_two. unfold k0, ci, co. rewrite (val_B n c d n1 PD scale use x Sc X), (val_C n c d n1 PD scale use x Sc X), !(val_dC n c d n1 PD scale use x Sc X), !(val_dB n c d n1 PD scale use y Sc Y), !diag_e, off_e, Uk, Uk1 by (lia || assumption).
      fold B C. fold p q o. toF.
      set (U := B * x k - y k * C). set (Wd := B * x (S k) - y (S k) * C).
      replace (scale * x k * (scale * x k) - scale * C * (scale * p)) with (scale * scale * J) by (unfold J; ring).
      replace (scale * x k * (scale * x (S k)) - scale * C * (scale * o)) with (scale * scale * M) by (unfold M; ring).
      replace (scale * B * (scale * x k) - scale * y k * (scale * C)) with (scale * scale * U) by (unfold U; ring).
      replace (scale * B * (scale * x (S k)) - scale * y (S k) * (scale * C)) with (scale * scale * Wd) by (unfold Wd; ring).
      replace (scale * x (S k) * (scale * x (S k)) - scale * C * (scale * q)) with (scale * scale * Nn) by (unfold Nn; ring).
      set (cc := (scale * scale * U / (scale * scale * J) - scale * scale * Wd / (scale * scale * M)) / (scale * scale * M / (scale * scale * J) - scale * scale * Nn / (scale * scale * M))).
      assert (Ecc : cc = (U * M - Wd * J) / (M * M - J * Nn)).
      { unfold cc. field. repeat split; try lra; intro Z; apply D2; lra. }
      set (bb := (scale * scale * U - cc * (scale * scale * M)) / (scale * scale * J)).
      assert (Ebb : bb = (U - cc * M) / J) by (unfold bb; field; lra).
      set (aa := (scale * B - bb * (scale * x k) - cc * (scale * x (S k))) / (scale * C)).
      assert (Eaa : aa = (B - bb * x k - cc * x (S k)) / C) by (unfold aa; field; lra).
      exists aa, bb, cc. split; [reflexivity|].
      assert (L1 : bb * J + cc * M = U) by (rewrite Ebb; field; lra).
      assert (L2 : bb * M + cc * Nn = Wd).
      { rewrite Ebb, Ecc. field. repeat split; try lra; intro Z; apply D2; lra. }
      split; [rewrite Eaa; field; lra|]. split.
      - apply (Rmult_eq_reg_l C); [|lra]. transitivity (B * x k - (bb * J + cc * M)); [rewrite Eaa; unfold J, M; field; lra|]. rewrite L1. unfold U. ring.
      - apply (Rmult_eq_reg_l C); [|lra]. transitivity (B * x (S k) - (bb * M + cc * Nn)); [rewrite Eaa; unfold M, Nn; field; lra|]. rewrite L2. unfold Wd. ring.
    Qed.
    Lemma two_omit_refit s' : coupled -> 0 < s' -> let r := fit_ramp RF n c s' d use2 in
      fst (fst (abc_two RF k0 ci co k)) = f_rate RF r /\ chisq_two RF k0 ci co scale k = f_chisq RF r.
    Proof.
      intros Cp S' r. destruct (normal2 Cp) as [a [b [c' [E [N1 [N2 N3]]]]]].
      set (w := fun i => y i + - a * x i + - b * e k i + - c' * e (S k) i).
      assert (W : solves n use V w (fun i => d i + - a * 1 + - b * delta k i + - c' * delta (S k) i)).
      { apply solves_comb; [|apply e_solves; [lia|exact Uk1]]. apply solves_comb; [|apply e_solves; [lia|exact Uk]]. apply solves_comb; assumption. }
      assert (Z1 : w k = 0) by (unfold w; rewrite (pair_e_e (S k) k) by (lia || assumption); fold p o; lra).
      assert (Z2 : w (S k) = 0) by (unfold w; fold q o; lra).
      assert (D : solves n use2 V w (fun i => d i - a)).
      { unfold use2. apply (drop_index (without use k) (S k) w _ c' Z2). apply (drop_index use k w _ b Z1).
        apply (solves_rhs _ _ _ _ (fun i => d i + - a * 1 + - b * delta k i + - c' * delta (S k) i)); [intros; ring|exact W]. }
      assert (S0 : Su n use2 w = 0).
      { unfold use2. rewrite !Su_without by assumption. unfold w. rewrite !Su_plus, !Su_scal, pair_y, !pair_e_x by (lia || assumption). fold C. lra. }
      destruct (residual n c d n1 PD s' use2 a w S' More D S0) as [E1 E2]. split.
      - rewrite E. cbn [fst]. symmetry. exact E1.
      - fold r in E2. rewrite E2. unfold use2. rewrite !Su_without by (rewrite ?Z1, ?Z2; ring). unfold chisq_two. rewrite E.
        unfold k0, ci, co. rewrite (val_A n c d n1 PD scale use y Sc Y), (val_B n c d n1 PD scale use x Sc X), (val_C n c d n1 PD scale use x Sc X), !(val_dC n c d n1 PD scale use x Sc X), !(val_dB n c d n1 PD scale use y Sc Y), !diag_e, off_e, Uk, Uk1 by (lia || assumption).
        fold B C. fold p q o. unfold w. rewrite (Su_ext n use (fun i => d i * (y i + - a * x i + - b * e k i + - c' * e (S k) i)) (fun i => d i * y i + - a * (d i * x i) + - b * (d i * e k i) + - c' * (d i * e (S k) i))) by (intros; ring).
        rewrite !Su_plus, !Su_scal, !pair_e_y by (lia || assumption). fold B. toF. eqR.
        transitivity (Su n use (fun i => d i * y i) - 2 * (a * B + b * y k + c' * y (S k)) + a * (a * C + b * x k + c' * x (S k)) + b * (a * x k + b * p + c' * o) + c' * (a * x (S k) + b * o + c' * q)); [field; lra|].
        rewrite N1, N2, N3. ring.
    Qed.
  End Two.
End Omit.
