(** The likelihood fit in exact arithmetic with a missing value (RN) is the fit over the reals (RF) as long as nothing is divided by zero. *)
From Verif Require Import Base RBase RNBase LikelyModel LikelySpec LikelyProofs LikelyFit LikelyNoise LikelyImage LikelyProps.
From Coq Require Import Reals Lra Lia FunctionalExtensionality.
Local Open Scope R_scope.

Lemma n_add a b : fadd RN (Some a : RN) (Some b : RN) = (Some (a + b) : RN). Proof. reflexivity. Qed.
Lemma n_sub a b : fsub RN (Some a : RN) (Some b : RN) = (Some (a - b) : RN). Proof. reflexivity. Qed.
Lemma n_mul a b : fmul RN (Some a : RN) (Some b : RN) = (Some (a * b) : RN). Proof. reflexivity. Qed.
Lemma n_div a b : b <> 0 -> fdiv RN (Some a : RN) (Some b : RN) = (Some (a / b) : RN).
Proof. intro H. change (fdiv RN (Some a : RN) (Some b : RN)) with (if Reqb b 0 then None else Some (a / b)). destruct (Reqb b 0) eqn:E; [apply Reqb_spec in E; contradiction|reflexivity]. Qed.
Lemma n_b2f b : b2f RN b = (Some (b2f RF b) : RN). Proof. destruct b; reflexivity. Qed.
Lemma n_sgn i : sgn RN i = (Some (sgn RF i) : RN). Proof. unfold sgn. destruct (Nat.even i); reflexivity. Qed.
Lemma n_lsum (f : nat -> RN) (g : nat -> R) n : (forall i, (i < n)%nat -> f i = (Some (g i) : RN)) -> lsum RN f n = (Some (lsum RF g n) : RN).
Proof.
  intro H. unfold lsum. assert (G : forall l x, (forall i, In i l -> (i < n)%nat) -> fold_left (fadd RN) (map f l) (Some x : RN) = (Some (fold_left (fadd RF) (map g l) x) : RN)).
  { induction l as [|i l IH]; intros x I; [reflexivity|]. cbn [map fold_left]. rewrite H by (apply I; left; reflexivity). rewrite n_add. apply IH. intros j J. apply I. right. exact J. }
  apply G. intros i I. apply in_seq in I. lia.
Qed.
Section Gen.
  Variable fo : FOps. Variables (n : nat) (a b : nat -> fo).
  Lemma g_thetas i : thetas fo a b i = (theta fo a b i, theta fo a b (S i)).
  Proof. unfold theta. cbn [thetas]. destruct (thetas fo a b i) as [x y]. reflexivity. Qed.
  Lemma g_theta i : theta fo a b (S (S i)) = fsub fo (fmul fo (a (S i)) (theta fo a b (S i))) (fmul fo (fmul fo (b i) (b i)) (theta fo a b i)).
  Proof. unfold theta at 1. cbn [thetas]. rewrite g_thetas. reflexivity. Qed.
  Definition ph r := fst (phis fo n a b r).
  Lemma g_phis r : phis fo n a b r = (ph r, ph (S r)).
  Proof. unfold ph. cbn [phis]. destruct (phis fo n a b r) as [x y]. reflexivity. Qed.
  Lemma g_phi r : ph (S (S r)) = fsub fo (fmul fo (a (n - 2 - r)%nat) (ph (S r))) (fmul fo (fmul fo (b (n - 2 - r)%nat) (b (n - 2 - r)%nat)) (ph r)).
  Proof. unfold ph at 1. cbn [phis]. rewrite g_phis. reflexivity. Qed.
End Gen.

Section Tri.
  Variables (n : nat) (a b : nat -> R) (a' b' : nat -> RN).
  Hypothesis n2 : (2 <= n)%nat.
  Hypothesis HA : forall i, (i < n)%nat -> a' i = (Some (a i) : RN).
  Hypothesis HB : forall i, (S i < n)%nat -> b' i = (Some (b i) : RN).
  Notation lift2 x y := (x = (Some y : RN)).
  Lemma l_theta i : (i <= n)%nat -> lift2 (theta RN a' b' i) (theta RF a b i).
  Proof.
    assert (P : forall i, (i < n)%nat -> lift2 (theta RN a' b' i) (theta RF a b i) /\ lift2 (theta RN a' b' (S i)) (theta RF a b (S i))).
    { induction i0 as [|j IH]; intro H.
      - split; [reflexivity|]. exact (HA 0%nat H).
      - destruct (IH ltac:(lia)) as [A B]. split; [exact B|]. rewrite (g_theta RN), (g_theta RF), HA, HB, A, B by lia. reflexivity. }
    intro H. destruct i as [|i]; [reflexivity|]. apply P. lia.
  Qed.
  Lemma l_ph r : (r <= n)%nat -> lift2 (ph RN n a' b' r) (ph RF n a b r).
  Proof.
    assert (P : forall r, (r < n)%nat -> lift2 (ph RN n a' b' r) (ph RF n a b r) /\ lift2 (ph RN n a' b' (S r)) (ph RF n a b (S r))).
    { induction r0 as [|j IH]; intro H.
      - split; [reflexivity|]. exact (HA (n - 1)%nat ltac:(lia)).
      - destruct (IH ltac:(lia)) as [A B]. split; [exact B|]. rewrite (g_phi RN), (g_phi RF), HA, HB, A, B by lia. reflexivity. }
    intro H. destruct r as [|r]; [reflexivity|]. apply P. lia.
  Qed.
  Lemma l_phi i : lift2 (phi RN n a' b' i) (phi RF n a b i).
  Proof. exact (l_ph (n - i)%nat ltac:(lia)). Qed.
  Lemma l_Theta i : (i < n)%nat -> lift2 (Theta RN a' b' i) (Theta RF a b i).
  Proof. induction i as [|i IH]; intro H; [reflexivity|]. cbn [Theta]. rewrite IH, HB, n_sgn, l_theta by lia. reflexivity. Qed.
  Lemma l_Phi i : (i < n)%nat -> lift2 (Phi RN n a' b' i) (Phi RF n a b i).
  Proof.
    intro H. unfold Phi. assert (P : forall r, (r < n)%nat -> lift2 (Phir RN n a' b' r) (Phir RF n a b r)); [|apply P; lia].
    induction r as [|r IH]; intro G; [reflexivity|]. cbn [Phir]. rewrite IH, HB, n_sgn, l_phi by lia. reflexivity.
  Qed.
  Section Data.
    Variables (dm : nat -> R) (dm' : nat -> RN).
    Hypothesis HD : forall i, (i < n)%nat -> lift2 (dm' i) (dm i).
    Lemma l_ThetaD i : (i <= n)%nat -> lift2 (ThetaD RN a' b' dm' i) (ThetaD RF a b dm i).
    Proof.
      assert (P : forall i, (i < n)%nat -> lift2 (ThetaD RN a' b' dm' (S i)) (ThetaD RF a b dm (S i))).
      { induction i0 as [|j IH]; intro H.
        - cbn [ThetaD]. rewrite HD by lia. reflexivity.
        - change (ThetaD RN a' b' dm' (S (S j))) with (fadd RN (fmul RN (b' j) (ThetaD RN a' b' dm' (S j))) (fmul RN (fmul RN (sgn RN (S j)) (dm' (S j))) (theta RN a' b' (S j)))).
          rewrite IH, HB, HD, n_sgn, l_theta by lia. reflexivity. }
      intro H. destruct i as [|i]; [reflexivity|]. apply P. lia.
    Qed.
    Lemma l_PhiD i : (i < n)%nat -> lift2 (PhiD RN n a' b' dm' i) (PhiD RF n a b dm i).
    Proof.
      intro H. unfold PhiD. assert (P : forall r, (r < n)%nat -> lift2 (PhiDr RN n a' b' dm' r) (PhiDr RF n a b dm r)); [|apply P; lia].
      induction r as [|r IH]; intro G; [reflexivity|]. cbn [PhiDr]. rewrite IH, HB, HD, n_sgn, l_phi by lia. reflexivity.
    Qed.
    Variable use : nat -> bool.
    Hypothesis det : theta RF a b n <> 0.
    Let k := matrices RF n a b dm use. Let k' := matrices RN n a' b' dm' use.
    Lemma l_dC i : (i < n)%nat -> lift2 (k_dC RN k' i) (k_dC RF k i).
    Proof. intro H. subst k k'. unfold matrices. cbn [k_dC]. rewrite !l_theta, l_phi, l_Theta, l_Phi, n_sgn, n_b2f, n_div by (lia || exact det). reflexivity. Qed.
    Lemma l_dB i : (i < n)%nat -> lift2 (k_dB RN k' i) (k_dB RF k i).
    Proof. intro H. subst k k'. unfold matrices. cbn [k_dB]. rewrite !l_theta, l_phi, l_ThetaD, l_PhiD, n_sgn, n_div by (lia || exact det). reflexivity. Qed.
    Lemma l_C : lift2 (k_C RN k') (k_C RF k).
    Proof. apply n_lsum. exact l_dC. Qed.
    Lemma l_B : lift2 (k_B RN k') (k_B RF k).
    Proof. apply n_lsum. intros i Hi. rewrite HD by exact Hi. pose proof (l_dC i Hi) as E. subst k k'. unfold matrices in E. cbn [k_dC] in E. rewrite E. reflexivity. Qed.
    Lemma l_A : lift2 (k_A RN k') (k_A RF k).
    Proof.
      subst k k'. unfold matrices. cbn [k_A].
      rewrite (n_lsum _ (fun i => fmul RF (fmul RF (fmul RF (fdiv RF (fmul RF (dm i) (sgn RF i)) (theta RF a b n)) (match i with 0 => fone RF | S k => b k end)) (phi RF n a b (S i))) (ThetaD RF a b dm i))).
      - rewrite (n_lsum _ (fun i => fdiv RF (fmul RF (fmul RF (fmul RF (dm i) (dm i)) (theta RF a b i)) (phi RF n a b (S i))) (theta RF a b n))); [reflexivity|].
        intros i Hi. rewrite HD, !l_theta, l_phi by lia. rewrite !n_mul, n_div by exact det. reflexivity.
      - intros i Hi. rewrite HD, n_sgn, l_theta, l_phi, l_ThetaD by lia. rewrite n_mul, n_div by exact det. destruct i as [|i]; [reflexivity|]. rewrite HB by lia. reflexivity.
    Qed.
    Lemma l_ci i : (i < n)%nat -> lift2 (cinv_diag RN n a' b' use i) (cinv_diag RF n a b use i).
    Proof. intro H. unfold cinv_diag. rewrite !l_theta, l_phi, n_mul, n_div, n_b2f by (lia || exact det). reflexivity. Qed.
    Lemma l_co i : (S i < n)%nat -> lift2 (cinv_off RN n a' b' i) (cinv_off RF n a b i).
    Proof.
      intro H. unfold cinv_off. rewrite !l_theta, l_phi, HB by lia. unfold lneg. change (fsub RN (fzero RN) (Some (b i) : RN)) with (Some (0 - b i) : RN).
      rewrite !n_mul, n_div by exact det. reflexivity.
    Qed.
  End Data.
End Tri.

Section Scale.
  Variables (n : nat) (a b : nat -> R) (a' b' : nat -> RN) (root : R -> nat -> R) (root' : RN -> nat -> RN).
  Hypothesis n2 : (2 <= n)%nat.
  Hypothesis HA : forall i, (i < n)%nat -> a' i = (Some (a i) : RN).
  Hypothesis HB : forall i, (S i < n)%nat -> b' i = (Some (b i) : RN).
  Hypothesis TH : forall i, (i <= n)%nat -> 0 < theta RF a b i.
  Hypothesis RT : forall x i, 0 < x -> (1 <= i)%nat -> 0 < root x i.
  Hypothesis HR : forall x i, 0 < x -> (1 <= i)%nat -> root' (Some x : RN) i = (Some (root x i) : RN).
  Definition lift3 (st : R * R * R) : RN * RN * RN := let '(t1, t0, s) := st in (Some t1 : RN, Some t0 : RN, Some s : RN).
  Lemma snd_lift3 st : snd (lift3 st) = (Some (snd st) : RN). Proof. destruct st as [[? ?] ?]. reflexivity. Qed.
  Lemma l_step i st : (2 <= i)%nat -> (i <= n)%nat -> scale_inv a b root i st -> scale_step RN root' n a' b' (lift3 st) i = lift3 (scale_step RF root n a b st i).
  Proof.
    intros Hi Hn. destruct st as [[t1 t0] s]. intros [Sp [g [Gp [E1 [E0 _]]]]].
    assert (P : forall k, 0 < s ^ k) by (intro; apply pow_lt, Sp).
    assert (T : a (i - 1)%nat / s * t1 - b (i - 2)%nat * b (i - 2)%nat / (s * s) * t0 = theta RF a b i * / s ^ i * g).
    { rewrite E1, E0. destruct i as [|[|k]]; [lia|lia|]. rewrite theta_S. replace (S (S k) - 1)%nat with (S k) by lia. replace (S (S k) - 2)%nat with k by lia.
      pose proof (P k). cbn [pow]. field. split; lra. }
    set (t := theta RF a b i * / s ^ i * g) in *.
    assert (Tp : 0 < t) by (unfold t; apply Rmult_lt_0_compat; [apply Rmult_lt_0_compat; [apply TH, Hn|apply Rinv_0_lt_compat, P]|exact Gp]).
    unfold scale_step, lift3. rewrite HA, HB by lia. assert (s <> 0) by lra. assert (s * s <> 0) by (apply Rmult_integral_contrapositive_currified; assumption). rewrite !n_mul, !n_div by assumption. rewrite !n_mul, n_sub.
    toF. rewrite T. destruct (Nat.eqb (Nat.modulo i 10) 0 || Nat.eqb i n); [|reflexivity].
    rewrite HR by (exact Tp || lia). pose proof (RT t i Tp ltac:(lia)) as Fp.
    assert (root t i <> 0) by (apply Rgt_not_eq; exact Fp). assert (t / root t i <> 0) by (apply Rgt_not_eq, Rdiv_lt_0_compat; assumption). rewrite !n_div, n_mul by assumption. reflexivity.
  Qed.
  Lemma l_scale : scale_of RN root' n a' b' = (Some (scale_of RF root n a b) : RN).
  Proof.
    unfold scale_of. assert (P : forall m, (m <= n - 1)%nat -> fold_left (scale_step RN root' n a' b') (seq 2 m) (a' 0%nat, fone RN, fone RN) = lift3 (fold_left (scale_step RF root n a b) (seq 2 m) (a 0%nat, fone RF, fone RF))).
    { induction m as [|m IH]; intro H; [cbn [seq fold_left lift3]; rewrite HA by lia; reflexivity|].
      rewrite !seq_S, !fold_left_app. cbn [fold_left]. rewrite IH by lia. apply l_step; [lia|lia|]. apply (scale_fold n a b root TH RT). lia. }
    rewrite P by lia. apply snd_lift3.
  Qed.
End Scale.

(** ** The read-time table *)
Definition some_times (times : list (list R)) : list (list RN) := map (map (fun t => Some t : RN)) times.
Lemma some_len times : length (some_times times) = length times. Proof. apply map_length. Qed.
Lemma some_nth times i : nth i (some_times times) [] = map (fun t => Some t : RN) (nth i times []).
Proof. unfold some_times. rewrite <- (map_nth (map (fun t => Some t : RN))). reflexivity. Qed.
Lemma n_suml l : suml RN (map (fun t => Some t : RN) l) = (Some (suml RF l) : RN).
Proof.
  unfold suml. change (fzero RN) with (Some 0 : RN). change (fzero RF) with 0. generalize 0. induction l as [|x l IH]; intro s; [reflexivity|]. cbn [map fold_left]. rewrite n_add. apply IH.
Qed.
Lemma n_lnat k : lnat RN k = (Some (lnat RF k) : RN). Proof. reflexivity. Qed.
Lemma lnat_ne k : (1 <= k)%nat -> lnat RF k <> 0. Proof. intro H. rewrite lnat_INR. apply not_0_INR. lia. Qed.
Lemma n_mean l : l <> [] -> mean_t RN (map (fun t => Some t : RN) l) = (Some (mean_t RF l) : RN).
Proof. intro H. unfold mean_t. rewrite n_suml, map_length, n_lnat, n_div; [reflexivity|]. apply lnat_ne. destruct l; [congruence|cbn; lia]. Qed.
Lemma n_tau l : l <> [] -> tau RN (map (fun t => Some t : RN) l) = (Some (tau RF l) : RN).
Proof.
  intro H. unfold tau. rewrite map_length.
  assert (E : forall m k, map (fun kt : nat * RN => fmul RN (fofZ RN (2 * Z.of_nat m + 1 - 2 * (Z.of_nat (fst kt) + 1))) (snd kt)) (combine (seq k (length l)) (map (fun t => Some t : RN) l))
    = map (fun t => Some t : RN) (map (fun kt : nat * R => fmul RF (fofZ RF (2 * Z.of_nat m + 1 - 2 * (Z.of_nat (fst kt) + 1))) (snd kt)) (combine (seq k (length l)) l))).
  { intro m. clear H. induction l as [|x l IH]; intro k; [reflexivity|]. cbn [length seq map combine]. rewrite IH. reflexivity. }
  rewrite E, n_suml, n_lnat, n_div; [reflexivity|]. apply lnat_ne. destruct l; [congruence|cbn; lia].
Qed.
Section Table.
  Variable times : list (list R).
  Hypothesis G : good_times times.
  Let c := mk_covar RF times. Let c' := mk_covar RN (some_times times).
  Lemma l_mean i : (i < length times)%nat -> mean_t RN (nth i (some_times times) []) = (Some (mean_t RF (nth i times [])) : RN).
  Proof. intro H. rewrite some_nth. apply n_mean, good_ne; assumption. Qed.
  Lemma l_tau i : (i < length times)%nat -> tau RN (nth i (some_times times) []) = (Some (tau RF (nth i times [])) : RN).
  Proof. intro H. rewrite some_nth. apply n_tau, good_ne; assumption. Qed.
  Lemma l_dt i : (S i < length times)%nat -> c_dt RN c' i = (Some (c_dt RF c i) : RN).
  Proof. intro H. subst c c'. unfold mk_covar. cbn [c_dt]. rewrite !l_mean by lia. reflexivity. Qed.
  Lemma dt_ne i : (S i < length times)%nat -> c_dt RF c i <> 0.
  Proof. intro H. pose proof (good_dt times i G H) as D. subst c. unfold mk_covar. cbn [c_dt]. rewrite !mean_Rmean. apply Rgt_not_eq. exact D. Qed.
  Lemma l_n i : (i < length times)%nat -> lnat RN (length (nth i (some_times times) [])) = (Some (lnat RF (length (nth i times []))) : RN) /\ lnat RF (length (nth i times [])) <> 0.
  Proof. intro H. rewrite some_nth, map_length. split; [reflexivity|]. apply lnat_ne. pose proof (good_ne times i G H). destruct (nth i times []); [congruence|cbn; lia]. Qed.
  Lemma l_ar i : (S i < length times)%nat -> c_ar RN c' i = (Some (c_ar RF c i) : RN).
  Proof.
    intro H. pose proof (l_dt i H) as D. pose proof (dt_ne i H) as N. subst c c'. unfold mk_covar in *. cbn [c_ar c_dt] in *. rewrite D.
    destruct (l_n i ltac:(lia)) as [-> N1], (l_n (S i) H) as [-> N2]. change (fone RN) with (Some 1 : RN). rewrite n_mul, !n_div, n_add, n_div; [reflexivity|apply Rmult_integral_contrapositive_currified; exact N|exact N2|exact N1].
  Qed.
  Lemma l_br i : (S (S i) < length times)%nat -> c_br RN c' i = (Some (c_br RF c i) : RN).
  Proof.
    intro H. pose proof (l_dt i ltac:(lia)) as D. pose proof (dt_ne i ltac:(lia)) as N. pose proof (l_dt (S i) H) as D'. pose proof (dt_ne (S i) H) as N'. subst c c'. unfold mk_covar in *. cbn [c_br c_dt] in *. rewrite D, D'.
    destruct (l_n (S i) ltac:(lia)) as [-> N1]. rewrite !n_mul. change (fofZ RN (-1)) with (Some (-1) : RN). rewrite n_div; [reflexivity|]. repeat apply Rmult_integral_contrapositive_currified; assumption.
  Qed.
  Lemma l_ap i : (S i < length times)%nat -> c_ap RN c' i = (Some (c_ap RF c i) : RN).
  Proof.
    intro H. pose proof (l_dt i H) as D. pose proof (dt_ne i H) as N. subst c c'. unfold mk_covar in *. cbn [c_ap c_dt] in *. rewrite D, !l_tau, l_mean by lia.
    rewrite !n_mul, n_add. change (fofZ RN 2) with (Some 2 : RN). rewrite n_mul, n_sub, n_div; [reflexivity|apply Rmult_integral_contrapositive_currified; exact N].
  Qed.
  Lemma l_bp i : (S (S i) < length times)%nat -> c_bp RN c' i = (Some (c_bp RF c i) : RN).
  Proof.
    intro H. pose proof (l_dt i ltac:(lia)) as D. pose proof (dt_ne i ltac:(lia)) as N. pose proof (l_dt (S i) H) as D'. pose proof (dt_ne (S i) H) as N'. subst c c'. unfold mk_covar in *. cbn [c_bp c_dt] in *. rewrite D, D', l_tau, l_mean by lia.
    rewrite n_mul, n_sub, n_div; [reflexivity|apply Rmult_integral_contrapositive_currified; assumption].
  Qed.
  Variables rate gain rn : R.
  Hypothesis g0 : gain <> 0.
  Let p := pixel_cov RF c rate gain rn. Let p' := pixel_cov RN c' (Some rate : RN) (Some gain : RN) (Some rn : RN).
  Lemma l_palpha i : (S i < length times)%nat -> p_alpha RN p' i = (Some (p_alpha RF p i) : RN).
  Proof. intro H. subst p p'. unfold p_alpha, pixel_cov. cbn [p_ap p_ar]. rewrite l_ap, l_ar, n_div by (exact H || exact g0). reflexivity. Qed.
  Lemma l_pbeta i : (S (S i) < length times)%nat -> p_beta RN p' i = (Some (p_beta RF p i) : RN).
  Proof. intro H. subst p p'. unfold p_beta, pixel_cov. cbn [p_bp p_br]. rewrite l_bp, l_br, n_div by (exact H || exact g0). reflexivity. Qed.
End Table.
