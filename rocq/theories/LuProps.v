(** C125: the whole likelihood fit in other units of counts and time. *)
From Coq Require Import Reals Lra FunctionalExtensionality.
From Verif Require Import Base BaseLemmas RBase RNBase JumpModel SnowModel LikelyModel LikelySpec LikelyProofs LikelyMask LikelyFit LikelyNoise LikelyImage LikelyProps OlsModel OlsPyModel DrvModel LdModel LrLift LdProps LrProps UnProps.
Local Open Scope R_scope.

(** ** Specification *)
(** counts in units 1/k as large, times in units 1/t as large (both positive): data, ZEROFRAME and read noise are counts, the gain is in
    electrons per count, the dark current in counts per time *)
Definition likely_units (k t : R) (L : likely_in RN) : likely_in RN :=
  {| l_nints := l_nints L; l_ng := l_ng L; l_nr := l_nr L; l_nc := l_nc L; l_data := fun i g r c => sc k (l_data L i g r c); l_gdq := l_gdq L; l_pdq := l_pdq L;
     l_zf := match l_zf L with Some z => Some (fun i r c => sc k (z i r c)) | None => None end; l_nframes := l_nframes L; l_times := map (map (sc t)) (l_times L);
     l_rn := fun r c => sc k (l_rn L r c); l_gain := fun r c => sc (/ k) (l_gain L r c); l_dark := fun r c => sc (k / t) (l_dark L r c);
     l_h := l_h L; l_flags := l_flags L; l_snow := l_snow L |}.
(** rates and errors scale by [s], variances by its square; DQ words and chi-squared stay *)
Definition lint_units (s : R) (x : lint RN) : lint RN :=
  {| n_rate := sc s (n_rate RN x); n_dq := n_dq RN x; n_vp := sc (s * s) (n_vp RN x); n_vr := sc (s * s) (n_vr RN x); n_err := sc s (n_err RN x); n_chisq := n_chisq RN x |}.
(** what the external functions have to do: the median of scaled numbers is the scaled median, the i-th root of a^i x is a times that of x,
    storing a number does not depend on the unit *)
Definition med_scales (m : list RN -> RN) : Prop := forall a l, 0 < a -> m (map (sc a) l) = sc a (m l).
Definition root_scales (root : RN -> nat -> RN) : Prop := forall a x i, 0 < a -> (1 <= i)%nat -> root (sc (a ^ i) x) i = sc a (root x i).
Definition store_scales (f : RN -> RN) : Prop := forall a x, 0 < a -> f (sc a x) = sc a (f x).

(** ** Sums, and equality as the factor 1 *)
Lemma sc_1 x : sc 1 x = x. Proof. symmetry. apply rel_id. Qed.
Lemma rel1 x x' : rel 1 x x' -> x' = x. Proof. intro H. rewrite <- (sc_1 x). exact H. Qed.
Lemma rel_is a b x x' : rel a x x' -> a = b -> x' = sc b x. Proof. intros H <-. exact H. Qed.
Lemma rel_same a x x' : rel a x x' -> a = 1 -> x' = x. Proof. intros H E. apply rel1. subst a. exact H. Qed.
Lemma rel_b2f a b x x' : rel a x x' -> rel a (fmul RN x (b2f RN b)) (fmul RN x' (b2f RN b)).
Proof. intro H. eapply rel_eq; [apply (rel_mul a 1); [exact H|apply rel_id]|ring]. Qed.
Lemma rel_mul1 a x x' y : rel a x x' -> rel a (fmul RN x y) (fmul RN x' y).
Proof. intro H. eapply rel_eq; [apply (rel_mul a 1); [exact H|apply rel_id]|ring]. Qed.
Lemma rel_1mul a x x' y : rel a x x' -> rel a (fmul RN y x) (fmul RN y x').
Proof. intro H. eapply rel_eq; [apply (rel_mul 1 a); [apply rel_id|exact H]|ring]. Qed.
Lemma rel_div1 a x x' y : rel a x x' -> rel a (fdiv RN x y) (fdiv RN x' y).
Proof. intro H. eapply rel_eq; [apply (rel_div a 1); [lra|exact H|apply rel_id]|field]. Qed.
Lemma rel_lsum a (f f' : nat -> RN) n : (forall i, rel a (f i) (f' i)) -> rel a (lsum RN f n) (lsum RN f' n).
Proof. intro H. unfold lsum. apply rel_fold; [apply Forall2_map_in; intros; apply H|apply rel_0]. Qed.
Lemma rel_neg a x x' : rel a x x' -> rel a (lneg RN x) (lneg RN x').
Proof. intro H. apply rel_sub; [apply rel_0|exact H]. Qed.
Lemma Forall2_sc a l : Forall2 (rel a) l (map (sc a) l).
Proof. induction l; constructor; [reflexivity|assumption]. Qed.
Lemma rel_suml a l : rel a (suml RN l) (suml RN (map (sc a) l)).
Proof. unfold suml. apply rel_fold; [apply Forall2_sc|apply rel_0]. Qed.

(** ** The noise table *)
Section Table.
  Variable t : R. Hypothesis T : 0 < t.
  Variable times : list (list RN).
  Notation times' := (map (map (sc t)) times).
  Lemma g_nth i : nth i times' [] = map (sc t) (nth i times []). Proof. apply (map_nth (map (sc t)) times []). Qed.
  Lemma mean_rel l : rel t (mean_t RN l) (mean_t RN (map (sc t) l)).
  Proof. unfold mean_t. rewrite map_length. apply rel_div1, rel_suml. Qed.
  Lemma tau_rel l : rel t (tau RN l) (tau RN (map (sc t) l)).
  Proof.
    unfold tau. rewrite map_length. apply rel_div1. unfold suml. apply rel_fold; [|apply rel_0].
    generalize (length l) at 1 3. intro N. generalize 0%nat as o.
    induction l as [|x l IH]; intro o; cbn [length seq combine map]; constructor; [apply rel_1mul; reflexivity|apply IH].
  Qed.
  Notation c := (mk_covar RN times). Notation c' := (mk_covar RN times').
  Lemma dt_rel i : rel t (c_dt RN c i) (c_dt RN c' i).
  Proof. cbn [mk_covar c_dt]. rewrite !g_nth. apply rel_sub; apply mean_rel. Qed.
  Lemma n_same i : c_n RN c' i = c_n RN c i.
  Proof. cbn [mk_covar c_n]. rewrite g_nth. apply map_length. Qed.
  Lemma ar_rel i : rel (1 / (t * t)) (c_ar RN c i) (c_ar RN c' i).
  Proof.
    pose proof (dt_rel i) as D. cbn [mk_covar c_dt] in D. cbn [mk_covar c_ar]. rewrite !g_nth, !map_length in *. apply rel_div; [nra|apply rel_id|apply rel_mul; exact D].
  Qed.
  Lemma br_rel i : rel (1 / (t * t)) (c_br RN c i) (c_br RN c' i).
  Proof.
    pose proof (dt_rel i) as D. pose proof (dt_rel (S i)) as D2. cbn [mk_covar c_dt] in D, D2. cbn [mk_covar c_br]. rewrite !g_nth, !map_length in *.
    apply rel_div; [nra|apply rel_id|apply rel_mul; [apply rel_1mul; exact D2|exact D]].
  Qed.
  Lemma ap_rel i : rel (t / (t * t)) (c_ap RN c i) (c_ap RN c' i).
  Proof.
    pose proof (dt_rel i) as D. cbn [mk_covar c_dt] in D. cbn [mk_covar c_ap]. rewrite !g_nth, ?map_length in *.
    apply rel_div; [nra| |apply rel_mul; exact D]. apply rel_sub; [apply rel_add; apply tau_rel|apply rel_1mul, mean_rel].
  Qed.
  Lemma bp_rel i : rel (t / (t * t)) (c_bp RN c i) (c_bp RN c' i).
  Proof.
    pose proof (dt_rel i) as D. pose proof (dt_rel (S i)) as D2. cbn [mk_covar c_dt] in D, D2. cbn [mk_covar c_bp]. rewrite !g_nth, ?map_length in *.
    apply rel_div; [nra| |apply rel_mul; [exact D2|exact D]]. apply rel_sub; [apply mean_rel|apply tau_rel].
  Qed.
End Table.

(** ** The scale *)
Section Scale.
  Variable root : RN -> nat -> RN. Hypothesis HR : root_scales root.
  Variables (n : nat) (al be : nat -> RN) (u : R).
  Hypothesis U : 0 < u.
  Notation al' := (fun i => sc u (al i)). Notation be' := (fun i => sc u (be i)).
  Definition before (i : nat) (st st' : RN * RN * RN) : Prop :=
    let '(a, b, s) := st in let '(a', b', s') := st' in rel (u ^ (i - 1)) a a' /\ rel (u ^ (i - 2)) b b' /\ s' = s /\ s = Some 1.
  Definition scaled (st st' : RN * RN * RN) : Prop :=
    let '(a, b, s) := st in let '(a', b', s') := st' in a' = a /\ b' = b /\ rel u s s'.
  Lemma step_inv i st st' : (2 <= i)%nat -> before i st st' \/ scaled st st' ->
    let r := scale_step RN root n al be st i in let r' := scale_step RN root n al' be' st' i in
    scaled r r' \/ (before (S i) r r' /\ i <> n).
  Proof.
    intros I H. destruct st as [[a b] s], st' as [[a' b'] s']. cbv zeta. unfold scale_step.
    set (x := fsub RN _ _). set (x' := fsub RN (fmul RN (fdiv RN (sc u _) s') a') _).
    destruct i as [|[|j]]; try lia. replace (S (S j) - 1)%nat with (S j) in * by lia. replace (S (S j) - 2)%nat with j in * by lia.
    assert (P : forall m, 0 < u ^ m) by (intro; apply pow_lt, U).
    destruct H as [H|H].
    - unfold before in H. replace (S (S j) - 1)%nat with (S j) in * by lia. replace (S (S j) - 2)%nat with j in * by lia. destruct H as (A & B & -> & S1).
      assert (X : rel (u ^ (S (S j))) x x').
      { unfold x, x'. apply rel_sub.
        - eapply rel_eq; [apply (rel_mul u (u ^ S j)); [apply rel_div1; reflexivity|exact A]|cbn; ring].
        - eapply rel_eq; [apply (rel_mul (u * u) (u ^ j)); [apply rel_div1, rel_mul; reflexivity|exact B]|cbn; ring]. }
      destruct (Nat.eqb (Nat.modulo (S (S j)) 10) 0 || Nat.eqb (S (S j)) n) eqn:E.
      + left. assert (F : rel u (root x (S (S j))) (root x' (S (S j)))) by (rewrite X; apply HR; [exact U|lia]).
        split; [reflexivity|]. split; [|apply rel_1mul, F].
        eapply rel_same; [apply (rel_div (u ^ S j) (u ^ S (S j) / u)); [|exact A|apply rel_div; [lra|exact X|exact F]]|].
        * cbn. pose proof (P j). assert (u <> 0) by lra. unfold Rdiv. apply Rmult_integral_contrapositive_currified; [|apply Rinv_neq_0_compat; assumption]. repeat apply Rmult_integral_contrapositive_currified; lra.
        * cbn. pose proof (P j). field. split; lra.
      + right. apply orb_false_iff in E as [_ E]. apply Nat.eqb_neq in E. split; [|exact E]. unfold before. replace (S (S (S j)) - 1)%nat with (S (S j)) by lia. replace (S (S (S j)) - 2)%nat with (S j) by lia.
        repeat split; assumption.
    - left. destruct H as (-> & -> & S1).
      assert (X : x' = x).
      { unfold x, x'. f_equal; f_equal.
        - eapply rel_same; [apply (rel_div u u); [lra|reflexivity|exact S1]|field; lra].
        - eapply rel_same; [apply (rel_div (u * u) (u * u)); [nra|apply rel_mul; reflexivity|apply rel_mul; exact S1]|field; lra]. }
      rewrite X. destruct (_ || _); cbn; repeat split; [|exact S1]. apply rel_mul1, S1.
  Qed.
  Lemma scale_rel : (2 <= n)%nat -> rel u (scale_of RN root n al be) (scale_of RN root n al' be').
  Proof.
    intro N. unfold scale_of.
    assert (G : forall m i st st', (2 <= i)%nat -> (1 <= m)%nat -> (i + m = S n)%nat -> before i st st' \/ scaled st st' ->
      scaled (fold_left (scale_step RN root n al be) (seq i m) st) (fold_left (scale_step RN root n al' be') (seq i m) st')).
    { induction m as [|m IH]; intros i st st' I M E H; [lia|]. cbn [seq fold_left]. pose proof (step_inv i st st' I H) as Q. cbv zeta in Q.
      destruct m as [|m].
      - cbn [seq fold_left]. destruct Q as [Q|[_ Q]]; [exact Q|lia].
      - apply IH; [lia..|]. destruct Q as [Q|[Q _]]; [right|left]; exact Q. }
    specialize (G (n - 1)%nat 2%nat (al 0%nat, fone RN, fone RN) (sc u (al 0%nat), fone RN, fone RN)).
    destruct (fold_left (scale_step RN root n al be) _ _) as [[a b] s], (fold_left (scale_step RN root n al' be') _ _) as [[a' b'] s'].
    cbn [snd]. apply G; try lia. left. cbn. repeat split; [unfold rel; f_equal; ring|apply rel_id].
  Qed.
End Scale.

(** ** The fit: the same scaled covariance, differences [s] times as large *)
Section Fit.
  Variables (n : nat) (al be : nat -> RN) (s : R) (dm : nat -> RN) (use : nat -> bool).
  Hypothesis S0 : 0 < s.
  Notation dm' := (fun i => sc s (dm i)).
  Lemma ThetaD_rel i : rel s (ThetaD RN al be dm i) (ThetaD RN al be dm' i).
  Proof.
    induction i as [|k IH]; [apply rel_0|]. cbn [ThetaD]. destruct k as [|j].
    - apply rel_mul1, rel_neg. reflexivity.
    - apply rel_add; [apply rel_1mul, IH|apply rel_mul1, rel_1mul; reflexivity].
  Qed.
  Lemma PhiD_rel i : rel s (PhiD RN n al be dm i) (PhiD RN n al be dm' i).
  Proof.
    unfold PhiD. generalize (n - 1 - i)%nat as r. induction r as [|k IH]; [apply rel_0|]. cbn [PhiDr].
    apply rel_mul1, rel_add; [exact IH|apply rel_mul1, rel_1mul; reflexivity].
  Qed.
  Notation m := (matrices RN n al be dm use). Notation m' := (matrices RN n al be dm' use).
  Lemma dC_same : k_dC RN m' = k_dC RN m. Proof. reflexivity. Qed.
  Lemma C_same : k_C RN m' = k_C RN m. Proof. reflexivity. Qed.
  Lemma dB_rel i : rel s (k_dB RN m i) (k_dB RN m' i).
  Proof. cbn [matrices k_dB]. apply rel_1mul, rel_add; [apply rel_1mul, ThetaD_rel|apply rel_1mul, PhiD_rel]. Qed.
  Lemma B_rel : rel s (k_B RN m) (k_B RN m').
  Proof. cbn [matrices k_B]. apply rel_lsum. intro i. apply rel_mul1. reflexivity. Qed.
  Lemma A_rel : rel (s * s) (k_A RN m) (k_A RN m').
  Proof.
    cbn [matrices k_A]. apply rel_add.
    - apply rel_1mul, rel_lsum. intro i. apply rel_mul; [|apply ThetaD_rel]. apply rel_mul1, rel_mul1, rel_div1, rel_mul1. reflexivity.
    - apply rel_lsum. intro i. apply rel_div1, rel_mul1, rel_mul1, rel_mul; reflexivity.
  Qed.
End Fit.

Definition mats_rel (s : R) (k k' : mats RN) : Prop :=
  k_dC RN k' = k_dC RN k /\ k_C RN k' = k_C RN k /\ (forall i, rel s (k_dB RN k i) (k_dB RN k' i)) /\ rel s (k_B RN k) (k_B RN k') /\ rel (s * s) (k_A RN k) (k_A RN k').
Definition cov_rel (u : R) (c c' : pixcov RN) : Prop :=
  (forall i, rel u (p_ap RN c i) (p_ap RN c' i)) /\ (forall i, rel u (p_ar RN c i) (p_ar RN c' i)) /\ (forall i, rel u (p_bp RN c i) (p_bp RN c' i)) /\ (forall i, rel u (p_br RN c i) (p_br RN c' i)).
Definition fit_rel (s : R) (f f' : lfit RN) : Prop :=
  rel s (f_rate RN f) (f_rate RN f') /\ f_chisq RN f' = f_chisq RN f /\ rel s (f_uncert RN f) (f_uncert RN f') /\ rel (s * s) (f_vp RN f) (f_vp RN f') /\ rel (s * s) (f_vr RN f) (f_vr RN f').
Definition om_rel (s : R) (o o' : omits RN) : Prop :=
  (forall i, rel s (o_r1 RN o i) (o_r1 RN o' i)) /\ o_x1 RN o' = o_x1 RN o /\ (forall i, rel s (o_r2 RN o i) (o_r2 RN o' i)) /\ o_x2 RN o' = o_x2 RN o.

Section Pixel.
  Variable s : R. Hypothesis S0 : 0 < s.
  Section Cov.
    Variables c c' : pixcov RN. Hypothesis HC : cov_rel (s * s) c c'.
    Variables z z' : RN. Hypothesis HZ : rel (s * s) z z'.
    Lemma pa_rel i : rel (s * s) (p_alpha RN c i) (p_alpha RN c' i).
    Proof. destruct HC as (A & B & _). unfold p_alpha. apply rel_add; [apply A|apply B]. Qed.
    Lemma pb_rel i : rel (s * s) (p_beta RN c i) (p_beta RN c' i).
    Proof. destruct HC as (_ & _ & A & B). unfold p_beta. apply rel_add; [apply A|apply B]. Qed.
    Lemma al_same : (fun i => fdiv RN (p_alpha RN c' i) z') = (fun i => fdiv RN (p_alpha RN c i) z).
    Proof. apply functional_extensionality; intro i. eapply rel_same; [apply (rel_div (s * s) (s * s)); [nra|apply pa_rel|exact HZ]|field; lra]. Qed.
    Lemma be_same : (fun i => fdiv RN (p_beta RN c' i) z') = (fun i => fdiv RN (p_beta RN c i) z).
    Proof. apply functional_extensionality; intro i. eapply rel_same; [apply (rel_div (s * s) (s * s)); [nra|apply pb_rel|exact HZ]|field; lra]. Qed.
    Variables (n : nat) (d d' : nat -> RN) (use : nat -> bool). Hypothesis HD : forall i, rel s (d i) (d' i).
    Lemma md_rel : masked_diff RN d' use = fun i => sc s (masked_diff RN d use i).
    Proof. apply functional_extensionality; intro i. unfold masked_diff. apply rel_b2f, HD. Qed.
    Notation k := (fit_mats RN n c z d use). Notation k' := (fit_mats RN n c' z' d' use).
    Lemma mats_ok : mats_rel s k k'.
    Proof.
      unfold fit_mats. rewrite al_same, be_same, md_rel. repeat split; intros.
      - apply dB_rel. - apply B_rel. - apply A_rel.
    Qed.
    Lemma fit_ok : fit_rel s (fit_ramp RN n c z d use) (fit_ramp RN n c' z' d' use).
    Proof.
      destruct mats_ok as (E1 & E2 & DB & B & A). destruct HC as (H1 & H2 & H3 & H4). unfold fit_ramp, ramp_result.
      unfold fit_rel. cbn [f_rate f_chisq f_uncert f_vp f_vr]. rewrite E1, E2. repeat split.
      - apply rel_mul1, B.
      - eapply rel_same; [apply (rel_div (s * s) (s * s)); [nra| |exact HZ]|field; lra]. apply rel_sub; [exact A|]. apply rel_div1, rel_mul; exact B.
      - apply rel_sqrt; [exact S0|]. apply rel_div1, HZ.
      - apply rel_add; [|apply rel_1mul]; apply rel_lsum; intro i; apply rel_1mul; [apply H1|apply H3].
      - apply rel_add; [|apply rel_1mul]; apply rel_lsum; intro i; apply rel_1mul; [apply H2|apply H4].
    Qed.
    Section Omit.
      Variables (ci co : nat -> RN) (q q' : mats RN). Hypothesis HQ : mats_rel s q q'.
      Lemma r1_rel i : rel s (rate_one RN q ci i) (rate_one RN q' ci i).
      Proof. destruct HQ as (E1 & E2 & DB & B & A). unfold rate_one. rewrite E1, E2. apply rel_div1, rel_sub; [apply rel_1mul, B|apply rel_mul1, DB]. Qed.
      Lemma x1_same i : chisq_one RN q' ci z' i = chisq_one RN q ci z i.
      Proof.
        pose proof (r1_rel i) as R1. destruct HQ as (E1 & E2 & DB & B & A). unfold chisq_one. cbv zeta. rewrite E1, E2.
        assert (Rb : rel s (fdiv RN (fsub RN (k_dB RN q i) (fmul RN (rate_one RN q ci i) (k_dC RN q i))) (ci i)) (fdiv RN (fsub RN (k_dB RN q' i) (fmul RN (rate_one RN q' ci i) (k_dC RN q i))) (ci i)))
          by (apply rel_div1, rel_sub; [apply DB|apply rel_mul1, R1]).
        eapply rel_same; [apply (rel_div (s * s) (s * s)); [nra| |exact HZ]|field; lra].
        repeat first [apply rel_add | apply rel_sub]; try exact A.
        - apply rel_mul1, rel_mul; exact R1.
        - apply rel_mul; [apply rel_1mul, R1|exact B].
        - apply rel_mul1, rel_mul; exact Rb.
        - apply rel_mul; [apply rel_1mul, Rb|apply DB].
        - apply rel_mul1, rel_mul; [apply rel_1mul, R1|exact Rb].
      Qed.
      Lemma abc_rel i : let '(a, b, e) := abc_two RN q ci co i in let '(a', b', e') := abc_two RN q' ci co i in rel s a a' /\ rel s b b' /\ rel s e e'.
      Proof.
        destruct HQ as (E1 & E2 & DB & B & A). unfold abc_two. cbv zeta. rewrite E1, E2.
        match goal with |- rel _ ?a ?a' /\ rel _ ?b ?b' /\ rel _ ?e ?e' => assert (Re : rel s e e') end.
        { apply rel_div1, rel_sub; apply rel_div1, rel_sub; first [apply rel_mul1, B | apply rel_mul1, DB]. }
        match goal with |- rel _ ?a ?a' /\ rel _ ?b ?b' /\ rel _ ?e ?e' => assert (Rb : rel s b b') end.
        { apply rel_div1, rel_sub; [apply rel_sub; [apply rel_mul1, B|apply rel_mul1, DB]|apply rel_mul1, Re]. }
        split; [|split; assumption]. apply rel_div1, rel_sub; [apply rel_sub; [exact B|]|]; apply rel_mul1; assumption.
      Qed.
      Lemma r2_rel i : rel s (fst (fst (abc_two RN q ci co i))) (fst (fst (abc_two RN q' ci co i))).
      Proof. pose proof (abc_rel i) as H. destruct (abc_two RN q ci co i) as [[a b] e], (abc_two RN q' ci co i) as [[a' b'] e']. apply H. Qed.
      Lemma x2_same i : chisq_two RN q' ci co z' i = chisq_two RN q ci co z i.
      Proof.
        pose proof (abc_rel i) as H. destruct HQ as (E1 & E2 & DB & B & A). unfold chisq_two. rewrite E1, E2.
        destruct (abc_two RN q ci co i) as [[a b] e], (abc_two RN q' ci co i) as [[a' b'] e']. destruct H as (Ra & Rb & Re).
        eapply rel_same; [apply (rel_div (s * s) (s * s)); [nra| |exact HZ]|field; lra].
        repeat first [apply rel_add | apply rel_sub]; try exact A;
          first [apply rel_mul1, rel_mul; assumption | apply rel_mul; [apply rel_1mul; assumption|first [exact B|apply DB]] | apply rel_mul1, rel_mul; [apply rel_1mul|]; assumption].
      Qed.
    End Omit.
    Lemma om_ok : om_rel s (omissions RN n c z d use) (omissions RN n c' z' d' use).
    Proof.
      pose proof mats_ok as M. pose proof fit_ok as (FR & FX & _).
      assert (R1 : forall i, rel s (o_r1 RN (omissions RN n c z d use) i) (o_r1 RN (omissions RN n c' z' d' use) i)).
      { intro i. unfold omissions. cbv zeta. cbn [o_r1]. rewrite al_same, be_same. destruct (use i); [apply r1_rel, M|exact FR]. }
      assert (X1 : o_x1 RN (omissions RN n c' z' d' use) = o_x1 RN (omissions RN n c z d use)).
      { apply functional_extensionality; intro i. unfold omissions. cbv zeta. cbn [o_x1]. rewrite al_same, be_same. destruct (use i); [apply x1_same, M|exact FX]. }
      split; [exact R1|]. split; [exact X1|]. split.
      - intro i. pose proof (R1 i) as Q. pose proof (R1 (S i)) as Q'. revert Q Q'. unfold omissions. cbv zeta. cbn [o_r1 o_r2]. rewrite al_same, be_same.
        intros Q Q'. destruct (use i) eqn:U; cbn [negb]; [|exact Q']. destruct (use (S i)) eqn:U'; cbn [negb]; [apply r2_rel, M|exact Q].
      - apply functional_extensionality; intro i. pose proof (f_equal (fun f => f i) X1) as Q. pose proof (f_equal (fun f => f (S i)) X1) as Q'. revert Q Q'. unfold omissions. cbv zeta. cbn [o_x1 o_x2]. rewrite al_same, be_same.
        intros Q Q'. destruct (use i) eqn:U; cbn [negb]; [|exact Q']. destruct (use (S i)) eqn:U'; cbn [negb]; [apply x2_same, M|exact Q].
    Qed.
  End Cov.

  (** the search for jumps *)
  Definition jfit_rel (r r' : jfit RN) : Prop := rel s (j_rate RN r) (j_rate RN r') /\ j_chisq RN r' = j_chisq RN r /\ om_rel s (j_om RN r) (j_om RN r').
  Definition st_rel (x x' : mstate RN) : Prop := m_use RN x' = m_use RN x /\ m_re RN x' = m_re RN x /\ rel s (m_rate RN x) (m_rate RN x').
  Lemma drops_same n nreads h r r' : jfit_rel r r' -> drops RN n nreads h r' = drops RN n nreads h r.
  Proof. intros (_ & E & _ & X1 & _ & X2). unfold drops. rewrite E, X1, X2. reflexivity. Qed.
  Lemma new_rate_rel n dr o o' : om_rel s o o' -> rel s (new_rate RN n dr o) (new_rate RN n dr o').
  Proof.
    intros (R1 & _ & R2 & _). unfold new_rate. destruct (anyb (snd dr) (n - 1)); [apply rel_lsum; intro i; apply rel_b2f, R2|].
    destruct (anyb (fst dr) n); [apply rel_lsum; intro i; apply rel_b2f, R1|apply rel_0].
  Qed.
  Lemma round_rel n nreads h f f' x x' : (forall u, jfit_rel (f u) (f' u)) -> st_rel x x' -> st_rel (round_pixel RN n nreads h f x) (round_pixel RN n nreads h f' x').
  Proof.
    intros F (E1 & E2 & E3). unfold round_pixel. rewrite E1, E2. destruct (m_re RN x) eqn:M; [|split; [exact E1|split; [congruence|exact E3]]].
    rewrite (drops_same n nreads h _ _ (F (m_use RN x))). repeat split. cbn [m_rate]. apply rel_add; [apply rel_b2f, E3|apply new_rate_rel, F].
  Qed.
  Lemma dropping_same n nreads h f f' x x' : (forall u, jfit_rel (f u) (f' u)) -> st_rel x x' -> dropping RN n nreads h f' x' = dropping RN n nreads h f x.
  Proof. intros F (E1 & E2 & E3). unfold dropping. rewrite E1, E2, (drops_same n nreads h _ _ (F (m_use RN x))). reflexivity. Qed.
  Lemma anyb_ext p q n : (forall i, p i = q i) -> anyb p n = anyb q n.
  Proof. intro H. unfold anyb. induction (seq 0 n) as [|i l IH]; [reflexivity|]. cbn [existsb]. rewrite H, IH. reflexivity. Qed.
  Lemma loop_rel n nc nreads h f f' m : (forall c u, jfit_rel (f c u) (f' c u)) -> forall x x', (forall c, st_rel (x c) (x' c)) ->
    forall c, st_rel (mask_loop RN n nc nreads h f m x c) (mask_loop RN n nc nreads h f' m x' c).
  Proof.
    intro F. induction m as [|m IH]; intros x x' X c; [apply X|]. cbn [mask_loop].
    rewrite (anyb_ext (fun c => dropping RN n nreads h (f' c) (x' c)) (fun c => dropping RN n nreads h (f c) (x c))) by (intro; apply dropping_same; auto).
    destruct (anyb _ nc); [|apply X]. apply IH. intro c'. apply round_rel; auto.
  Qed.
  Lemma mask_rel n nc nreads h f f' use c : (forall c u, jfit_rel (f c u) (f' c u)) -> st_rel (mask_jumps RN n nc nreads h f use c) (mask_jumps RN n nc nreads h f' use c).
  Proof. intro F. unfold mask_jumps. apply loop_rel; [exact F|]. intro c'. repeat split. cbn [m_rate]. apply F. Qed.
End Pixel.

(** ** The whole fit *)
Section Whole.
  Variable root : RN -> nat -> RN.
  Variables median nanmed : list RN -> RN.
  Variable sqrt2 : RN.
  Variable narrow : RN -> RN.
  Variable rnd : RN -> Z.
  Variable disk : Z -> Z -> RN -> Z -> Z -> bool.
  Variables sat_regions jump_regions : img bool -> list (ellipse RN).
  Variable inside : RN * RN -> ellipse RN -> bool.
  Variables (k t : R) (L : likely_in RN).
  Hypothesis K : 0 < k. Hypothesis T : 0 < t.
  Hypothesis HR : root_scales root. Hypothesis HM : med_scales median. Hypothesis HN : med_scales nanmed. Hypothesis HS : store_scales narrow.
  Notation L' := (likely_units k t L). Notation s := (k / t).
  Lemma sp : 0 < s. Proof. apply Rdiv_lt_0_compat; assumption. Qed.
  Lemma times_same : times_used RN L' = map (map (sc t)) (times_used RN L).
  Proof.
    unfold times_used, likely_input, likely_units. cbn [l_zf l_times]. destruct (l_zf L) as [z|]; cbn [option_map snd]; [|reflexivity].
    destruct (l_times L) as [|[|t0 [|t1 ts]] gs]; reflexivity.
  Qed.
  Lemma nd_same : ndiffs RN L' = ndiffs RN L.
  Proof. unfold ndiffs. rewrite times_same, map_length. reflexivity. Qed.
  Lemma words_same i r c : pix_words RN L' i r c = pix_words RN L i r c.
  Proof.
    unfold pix_words, pix_input, likely_input, likely_units. cbn [l_zf l_times l_gdq l_ng]. destruct (l_zf L) as [z|]; cbn [option_map snd fst]; [|reflexivity].
    destruct (l_times L) as [|[|t0 [|t1 ts]] gs]; reflexivity.
  Qed.
  Lemma data_rel i r c : Forall2 (rel k) (fst (fst (pix_input RN L i r c))) (fst (fst (pix_input RN L' i r c))).
  Proof.
    assert (D : Forall2 (rel k) (map (fun g => l_data L i g r c) (seq 0 (l_ng L))) (map (fun g => sc k (l_data L i g r c)) (seq 0 (l_ng L)))) by (apply Forall2_map_in; reflexivity).
    unfold pix_input, likely_input, likely_units. cbn [l_zf l_times l_data l_ng l_nframes]. destruct (l_zf L) as [z|]; cbn [option_map]; [|exact D].
    destruct (l_times L) as [|[|t0 [|t1 ts]] gs]; cbn [map fst]; try exact D.
    unfold zf_data. destruct D as [|x x' l l' X D]; [repeat constructor|]. constructor; [reflexivity|]. constructor; [|exact D].
    apply rel_div1, rel_sub; [apply rel_mul1, X|reflexivity].
  Qed.
  Lemma diff_rel i r c j : rel s (pix_diff RN L i r c j) (pix_diff RN L' i r c j).
  Proof.
    unfold pix_diff, diffs. rewrite times_same. apply rel_div; [lra| |apply dt_rel]. apply rel_sub; apply rel_nth, data_rel.
  Qed.
  Lemma positive_rel x x' : rel s x x' -> rel s (LdModel.positive RN x) (LdModel.positive RN x').
  Proof. intro H. unfold LdModel.positive. rewrite (rel_lt s (fzero RN) (fzero RN) x x' sp (rel_0 _) H). apply rel_b2f, H. Qed.
  Lemma cov_ok g g' r c : rel s g g' -> cov_rel (s * s) (pixel_cov RN (cov RN L) g (l_gain L r c) (rnoise RN sqrt2 L r c)) (pixel_cov RN (cov RN L') g' (l_gain L' r c) (rnoise RN sqrt2 L' r c)).
  Proof.
    intro G.
    assert (P : rel (s / (/ k)) (fdiv RN g (l_gain L r c)) (fdiv RN g' (l_gain L' r c))) by (apply rel_div; [apply Rinv_neq_0_compat; lra|exact G|reflexivity]).
    assert (N : rel k (rnoise RN sqrt2 L r c) (rnoise RN sqrt2 L' r c)) by (unfold rnoise; apply rel_div1; reflexivity).
    unfold cov. rewrite times_same. unfold cov_rel, pixel_cov. cbn [p_ap p_ar p_bp p_br]. repeat split; intro i.
    - eapply rel_eq; [apply rel_mul; [exact P|apply ap_rel, T]|]. field. lra.
    - eapply rel_eq; [apply rel_mul; [apply rel_mul; exact N|apply ar_rel, T]|]. field. lra.
    - eapply rel_eq; [apply rel_mul; [exact P|apply bp_rel, T]|]. field. lra.
    - eapply rel_eq; [apply rel_mul; [apply rel_mul; exact N|apply br_rel, T]|]. field. lra.
  Qed.
  Hypothesis N2 : (2 <= ndiffs RN L)%nat.
  Lemma sc_ok c c' : cov_rel (s * s) c c' -> rel (s * s) (scale_of RN root (ndiffs RN L) (p_alpha RN c) (p_beta RN c)) (scale_of RN root (ndiffs RN L) (p_alpha RN c') (p_beta RN c')).
  Proof.
    intro H. pose proof (pa_rel s c c' H) as A. pose proof (pb_rel s c c' H) as B. pose proof sp.
    replace (p_alpha RN c') with (fun i => sc (s * s) (p_alpha RN c i)) by (apply functional_extensionality; intro i; symmetry; apply A).
    replace (p_beta RN c') with (fun i => sc (s * s) (p_beta RN c i)) by (apply functional_extensionality; intro i; symmetry; apply B).
    apply scale_rel; [exact HR|nra|exact N2].
  Qed.
  Lemma search_fit_rel i r c u : jfit_rel s (search_fit RN root median sqrt2 L i r c u) (search_fit RN root median sqrt2 L' i r c u).
  Proof.
    unfold search_fit. cbv zeta. rewrite nd_same.
    assert (G : rel s (LdModel.positive RN (median (map (pix_diff RN L i r c) (seq 0 (ndiffs RN L))))) (LdModel.positive RN (median (map (pix_diff RN L' i r c) (seq 0 (ndiffs RN L)))))).
    { apply positive_rel. rewrite (map_ext _ (fun j => sc s (pix_diff RN L i r c j)) (diff_rel i r c)), <- (map_map (pix_diff RN L i r c) (sc s)). apply HM, sp. }
    pose proof (cov_ok _ _ r c G) as C. pose proof (sc_ok _ _ C) as Z. pose proof (diff_rel i r c) as D. pose proof sp as S0.
    pose proof (fit_ok s S0 _ _ C _ _ Z (ndiffs RN L) _ _ u D) as F. split; [apply F|]. split; [apply F|]. apply om_ok; assumption.
  Qed.
  Lemma before_same i r : use_before RN L' i r = use_before RN L i r.
  Proof. apply functional_extensionality; intro c. unfold use_before. rewrite words_same. reflexivity. Qed.
  Lemma cn_same : c_n RN (cov RN L') = c_n RN (cov RN L).
  Proof. apply functional_extensionality; intro i. unfold cov. rewrite times_same. apply n_same. Qed.
  Lemma searched_rel i r c : st_rel s (searched RN root median sqrt2 L i r c) (searched RN root median sqrt2 L' i r c).
  Proof.
    unfold searched. rewrite nd_same, before_same, cn_same. apply mask_rel. intros c' u. apply search_fit_rel.
  Qed.
  Lemma after_same i r c : use_after RN root median sqrt2 L' i r c = use_after RN root median sqrt2 L i r c.
  Proof. unfold use_after. rewrite nd_same. destruct (searched_rel i r c) as (-> & _). reflexivity. Qed.
  Lemma search_same i : gdq_search RN root median sqrt2 L' i = gdq_search RN root median sqrt2 L i.
  Proof.
    apply functional_extensionality; intro g. apply functional_extensionality; intro r. apply functional_extensionality; intro c. unfold gdq_search. rewrite nd_same, words_same, before_same, after_same. reflexivity.
  Qed.
  Notation work L := (gdq_work RN root median sqrt2 rnd disk sat_regions jump_regions inside L).
  Lemma work_same i : work L' i = work L i.
  Proof. unfold gdq_work. rewrite search_same, nd_same. reflexivity. Qed.
  Lemma final_same i g r c : use_final RN root median sqrt2 L' i g r c = use_final RN root median sqrt2 L i g r c.
  Proof. unfold use_final. rewrite after_same. reflexivity. Qed.
  Lemma result_rel i g r c : pix_result RN root median sqrt2 narrow L' i g r c = option_map (lint_units s) (pix_result RN root median sqrt2 narrow L i g r c).
  Proof.
    unfold pix_result. rewrite nd_same, final_same.
    assert (G : rel s (rate_guess RN root median sqrt2 L i r c) (rate_guess RN root median sqrt2 L' i r c)).
    { unfold rate_guess. apply rel_add; [apply positive_rel, searched_rel|reflexivity]. }
    pose proof (cov_ok _ _ r c G) as C. pose proof (sc_ok _ _ C) as Z. pose proof sp as S0.
    destruct (fit_ok s S0 _ _ C _ _ Z (ndiffs RN L) _ _ (use_final RN root median sqrt2 L i g r c) (diff_rel i r c)) as (F1 & F2 & F3 & F4 & F5).
    unfold fit_ramps. cbn [bind]. cbv zeta. cbn [bind option_map]. apply f_equal. unfold lint_units. cbn [n_rate n_dq n_vp n_vr n_err n_chisq].
    rewrite F1, F2, F3, F4, F5. rewrite !HS by nra. reflexivity.
  Qed.

  (** several integrations *)
  Lemma nansum_rel a l l' : Forall2 (rel a) l l' -> rel a (nansum RN l) (nansum RN l').
  Proof.
    intro H. unfold nansum, suml. apply rel_fold; [|apply rel_0]. induction H as [|x x' l l' X _ IH]; [constructor|]. cbn [map]. constructor; [|exact IH].
    rewrite (rel_nanb a x x' X). destruct (fisnan RN x); [apply rel_0|exact X].
  Qed.
  Lemma nansum_or_rel a l l' : Forall2 (rel a) l l' -> rel a (nansum_or_nan RN l) (nansum_or_nan RN l').
  Proof.
    intro H. unfold nansum_or_nan. assert (E : forallb (fisnan RN) l' = forallb (fisnan RN) l).
    { induction H as [|x x' l l' X _ IH]; [reflexivity|]. cbn [forallb]. rewrite (rel_nanb a x x' X), IH. reflexivity. }
    rewrite E. destruct (forallb (fisnan RN) l); [reflexivity|apply nansum_rel, H].
  Qed.
  Notation ints' ints := (map (lint_units s) ints).
  Lemma pass_rel ints m : let '(vp, w, x) := image_pass RN ints m in let '(vp', w', x') := image_pass RN (ints' ints) (sc s m) in
    Forall2 (rel (s * s)) vp vp' /\ w' = w /\ rel s x x'.
  Proof.
    pose proof sp as S0. unfold image_pass. cbv zeta.
    set (rs := fun m i => if negb (fisfinite RN (fdiv RN m (n_rate RN i))) || flt RN (fdiv RN m (n_rate RN i)) (fzero RN) then fzero RN else fdiv RN m (n_rate RN i)).
    assert (RS : forall i, rs (sc s m) (lint_units s i) = rs m i).
    { intro i. unfold rs. replace (fdiv RN (sc s m) (n_rate RN (lint_units s i))) with (fdiv RN m (n_rate RN i)); [reflexivity|]. symmetry.
      eapply rel_same; [apply (rel_div s s); [lra|reflexivity|reflexivity]|field; split; lra]. }
    assert (V : Forall2 (rel (s * s)) (map (fun i => fmul RN (n_vp RN i) (rs m i)) ints) (map (fun i => fmul RN (n_vp RN i) (rs (sc s m) i)) (ints' ints))).
    { rewrite map_map. apply Forall2_map_in. intros i _. rewrite RS. apply rel_mul1. reflexivity. }
    change (fun i => fmul RN (n_vp RN i) (if negb (fisfinite RN (fdiv RN m (n_rate RN i))) || flt RN (fdiv RN m (n_rate RN i)) (fzero RN) then fzero RN else fdiv RN m (n_rate RN i))) with (fun i => fmul RN (n_vp RN i) (rs m i)).
    change (fun i => fmul RN (n_vp RN i) (if negb (fisfinite RN (fdiv RN (sc s m) (n_rate RN i))) || flt RN (fdiv RN (sc s m) (n_rate RN i)) (fzero RN) then fzero RN else fdiv RN (sc s m) (n_rate RN i)))
      with (fun i => fmul RN (n_vp RN i) (rs (sc s m) i)).
    set (vp := map (fun i => fmul RN (n_vp RN i) (rs m i)) ints) in *. set (vp' := map (fun i => fmul RN (n_vp RN i) (rs (sc s m) i)) (ints' ints)) in *.
    set (w := map _ (combine ints vp)). set (w' := map _ (combine (ints' ints) vp')).
    assert (W : Forall2 (rel (/ (s * s))) w w').
    { unfold w, w'. clearbody vp vp'. clear w w' RS rs. revert vp vp' V. induction ints as [|i l IH]; intros vp vp' V; [constructor|]. destruct V as [|v v' l1 l2 V0 V]; [constructor|].
      cbn [map combine]. constructor; [|apply IH, V]. cbn [fst snd]. apply rel_one; [nra|]. apply rel_add; [exact V0|reflexivity]. }
    assert (Q : map (fun x => fdiv RN x (nansum RN w')) w' = map (fun x => fdiv RN x (nansum RN w)) w).
    { pose proof (nansum_rel _ _ _ W) as NS. revert NS. generalize (nansum RN w') (nansum RN w). intros y' y Y. clearbody w w'. clear - W Y S0. induction W as [|x x' l l' X _ IH]; [reflexivity|]. cbn [map]. f_equal; [|exact IH].
      eapply rel_same; [apply (rel_div (/ (s * s)) (/ (s * s))); [apply Rinv_neq_0_compat, Rgt_not_eq, Rmult_lt_0_compat; exact S0|exact X|exact Y]|]. apply Rinv_r, Rinv_neq_0_compat, Rgt_not_eq, Rmult_lt_0_compat; exact S0. }
    split; [exact V|]. split; [exact Q|]. rewrite Q. apply nansum_or_rel. generalize (map (fun x => fdiv RN x (nansum RN w)) w). clear. intro l.
    revert l. induction ints as [|i is IH]; intros [|y l]; cbn [map combine]; constructor; [apply rel_mul1; reflexivity|apply IH].
  Qed.
  Let many (fd : list N -> option N) (ints : list (lint RN)) : option (lint RN) :=
    do dq <- fd (map (n_dq RN) ints);
    let '(_, _, s1) := image_pass RN ints (nanmed (map (n_rate RN) ints)) in
    let '(vp, w, s2) := image_pass RN ints s1 in
    let var v := nansum_or_nan RN (map (fun vw => fmul RN (fst vw) (fmul RN (snd vw) (snd vw))) (combine v w)) in
    let var_p := var vp in let var_r := var (map (n_vr RN) ints) in
    Some {| n_rate := s2; n_dq := dq; n_vp := var_p; n_vr := var_r; n_err := fsqrt RN (fadd RN var_p var_r); n_chisq := suml RN (map (n_chisq RN) ints) |}.
  Lemma image_rel fd ints : image_info RN nanmed fd (ints' ints) = option_map (lint_units s) (image_info RN nanmed fd ints).
  Proof.
    pose proof sp as S0. destruct ints as [|a [|b l]]; [reflexivity|reflexivity|].
    change (many fd (ints' (a :: b :: l)) = option_map (lint_units s) (many fd (a :: b :: l))). generalize (a :: b :: l) as ints. clear a b l. intro ints. unfold many.
    replace (map (n_dq RN) (ints' ints)) with (map (n_dq RN) ints) by (rewrite map_map; reflexivity).
    replace (map (n_chisq RN) (ints' ints)) with (map (n_chisq RN) ints) by (rewrite map_map; reflexivity).
    assert (EM : nanmed (map (n_rate RN) (ints' ints)) = sc s (nanmed (map (n_rate RN) ints))) by (rewrite <- (HN s _ S0), !map_map; reflexivity).
    replace (map (n_vr RN) (ints' ints)) with (map (sc (s * s)) (map (n_vr RN) ints)) by (rewrite !map_map; reflexivity).
    rewrite EM. destruct (fd (map (n_dq RN) ints)) as [dq|]; [|reflexivity]. cbn [bind].
    pose proof (pass_rel ints (nanmed (map (n_rate RN) ints))) as P1.
    destruct (image_pass RN ints (nanmed (map (n_rate RN) ints))) as [[v1 w1] s1], (image_pass RN (ints' ints) (sc s (nanmed (map (n_rate RN) ints)))) as [[v1' w1'] s1'].
    destruct P1 as (_ & _ & P1). rewrite P1. pose proof (pass_rel ints s1) as P2.
    destruct (image_pass RN ints s1) as [[vp w] s2], (image_pass RN (ints' ints) (sc s s1)) as [[vp' w'] s2']. destruct P2 as (V & -> & P2).
    assert (VV : forall v v', Forall2 (rel (s * s)) v v' -> rel (s * s) (nansum_or_nan RN (map (fun vw => fmul RN (fst vw) (fmul RN (snd vw) (snd vw))) (combine v w))) (nansum_or_nan RN (map (fun vw => fmul RN (fst vw) (fmul RN (snd vw) (snd vw))) (combine v' w)))).
    { intros v v' H. apply nansum_or_rel. clear - H. revert w. induction H as [|x x' l l' X _ IH]; intros [|y w]; cbn [combine map]; constructor; [apply rel_mul1, X|apply IH]. }
    pose proof (VV _ _ V) as V1. pose proof (VV _ _ (Forall2_sc (s * s) (map (n_vr RN) ints))) as V2. cbn [option_map]. apply f_equal. unfold lint_units. cbn [n_rate n_dq n_vp n_vr n_err n_chisq].
    pose proof (rel_sqrt s _ _ S0 (rel_add _ _ _ _ _ V1 V2)) as V3. rewrite V1, V2, P2. f_equal. rewrite <- V3, V1, V2. reflexivity.
  Qed.
End Whole.

(** ** C125 *)
Lemma mapM_map {A B} (h : B -> B) (f f' : A -> option B) l : (forall x, f' x = option_map h (f x)) -> mapM f' l = option_map (map h) (mapM f l).
Proof.
  intro H. induction l as [|x l IH]; [reflexivity|]. cbn [DarkModel.mapM]. rewrite H, IH. destruct (f x) as [y|]; [|reflexivity]. cbn [bind option_map].
  destruct (mapM f l); reflexivity.
Qed.
Lemma mapM_same {A B} (f f' : A -> option B) l : (forall x, f' x = f x) -> mapM f' l = mapM f l.
Proof. intro H. induction l as [|x l IH]; [reflexivity|]. cbn [DarkModel.mapM]. rewrite H, IH. reflexivity. Qed.
(** In units of counts 1/k as large and of time 1/t as large: the same call succeeds, the same flags are returned, every rate and uncertainty of
    every integration and of the image is k/t times what it was, every variance the square of that, and chi squared is the same. *)
Theorem C125_units : forall root median nanmed sqrt2 narrow rnd disk sr jr inside (L : likely_in RN) k t,
  0 < k -> 0 < t -> root_scales root -> med_scales median -> med_scales nanmed -> store_scales narrow ->
  let run := likely_ramp_fit RN root median nanmed sqrt2 narrow rnd disk sr jr inside in
  run (likely_units k t L) =
  option_map (fun '(g, ints, image) => (g, fun i r c => option_map (lint_units (k / t)) (ints i r c), fun r c => option_map (lint_units (k / t)) (image r c))) (run L).
Proof.
  intros root median nanmed sqrt2 narrow rnd disk sr jr inside L k t K T HR HM HN HS. cbv zeta. unfold likely_ramp_fit.
  change (l_ng (likely_units k t L)) with (l_ng L). change (l_nints (likely_units k t L)) with (l_nints L).
  replace (length (l_times (likely_units k t L))) with (length (l_times L)) by (symmetry; apply map_length).
  destruct (Nat.ltb (l_ng L) 4) eqn:E4; [reflexivity|]. apply Nat.ltb_ge in E4. cbn [orb]. destruct (Nat.eqb (length (l_times L)) (l_ng L)) eqn:EL; [|reflexivity]. apply Nat.eqb_eq in EL. cbn [negb].
  assert (N2 : (2 <= ndiffs RN L)%nat) by (destruct (rows_front RN L EL ltac:(lia)); lia).
  rewrite (mapM_same _ _ (seq 0 (l_nints L)) (work_same root median sqrt2 rnd disk sr jr inside k t L K T HR HM N2)).
  destruct (mapM _ (seq 0 (l_nints L))) as [gs|]; [|reflexivity]. cbn [bind option_map]. apply f_equal.
  set (g := fun i => nth i gs (gdq_search RN root median sqrt2 L i)).
  assert (EG : (fun i => nth i gs (gdq_search RN root median sqrt2 (likely_units k t L) i)) = g)
    by (apply functional_extensionality; intro i; unfold g; rewrite (search_same root median sqrt2 k t L K T HR HM N2); reflexivity).
  assert (R : forall i r c, pix_result RN root median sqrt2 narrow (likely_units k t L) i (nth i gs (gdq_search RN root median sqrt2 (likely_units k t L) i)) r c = option_map (lint_units (k / t)) (pix_result RN root median sqrt2 narrow L i (g i) r c))
    by (intros; rewrite (search_same root median sqrt2 k t L K T HR HM N2); apply result_rel; assumption).
  apply (f_equal2 pair); [apply (f_equal2 pair)|].
  - apply functional_extensionality; intro i. apply functional_extensionality; intro j. apply functional_extensionality; intro r. apply functional_extensionality; intro c.
    destruct (Nat.ltb i (l_nints L)); [|reflexivity]. unfold gdq_back. rewrite (nd_same k t L), (search_same root median sqrt2 k t L K T HR HM N2). reflexivity.
  - apply functional_extensionality; intro i. apply functional_extensionality; intro r. apply functional_extensionality; intro c. apply R.
  - apply functional_extensionality; intro r. apply functional_extensionality; intro c.
    rewrite (mapM_map (lint_units (k / t)) (fun i => pix_result RN root median sqrt2 narrow L i (g i) r c)) by (intro; apply R).
    destruct (mapM _ (seq 0 (l_nints L))) as [ints|]; [|reflexivity]. cbn [bind option_map]. apply image_rel; assumption.
Qed.
Print Assumptions C125_units.

(** ** Example *)
(** the i-th root of a positive number, np.nanmedian of any list, numbers stored as they are *)
Definition lu_root (x : RN) (i : nat) : RN := match x with Some v => if Rltb 0 v then Some (Rpower v (/ INR i)) else None | None => None end.
Lemma lu_root_ok : root_scales lu_root.
Proof.
  intros a [x|] i A I; [|reflexivity]. cbn [sc option_map lu_root]. assert (P : 0 < a ^ i) by (apply pow_lt, A).
  replace (Rltb 0 (a ^ i * x)) with (Rltb 0 x) by (rewrite <- (ltb_scale (a ^ i) 0 x P); f_equal; ring). destruct (Rltb 0 x) eqn:E; [|reflexivity]. apply Rltb_spec in E.
  cbn [option_map]. f_equal. unfold Rpower. rewrite ln_mult by assumption. rewrite <- Rpower_pow by exact A. unfold Rpower at 1. rewrite ln_exp.
  replace (/ INR i * (INR i * ln a + ln x)) with (ln a + / INR i * ln x) by (field; apply not_0_INR; lia). rewrite exp_plus, exp_ln by exact A. reflexivity.
Qed.
Lemma lu_med_ok : med_scales (nan_median RN).
Proof. intros a l A. apply (rel_median a l _ A), Forall2_sc. Qed.
Lemma some_ne (x : R) : (Some x : RN) <> None.
Proof. intro H. change (@eq (option R) (Some x) None) in H. discriminate H. Qed.
Lemma lu_oracles : oracles_ok lu_root (nan_median RN) 2.
Proof.
  split; [|split; [|lra]].
  - intros x i X I. exists (Rpower x (/ INR i)). split; [apply exp_pos|]. unfold lu_root. apply Rltb_spec in X. rewrite X. reflexivity.
  - intros l E. unfold nan_median. cbv zeta. set (m := sorted RN _).
    assert (P : forall l, Forall (fun x => x <> None) (sorted RN (map (fun x => Some x : RN) l)) /\ length (sorted RN (map (fun x => Some x : RN) l)) = length l).
    { assert (IN : forall x m, Forall (fun x : RN => x <> None) (x :: m) -> Forall (fun x : RN => x <> None) (insert RN x m) /\ length (insert RN x m) = S (length m)).
      { intros x m0. induction m0 as [|y m0 IH]; intro H; [split; [exact H|reflexivity]|]. cbn [insert]. inversion H as [|? ? H1 H2]; subst. inversion H2 as [|? ? H3 H4]; subst.
        destruct (flt RN x y); [split; [exact H|reflexivity]|]. destruct (IH ltac:(constructor; assumption)) as [I1 I2]. split; [constructor; assumption|cbn [length]; rewrite I2; reflexivity]. }
      intro l0. induction l0 as [|x l0 [IH1 IH2]]; [split; [constructor|reflexivity]|]. unfold sorted in *. cbn [map filter]. change (negb (fisnan RN (Some x : RN))) with true. cbn iota. cbn [fold_right].
      destruct (IN (Some x : RN) _ (Forall_cons (Some x : RN) (some_ne x) IH1)) as [I1 I2]. split; [exact I1|]. rewrite I2, IH2. reflexivity. }
    destruct (P l) as [P1 P2]. fold m in P1, P2.
    assert (N : forall j, (j < length m)%nat -> exists y, nth j m (fzero RN) = (Some y : RN)).
    { intros j J. apply (nth_In m (fzero RN)) in J. rewrite Forall_forall in P1. specialize (P1 _ J). destruct (nth j m (fzero RN)) as [y|]; [exists y; reflexivity|congruence]. }
    assert (N2 : forall i j, (i < length m)%nat -> (j < length m)%nat -> exists y, fdiv RN (fadd RN (nth i m (fzero RN)) (nth j m (fzero RN))) (fofZ RN 2) = (Some y : RN)).
    { intros i j I J. destruct (N i I) as [a ->], (N j J) as [b ->]. exists ((a + b) / 2). apply n_div. lra. }
    clearbody m. destruct (Nat.eqb_spec (length m) 0); [lia|]. destruct (Nat.eqb_spec (length m) 1); [apply N; lia|]. destruct (Nat.eqb_spec (length m) 2); [apply N2; lia|].
    assert (Q : (length m / 2 < length m)%nat) by (apply Nat.div_lt; lia). destruct (Nat.odd (length m)); [apply N; exact Q|apply N2; lia].
Qed.
Definition lurun := likely_ramp_fit RN lu_root (nan_median RN) (nan_median RN) (Some 2 : RN) (fun x => x) (fun _ => 0%Z) (fun _ _ _ _ _ => false) (fun _ => []) (fun _ => []) (fun _ _ => false).
(** the ramp 100 + 3 t of the example of C124, counted in halves of a count and quarters of a second: the rate 3 becomes 3 * 2/4 *)
Example C125_units_ex : exists out x, lurun (likely_units 2 4 (lrL false)) = Some out /\ snd (fst out) 0%nat 0%nat 0%nat = Some x /\ n_rate RN x = (Some (2 / 4 * 3) : RN) /\ n_chisq RN x = (Some 0 : RN).
Proof.
  unfold lurun. rewrite C125_units; [|lra|lra|exact lu_root_ok|exact lu_med_ok|exact lu_med_ok|intros a x _; reflexivity].
  match goal with |- context [option_map _ ?y] => destruct y as [out|] eqn:E end.
  2: { exfalso. pose proof (proj2 (C124_defined RN lu_root (nan_median RN) (nan_median RN) (Some 2 : RN) (fun x => x) (fun _ => 0%Z) (fun _ _ _ _ _ => false) (fun _ => []) (fun _ => []) (fun _ _ => false) (lrL false) eq_refl)) as D. apply D; [cbn; lia|exact E]. }
  destruct (C124_line lu_root (nan_median RN) (nan_median RN) 2 (fun x => x) (fun _ => 0%Z) (fun _ _ _ _ _ => false) (fun _ => []) (fun _ => []) (fun _ _ => false) (lrL false) 2 1 out 0 0 0 lrT (fun g => Rmean (map (fun t => 100 + 3 * t) (nth g lrT [])) + (if Nat.leb 2 g then 50 else 0)) 3 lu_oracles (lr_pixel false)) as [P1 P2];
    try exact E; try reflexivity; try apply lr_good; [repeat split; reflexivity|cbn; lia| |].
  - intros g Hg C1 C2. cbn [l_ng lrL] in Hg. rewrite !LkzProps.Rmean_lin by (apply good_ne; [apply lr_good|cbn; lia]).
    do 4 (destruct g as [|g]; [first [cbn [Nat.leb]; ring|discriminate C1|discriminate C2]|]). lia.
  - destruct (P2 3%nat ltac:(cbn; lia)) as (x & X1 & X2 & X3); [reflexivity|rewrite P1 by (try reflexivity; cbn; lia); reflexivity|].
    destruct out as [[g p] im]. cbn [option_map fst snd] in *. eexists; exists (lint_units (2 / 4) x). split; [reflexivity|]. cbn [fst snd]. rewrite X1. split; [reflexivity|].
    unfold lint_units. cbn [n_rate n_chisq]. rewrite X2, X3. split; reflexivity.
Qed.
