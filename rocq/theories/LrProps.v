(** C124: a ramp that is a straight line over its unflagged groups, through the whole likelihood fit, in exact arithmetic with a missing value. *)
From Verif Require Import Base BaseLemmas RBase RNBase JumpModel SnowModel LikelyModel LikelySpec LikelyProofs LikelyMask LikelyFit LikelyNoise LikelyImage LikelyProps OlsModel OlsPyModel DrvModel LdModel LdProps LrLift.
From Coq Require Import Reals Lra Lia FunctionalExtensionality.
Local Open Scope R_scope.

(** zero or missing *)
Definition zn (x : RN) : Prop := x = None \/ x = (Some 0 : RN).
Lemma zn_sub x y : zn x -> zn y -> zn (fsub RN x y).
Proof. intros [-> | ->] [-> | ->]; (left; reflexivity) || (right; apply (f_equal (@Some R)); ring). Qed.
Lemma zn_add x y : zn x -> zn y -> zn (fadd RN x y).
Proof. intros [-> | ->] [-> | ->]; (left; reflexivity) || (right; apply (f_equal (@Some R)); ring). Qed.
Lemma zn_b2f x b : zn x -> zn (fmul RN x (b2f RN b)).
Proof. intros [-> | ->]; destruct b; (left; reflexivity) || (right; apply (f_equal (@Some R)); cbn; ring). Qed.
Lemma zn_max x y : zn x -> zn y -> zn (lmax RN x y).
Proof. intros X Y. unfold lmax. destruct (fisnan RN x); [exact X|]. destruct (fisnan RN y); [exact Y|]. destruct (flt RN x y); assumption. Qed.
Lemma zn_amax f n : (1 <= n)%nat -> (forall i, (i < n)%nat -> zn (f i)) -> zn (amax RN f n).
Proof.
  intros N H. unfold amax. assert (G : forall l x, zn x -> (forall i, In i l -> zn (f i)) -> zn (fold_left (lmax RN) (map f l) x)).
  { induction l as [|i l IH]; intros x X I; [exact X|]. cbn [map fold_left]. apply IH; [apply zn_max; [exact X|apply I; left; reflexivity]|intros j J; apply I; right; exact J]. }
  apply G; [apply H; lia|]. intros i I. apply in_seq in I. apply H. lia.
Qed.
(** nothing to gain: nothing is dropped, whatever the thresholds *)
Lemma zn_keeps n nreads h (r : jfit RN) : (2 <= n)%nat -> (forall i, (i < n)%nat -> zn (fsub RN (j_chisq RN r) (o_x1 RN (j_om RN r) i))) ->
  (forall i, (S i < n)%nat -> zn (fsub RN (j_chisq RN r) (o_x2 RN (j_om RN r) i))) -> drop_any n (drops RN n nreads h r) = false.
Proof.
  intros N H1 H2. unfold drop_any, drops. cbv zeta. cbn [fst snd].
  match goal with |- context [feq RN ?b (fzero RN)] => assert (Z : zn b); [|set (best := b) in *] end.
  { apply zn_add; apply zn_b2f, zn_b2f; apply zn_amax; try lia; intros i Hi; apply zn_b2f; [apply H1|apply H2]; lia. }
  assert (E : (if feq RN best (fzero RN) then fnan RN else best) = None).
  { destruct Z as [-> | ->]; [reflexivity|]. cbn [feq RN fzero rncmp]. rewrite (proj2 (Reqb_spec 0 0)) by reflexivity. reflexivity. }
  rewrite E. assert (NONE : forall p k l, (forall i, p i = false) -> existsb p (seq k l) = false).
  { intros p k l P. revert k. induction l as [|l IH]; intro k; [reflexivity|]. cbn [seq existsb]. rewrite P, IH. reflexivity. }
  unfold anyb. rewrite !NONE; [reflexivity| |]; intro i; apply andb_false_iff; left;
    match goal with |- feq RN ?x None = false => destruct x; reflexivity end.
Qed.

(** ** Omitting differences from a line gains nothing *)
Section Omit.
  Variables (k : mats RN) (A B C dBi dCi dBj dCj x w y : R) (ci co : nat -> RN) (i : nat) (s scale : R).
  Hypotheses (HA : k_A RN k = (Some A : RN)) (HB : k_B RN k = (Some B : RN)) (HC : k_C RN k = (Some C : RN)).
  Hypotheses (Hbi : k_dB RN k i = (Some dBi : RN)) (Hci : k_dC RN k i = (Some dCi : RN)) (Hx : ci i = (Some x : RN)).
  Hypotheses (EA : A = s * s * C) (EB : B = s * C) (Ei : dBi = s * dCi) (Es : scale <> 0).
  Lemma div_cases a b : fdiv RN (Some a : RN) (Some b : RN) = None \/ (b <> 0 /\ fdiv RN (Some a : RN) (Some b : RN) = (Some (a / b) : RN)).
  Proof. destruct (Req_dec b 0) as [->|N]; [left|right; split; [exact N|apply n_div, N]]. cbn. rewrite (proj2 (Reqb_spec 0 0)) by reflexivity. reflexivity. Qed.
  Lemma one_rate : rate_one RN k ci i = None \/ rate_one RN k ci i = (Some s : RN).
  Proof.
    unfold rate_one. rewrite HB, HC, Hbi, Hci, Hx, !n_mul, !n_sub.
    destruct (div_cases (x * B - dBi * dCi) (C * x - dCi * dCi)) as [E|[N E]]; [left; exact E|right]. rewrite E. apply (f_equal (@Some R)). rewrite EB, Ei. field. exact N.
  Qed.
  Lemma one_zn : zn (chisq_one RN k ci (Some scale : RN) i).
  Proof.
    unfold chisq_one. cbv zeta. destruct one_rate as [E|E]; rewrite E; [left; rewrite HA; reflexivity|].
    rewrite Hbi, Hci, Hx. rewrite (n_mul s dCi), n_sub. destruct (div_cases (dBi - s * dCi) x) as [D|[N D]]; rewrite D; [left; rewrite HA, HB, HC; reflexivity|].
    rewrite HA, HB, HC. change (fofZ RN 2) with (Some 2 : RN). rewrite !n_mul. repeat first [rewrite n_add|rewrite n_sub]. rewrite n_div by exact Es. right. apply (f_equal (@Some R)). rewrite EA, EB, Ei. field. split; assumption.
  Qed.
  Hypotheses (Hbj : k_dB RN k (S i) = (Some dBj : RN)) (Hcj : k_dC RN k (S i) = (Some dCj : RN)) (Hw : ci (S i) = (Some w : RN)) (Hy : co i = (Some y : RN)) (Ej : dBj = s * dCj).
  Lemma two_abc : (exists a b c, abc_two RN k ci co i = (a, b, c) /\ a = None) \/ abc_two RN k ci co i = (Some s : RN, Some 0 : RN, Some 0 : RN).
  Proof.
    unfold abc_two. cbv zeta. rewrite HB, HC, Hbi, Hci, Hbj, Hcj, Hx, Hw, Hy, !n_mul, !n_sub.
    destruct (div_cases (B * dCi - dBi * C) (dCi * dCi - C * x)) as [D|[N1 D]]; rewrite D; [left; do 3 eexists; split; reflexivity|].
    destruct (div_cases (B * dCj - dBj * C) (dCi * dCj - C * y)) as [D2|[N2 D2]]; rewrite D2; [left; do 3 eexists; split; reflexivity|].
    rewrite n_sub.
    assert (Z : (B * dCi - dBi * C) / (dCi * dCi - C * x) - (B * dCj - dBj * C) / (dCi * dCj - C * y) = 0) by (rewrite EB, Ei, Ej; field; split; assumption).
    rewrite Z.
    destruct (div_cases (dCi * dCj - C * y) (dCi * dCi - C * x)) as [D3|[N3 D3]]; rewrite D3; [left; do 3 eexists; split; reflexivity|].
    destruct (div_cases (dCj * dCj - C * w) (dCi * dCj - C * y)) as [D4|[N4 D4]]; rewrite D4; [left; do 3 eexists; split; reflexivity|].
    rewrite n_sub.
    match goal with |- context [fdiv RN (Some 0) (Some ?q)] => destruct (div_cases 0 q) as [D5|[N5 D5]] end; rewrite D5; [left; do 3 eexists; split; reflexivity|].
    rewrite n_mul, n_sub.
    match goal with |- context [fdiv RN (Some ?p) (Some (dCi * dCi - C * x))] => destruct (div_cases p (dCi * dCi - C * x)) as [D6|[N6 D6]] end; rewrite D6; [left; do 3 eexists; split; reflexivity|].
    rewrite !n_mul, !n_sub.
    match goal with |- context [fdiv RN (Some ?p) (Some C)] => destruct (div_cases p C) as [D7|[N7 D7]] end; rewrite D7; [left; do 3 eexists; split; reflexivity|].
    right. apply (f_equal2 pair); [apply (f_equal2 pair)|]; apply (f_equal (@Some R)); rewrite ?EB, ?Ei; unfold Rdiv; rewrite ?Rmult_0_l.
    - field. split; assumption.
    - replace (s * C * dCi - s * dCi * C - 0) with 0 by ring. ring.
    - ring.
  Qed.
  Lemma two_zn : zn (chisq_two RN k ci co (Some scale : RN) i).
  Proof.
    unfold chisq_two. destruct two_abc as [(a & b & c & -> & ->)| ->]; [left; rewrite HA, HC; reflexivity|].
    rewrite HA, HB, HC, Hbi, Hci, Hbj, Hcj, Hx, Hw, Hy. change (fofZ RN 2) with (Some 2 : RN). rewrite !n_mul. repeat first [rewrite n_add|rewrite n_sub]. rewrite n_div by exact Es. right. apply (f_equal (@Some R)). rewrite EA, EB. field. exact Es.
  Qed.
End Omit.

(** ** A line in the fit *)
Section LineFit.
  Variables (times : list (list R)) (guess gain rn : R) (root : R -> nat -> R) (root' : RN -> nat -> RN) (d : nat -> R) (d' : nat -> RN) (s : R) (use : nat -> bool).
  Let n := (length times - 1)%nat.
  Hypotheses (GT : good_times times) (LEN : (3 <= length times)%nat) (GG : 0 <= guess / gain) (G0 : gain <> 0) (R0 : rn <> 0).
  Hypothesis RT : forall x i, 0 < x -> (1 <= i)%nat -> 0 < root x i.
  Hypothesis HR : forall x i, 0 < x -> (1 <= i)%nat -> root' (Some x : RN) i = (Some (root x i) : RN).
  Hypothesis HD : forall i, (i < n)%nat -> d' i = (Some (d i) : RN).
  Hypothesis LINE : forall i, (i < n)%nat -> use i = true -> d i = s.
  Let c := pixel_cov RF (mk_covar RF times) guess gain rn.
  Let c' := pixel_cov RN (mk_covar RN (some_times times)) (Some guess : RN) (Some gain : RN) (Some rn : RN).
  Let sc : R := scale_of RF root n (p_alpha RF c) (p_beta RF c).
  Let sc' := scale_of RN root' n (p_alpha RN c') (p_beta RN c').
  Let n2 : (2 <= n)%nat. Proof. unfold n. lia. Qed.
  Let n1 : (1 <= n)%nat. Proof. unfold n. lia. Qed.
  Let HA i : (i < n)%nat -> p_alpha RN c' i = (Some (p_alpha RF c i) : RN).
  Proof. intro H. apply l_palpha; [exact GT|exact G0|unfold n in H; lia]. Qed.
  Let HB i : (S i < n)%nat -> p_beta RN c' i = (Some (p_beta RF c i) : RN).
  Proof. intro H. apply l_pbeta; [exact GT|exact G0|unfold n in H; lia]. Qed.
  Let PD : posdef n (tri (p_alpha RF c) (p_beta RF c)).
  Proof. apply table_posdef; assumption. Qed.
  Let TH i : (i <= n)%nat -> 0 < theta RF (p_alpha RF c) (p_beta RF c) i.
  Proof.
    intros Hi. apply (minors_pos n (p_alpha RF c) (p_beta RF c)); [apply theta_0|apply theta_1|intro; apply theta_S| |exact Hi].
    intros x Hx. exact (PD x Hx).
  Qed.
  Let SP : 0 < sc. Proof. apply scale_pos; assumption. Qed.
  Let S0 : sc <> 0. Proof. apply Rgt_not_eq, SP. Qed.
  Lemma f_scale : sc' = (Some sc : RN).
  Proof. apply l_scale; assumption. Qed.
  Let a i : R := p_alpha RF c i / sc. Let b : nat -> R := masked_beta RF (fun i => p_beta RF c i / sc) use.
  Let a' i := fdiv RN (p_alpha RN c' i) (Some sc : RN). Let b' := masked_beta RN (fun i => fdiv RN (p_beta RN c' i) (Some sc : RN)) use.
  Let La i : (i < n)%nat -> a' i = (Some (a i) : RN).
  Proof. intro H. unfold a'. rewrite HA, n_div by (exact H || exact S0). reflexivity. Qed.
  Let Lb i : (S i < n)%nat -> b' i = (Some (b i) : RN).
  Proof. intro H. unfold b', masked_beta. rewrite HB, n_div, !n_b2f by (exact H || exact S0). reflexivity. Qed.
  Let Ld i : (i < n)%nat -> masked_diff RN d' use i = (Some (masked_diff RF d use i) : RN).
  Proof. intro H. unfold masked_diff. rewrite HD, n_b2f by exact H. reflexivity. Qed.
  Let det : theta RF a b n <> 0.
  Proof. apply Rgt_not_eq. exact (fit_det_pos n c sc use PD SP). Qed.
  Let k := fit_mats RF n c sc d use. Let k' := fit_mats RN n c' (Some sc : RN) d' use.
  Let Ek : forall i, (i < n)%nat -> k_dC RN k' i = (Some (k_dC RF k i) : RN). Proof. intros i H. apply (l_dC n a b a' b'); assumption. Qed.
  Let Eb : forall i, (i < n)%nat -> k_dB RN k' i = (Some (k_dB RF k i) : RN). Proof. intros i H. apply (l_dB n a b a' b'); assumption. Qed.
  Let EC : k_C RN k' = (Some (k_C RF k) : RN). Proof. apply (l_C n a b a' b'); assumption. Qed.
  Let EB : k_B RN k' = (Some (k_B RF k) : RN). Proof. apply (l_B n a b a' b'); assumption. Qed.
  Let EA : k_A RN k' = (Some (k_A RF k) : RN). Proof. apply (l_A n a b a' b'); assumption. Qed.
  Let det' : fit_det n c sc use <> 0. Proof. exact det. Qed.
  Let FY i : (i < n)%nat -> use i = true -> fy n c sc d use i = s * fx n c sc use i.
  Proof.
    intros Hi Ui. apply (solves_unique n use (tri (p_alpha RF c) (p_beta RF c)) _ (fun i => s * fx n c sc use i) d PD); try assumption; [apply fy_solves; assumption|].
    intros j Hj Uj. rewrite (Su_ext n use _ (fun l => s * (tri (p_alpha RF c) (p_beta RF c) j l * fx n c sc use l))) by (intros; ring). rewrite Su_scal.
    pose proof (fx_solves n c sc use n1 S0 det' j Hj Uj) as E. rewrite E, LINE by assumption. ring.
  Qed.
  Let RB : k_B RF k = s * k_C RF k.
  Proof.
    unfold k. rewrite (fit_B n c sc d use S0), (fit_C n c sc d use S0). rewrite (Su_ext n use _ (fun i => s * fx n c sc use i)) by (intros i Hi Ui; rewrite LINE by assumption; reflexivity).
    rewrite Su_scal. change (F RF) with R. ring.
  Qed.
  Let RA : k_A RF k = s * s * k_C RF k.
  Proof.
    unfold k. rewrite (fit_A n c sc d use n1 S0 det'), (fit_C n c sc d use S0). rewrite (Su_ext n use _ (fun i => s * s * fx n c sc use i)) by (intros i Hi Ui; rewrite LINE, FY by assumption; ring).
    rewrite Su_scal. change (F RF) with R. ring.
  Qed.
  Let RD i : (i < n)%nat -> use i = true -> k_dB RF k i = s * k_dC RF k i.
  Proof. intros Hi Ui. unfold k. rewrite (fit_dB n c sc d use S0), (fit_dC n c sc d use S0 i Hi), Ui, FY by assumption. change (F RF) with R. ring. Qed.
  Lemma line_chisq_zn : zn (f_chisq RN (fit_ramp RN n c' sc' d' use)).
  Proof.
    rewrite f_scale. unfold fit_ramp, ramp_result. cbn [f_chisq]. change (fit_mats RN n c' (Some sc : RN) d' use) with k'. rewrite EA, EB, EC, n_mul.
    destruct (div_cases (k_B RF k * k_B RF k) (k_C RF k)) as [D|[N D]]; [left; exact (f_equal (fun q => fdiv RN (fsub RN (Some (k_A RF k) : RN) q) (Some sc : RN)) D)|].
    right. transitivity (fdiv RN (fsub RN (Some (k_A RF k) : RN) (Some (k_B RF k * k_B RF k / k_C RF k) : RN)) (Some sc : RN)).
    - exact (f_equal (fun q => fdiv RN (fsub RN (Some (k_A RF k) : RN) q) (Some sc : RN)) D).
    - rewrite n_sub, n_div by exact S0. apply (f_equal (@Some R)). rewrite RA, RB. change (F RF) with R in *. field. split; assumption.
  Qed.
  Lemma line_fit : (exists i, (i < n)%nat /\ use i = true) -> f_rate RN (fit_ramp RN n c' sc' d' use) = (Some s : RN) /\ f_chisq RN (fit_ramp RN n c' sc' d' use) = (Some 0 : RN).
  Proof.
    intro U. assert (CP : 0 < k_C RF k).
    { unfold k. rewrite (fit_C n c sc d use S0). apply Rmult_lt_0_compat; [exact SP|]. apply (solves_sum_pos n use (tri (p_alpha RF c) (p_beta RF c))); [exact PD|exact U|]. apply fx_solves; assumption. }
    assert (C0 : k_C RF k <> 0) by (apply Rgt_not_eq, CP).
    rewrite f_scale. unfold fit_ramp, ramp_result. cbn [f_chisq f_rate]. change (fit_mats RN n c' (Some sc : RN) d' use) with k'. rewrite EA, EB, EC. change (fone RN) with (Some 1 : RN).
    rewrite !n_mul. assert (D1 := n_div 1 _ C0). assert (D2 := n_div (k_B RF k * k_B RF k) _ C0). split.
    - transitivity (fmul RN (Some (k_B RF k) : RN) (Some (1 / k_C RF k) : RN)); [exact (f_equal (fmul RN (Some (k_B RF k) : RN)) D1)|]. apply (f_equal (@Some R)). rewrite RB. change (F RF) with R in *. field. exact C0.
    - transitivity (fdiv RN (fsub RN (Some (k_A RF k) : RN) (Some (k_B RF k * k_B RF k / k_C RF k) : RN)) (Some sc : RN)); [exact (f_equal (fun q => fdiv RN (fsub RN (Some (k_A RF k) : RN) q) (Some sc : RN)) D2)|].
      rewrite n_sub, n_div by exact S0. apply (f_equal (@Some R)). rewrite RA, RB. change (F RF) with R in *. field. split; assumption.
  Qed.
  Let om := omissions RN n c' sc' d' use.
  Let zx1 i : (i < n)%nat -> zn (o_x1 RN om i).
  Proof.
    intro H. unfold om, omissions. cbv zeta. cbn [o_x1]. destruct (use i) eqn:U; [|exact line_chisq_zn]. rewrite f_scale.
    eapply one_zn; [exact EA|exact EB|exact EC|exact (Eb i H)|exact (Ek i H)|eapply (l_ci n a b a' b'); eassumption|exact RA|exact RB|exact (RD i H U)|exact S0].
  Qed.
  Let zx2 i : (S i < n)%nat -> zn (o_x2 RN om i).
  Proof.
    intro H. assert (H' : (i < n)%nat) by lia. pose proof (zx1 i H') as Z1. pose proof (zx1 (S i) H) as Z2. unfold om, omissions in *. cbv zeta in *. cbn [o_x1 o_x2] in *.
    destruct (use i) eqn:U; [|exact Z2]. destruct (use (S i)) eqn:U2; [|exact Z1]. cbn [negb]. rewrite f_scale.
    eapply two_zn; [exact EA|exact EB|exact EC|exact (Eb i H')|exact (Ek i H')|eapply (l_ci n a b a' b'); eassumption|exact RA|exact RB|exact (RD i H' U)|exact S0|exact (Eb (S i) H)|exact (Ek (S i) H)|eapply (l_ci n a b a' b'); eassumption|eapply (l_co n a b a' b'); eassumption|exact (RD (S i) H U2)].
  Qed.
  Lemma line_no_drop nreads h : drop_any n (drops RN n nreads h {| j_rate := f_rate RN (fit_ramp RN n c' sc' d' use); j_chisq := f_chisq RN (fit_ramp RN n c' sc' d' use); j_om := om |}) = false.
  Proof. apply zn_keeps; [exact n2| |]; cbn [j_chisq j_om]; intros i H; apply zn_sub; auto using line_chisq_zn. Qed.
End LineFit.

(** ** The search leaves a pixel alone from which it drops nothing *)
Lemma search_keeps n nc nreads h fit use c : (forall u, (forall i, (i < n)%nat -> u i = true -> use c i = true) -> drop_any n (drops RN n nreads h (fit c u)) = false) ->
  let st := mask_jumps RN n nc nreads h fit use c in (forall i, (i < n)%nat -> m_use RN st i = use c i) /\ m_rate RN st = j_rate RN (fit c (use c)).
Proof.
  intros H. cbv zeta. unfold mask_jumps.
  assert (P : forall k s, (forall i, (i < n)%nat -> m_use RN (s c) i = use c i) /\ m_rate RN (s c) = j_rate RN (fit c (use c)) ->
    (forall i, (i < n)%nat -> m_use RN (mask_loop RN n nc nreads h fit k s c) i = use c i) /\ m_rate RN (mask_loop RN n nc nreads h fit k s c) = j_rate RN (fit c (use c))).
  { induction k as [|k IH]; intros s S0; [exact S0|]. cbn [mask_loop]. destruct (anyb _ nc); [|exact S0]. apply IH. destruct S0 as [A B]. unfold round_pixel.
    destruct (m_re RN (s c)); [|split; assumption]. pose proof (H (m_use RN (s c)) ltac:(intros i Hi; rewrite A by exact Hi; auto)) as D. cbv zeta. cbn [m_use m_rate]. rewrite D. split.
    - intros i Hi. rewrite (nodrop_use RN) by assumption. apply A, Hi.
    - unfold drop_any in D. apply orb_false_iff in D. destruct D as [D1 D2]. unfold new_rate. rewrite D1, D2, B. cbn [negb b2f].
      destruct (j_rate RN (fit c (use c))) as [x|]; [|reflexivity]. cbn [fmul fadd RN fone fzero rn2]. apply (f_equal (@Some R)). ring. }
  apply P. split; reflexivity.
Qed.

(** ** Through the whole fit *)
Section Core.
  Variables (root : RN -> nat -> RN) (median nanmed : list RN -> RN) (q : R) (narrow : RN -> RN) (rnd : RN -> Z) (disk : Z -> Z -> RN -> Z -> Z -> bool).
  Variables (sr jr : img bool -> list (ellipse RN)) (inside : RN * RN -> ellipse RN -> bool) (L : likely_in RN).
  Notation run := (likely_ramp_fit RN root median nanmed (Some q : RN) narrow rnd disk sr jr inside).
  (** the oracles: roots of positive numbers are positive, the median of finite numbers is finite *)
  Hypothesis RT : forall x i, 0 < x -> (1 <= i)%nat -> exists y, 0 < y /\ root (Some x : RN) i = (Some y : RN).
  Hypothesis MD : forall l, (1 <= length l)%nat -> exists m, median (map (fun x => Some x : RN) l) = (Some m : RN).
  Hypothesis q0 : q <> 0.
  Variables (i r c : nat) (T : list (list R)) (rows : list R) (gain rn dk s : R).
  Hypotheses (GT : good_times T) (LEN : (3 <= length T)%nat) (EG : l_gain L r c = (Some gain : RN)) (G0 : 0 < gain) (ER : l_rn L r c = (Some rn : RN)) (R0 : rn <> 0) (ED : l_dark L r c = (Some dk : RN)) (D0 : 0 <= dk).
  Hypotheses (ET : times_used RN L = some_times T) (EP : fst (fst (pix_input RN L i r c)) = map (fun x => Some x : RN) rows).
  Hypothesis LINE : forall k, (S k < length T)%nat -> use_before RN L i r c k = true -> nth (S k) rows 0 - nth k rows 0 = s * (Rmean (nth (S k) T []) - Rmean (nth k T [])).
  Let n := (length T - 1)%nat.
  Let d k : R := diffs RF rows T k.
  Lemma co_n : ndiffs RN L = n. Proof. unfold ndiffs. rewrite ET, some_len. reflexivity. Qed.
  Lemma co_diff k : (k < n)%nat -> pix_diff RN L i r c k = (Some (d k) : RN).
  Proof.
    intro H. unfold pix_diff, d, diffs. rewrite EP, ET.
    assert (N : forall j, nth j (map (fun x => Some x : RN) rows) (fzero RN) = (Some (nth j rows 0) : RN)) by (intro j; exact (map_nth (fun x => Some x : RN) rows 0 j)).
    rewrite !N, n_sub, (l_dt T GT), n_div; [reflexivity|apply (dt_ne T GT); unfold n in H; lia|unfold n in H; lia].
  Qed.
  Lemma co_line k : (k < n)%nat -> use_before RN L i r c k = true -> d k = s.
  Proof.
    intros H U. unfold d, diffs. toF. change (fzero RF) with 0. rewrite LINE by (exact U || (unfold n in H; lia)). pose proof (dt_ne T GT k ltac:(unfold n in H; lia)) as N.
    unfold mk_covar in *. cbn [c_dt] in *. rewrite !mean_Rmean in *. toF. cbn [fsub RF] in N. change (F RF) with R in *. field. exact N.
  Qed.
  Definition root_r (x : R) (j : nat) : R := match root (Some x : RN) j with Some y => y | None => 0 end.
  Lemma rr_pos x j : 0 < x -> (1 <= j)%nat -> 0 < root_r x j.
  Proof. intros X J. unfold root_r. destruct (RT x j X J) as (y & Y & ->). exact Y. Qed.
  Lemma rr_lift x j : 0 < x -> (1 <= j)%nat -> root (Some x : RN) j = (Some (root_r x j) : RN).
  Proof. intros X J. unfold root_r. destruct (RT x j X J) as (y & Y & ->). reflexivity. Qed.
  Lemma co_rnoise : rnoise RN (Some q : RN) L r c = (Some (rn / q) : RN).
  Proof. unfold rnoise. rewrite ER, n_div by exact q0. reflexivity. Qed.
  Let rn0 : rn / q <> 0. Proof. apply Rmult_integral_contrapositive_currified; [exact R0|apply Rinv_neq_0_compat, q0]. Qed.
  Lemma co_positive x : exists y, 0 <= y /\ LdModel.positive RN (Some x : RN) = (Some y : RN).
  Proof.
    unfold LdModel.positive. change (flt RN (fzero RN) (Some x : RN)) with (Rltb 0 x). rewrite n_b2f, n_mul. eexists. split; [|reflexivity].
    unfold b2f. destruct (Rltb 0 x) eqn:E; cbn [fone fzero RF]; [apply Rltb_spec in E|]; lra.
  Qed.
  (** the guess of the search *)
  Lemma co_median : exists m, 0 <= m /\ LdModel.positive RN (median (map (pix_diff RN L i r c) (seq 0 n))) = (Some m : RN).
  Proof.
    assert (E : map (pix_diff RN L i r c) (seq 0 n) = map (fun x => Some x : RN) (map d (seq 0 n))).
    { rewrite map_map. apply map_ext_in. intros k Hk. apply in_seq in Hk. apply co_diff. lia. }
    rewrite E. destruct (MD (map d (seq 0 n))) as (m & ->); [rewrite map_length, seq_length; unfold n; lia|]. apply co_positive.
  Qed.
  Lemma gg m : 0 <= m -> 0 <= m / gain.
  Proof. intro M. apply Rmult_le_pos; [exact M|left; apply Rinv_0_lt_compat, G0]. Qed.
  Let g0 : gain <> 0. Proof. apply Rgt_not_eq, G0. Qed.
  Lemma co_search : (forall k, (k < n)%nat -> m_use RN (searched RN root median (Some q : RN) L i r c) k = use_before RN L i r c k) /\
    ((exists k, (k < n)%nat /\ use_before RN L i r c k = true) -> m_rate RN (searched RN root median (Some q : RN) L i r c) = (Some s : RN)).
  Proof.
    destruct co_median as (m & M & EM).
    assert (FIT : forall u, search_fit RN root median (Some q : RN) L i r c u = let cv := pixel_cov RN (mk_covar RN (some_times T)) (Some m : RN) (Some gain : RN) (Some (rn / q) : RN) in
      let sc := scale_of RN root n (p_alpha RN cv) (p_beta RN cv) in let f := fit_ramp RN n cv sc (pix_diff RN L i r c) u in
      {| j_rate := f_rate RN f; j_chisq := f_chisq RN f; j_om := omissions RN n cv sc (pix_diff RN L i r c) u |}).
    { intro u. unfold search_fit, cov. cbv zeta. rewrite co_n, EM, EG, co_rnoise, ET. reflexivity. }
    pose proof (search_keeps n (l_nc L) (c_n RN (cov RN L)) (l_h L) (search_fit RN root median (Some q : RN) L i r) (use_before RN L i r) c) as K. cbv zeta in K.
    unfold searched. rewrite co_n. destruct K as [K1 K2].
    { intros u U. rewrite FIT. cbv zeta. eapply (line_no_drop T m gain (rn / q) root_r root d (pix_diff RN L i r c) s u); try assumption; [apply gg, M|exact rr_pos|exact rr_lift|exact co_diff|].
      intros k Hk Uk. apply co_line; [exact Hk|]. apply U; assumption. }
    split; [exact K1|]. intro E. rewrite K2, FIT. cbv zeta. cbn [j_rate].
    eapply (line_fit T m gain (rn / q) root_r root d (pix_diff RN L i r c) s (use_before RN L i r c)); try assumption; [apply gg, M|exact rr_pos|exact rr_lift|exact co_diff|exact co_line].
  Qed.
  Lemma co_after k : use_after RN root median (Some q : RN) L i r c k = Nat.ltb k n && use_before RN L i r c k.
  Proof. unfold use_after. rewrite co_n. destruct (Nat.ltb_spec k n) as [H|H]; [|reflexivity]. rewrite (proj1 co_search k H). reflexivity. Qed.
  Lemma co_words k : gdq_search RN root median (Some q : RN) L i k r c = pix_words RN L i r c k.
  Proof.
    unfold gdq_search, jump_dq. rewrite co_n. destruct k as [|k]; [reflexivity|]. rewrite co_after. destruct (Nat.ltb k n); cbn [andb]; [rewrite xorb_nilpotent|]; cbn [flag_if]; apply N.lor_0_r.
  Qed.
  Lemma co_result g : (exists k, (k < n)%nat /\ use_final RN root median (Some q : RN) L i g r c k = true) ->
    exists x, pix_result RN root median (Some q : RN) narrow L i g r c = Some x /\ n_rate RN x = narrow (Some s : RN) /\ n_chisq RN x = narrow (Some 0 : RN).
  Proof.
    intro U. assert (SUB : forall k, use_final RN root median (Some q : RN) L i g r c k = true -> use_before RN L i r c k = true).
    { intros k E. apply (after_before RN root median (Some q : RN) L). unfold use_final in E. destruct (l_snow L); [|exact E]. unfold after_snowballs in E. apply andb_true_iff in E. apply E. }
    assert (RG : exists y, 0 <= y /\ rate_guess RN root median (Some q : RN) L i r c = (Some y : RN)).
    { unfold rate_guess. rewrite (proj2 co_search) by (destruct U as (k & Hk & E); exists k; split; [exact Hk|apply SUB, E]). destruct (co_positive s) as (y & Y & ->). rewrite ED, n_add. exists (y + dk). split; [lra|reflexivity]. }
    destruct RG as (y & Y & RG). unfold pix_result. rewrite co_n, EG, co_rnoise, RG. unfold cov. rewrite ET. unfold fit_ramps. cbn [bind]. eexists. split; [reflexivity|]. cbn [n_rate n_chisq].
    destruct (line_fit T y gain (rn / q) root_r root d (pix_diff RN L i r c) s (use_final RN root median (Some q : RN) L i g r c)) as [A B]; try assumption; [apply gg, Y|exact rr_pos|exact rr_lift|exact co_diff|intros k Hk E; apply co_line; [exact Hk|apply SUB, E]|].
    fold n in A, B. rewrite A, B. split; reflexivity.
  Qed.
End Core.

(** A pixel whose unflagged groups lie on a line (the groups at either end of a difference may be flagged: then nothing is asked of it):
    the search adds no flag, and wherever two neighbouring groups stay without flags the rate is the line's, with chi squared 0.
    Whatever the thresholds, the noise, the flags, the other pixels and what the snowball search does. *)
Section Line.
  Variables (root : RN -> nat -> RN) (median nanmed : list RN -> RN) (q : R) (narrow : RN -> RN) (rnd : RN -> Z) (disk : Z -> Z -> RN -> Z -> Z -> bool).
  Variables (sr jr : img bool -> list (ellipse RN)) (inside : RN * RN -> ellipse RN -> bool) (L : likely_in RN).
  Notation run := (likely_ramp_fit RN root median nanmed (Some q : RN) narrow rnd disk sr jr inside).
  Definition oracles_ok : Prop :=
    (forall x i, 0 < x -> (1 <= i)%nat -> exists y, 0 < y /\ root (Some x : RN) i = (Some y : RN)) /\
    (forall l, (1 <= length l)%nat -> exists m, median (map (fun x => Some x : RN) l) = (Some m : RN)) /\ q <> 0.
  Definition pixel_ok (r c : nat) : Prop := exists gain rn dk, l_gain L r c = (Some gain : RN) /\ 0 < gain /\ l_rn L r c = (Some rn : RN) /\ rn <> 0 /\ l_dark L r c = (Some dk : RN) /\ 0 <= dk.
  Theorem C124_line : forall kj ks out i r c T data s, oracles_ok -> pixel_ok r c -> flagged RN L kj ks -> (kj < 8)%N -> (ks < 8)%N ->
    run L = Some out -> (i < l_nints L)%nat -> l_zf L = None -> l_times L = some_times T -> good_times T ->
    (forall g, (g < l_ng L)%nat -> l_data L i g r c = (Some (data g) : RN)) ->
    (forall g, (S g < l_ng L)%nat -> clean (l_gdq L i g r c) -> clean (l_gdq L i (S g) r c) -> data (S g) - data g = s * (Rmean (nth (S g) T []) - Rmean (nth g T []))) ->
    (l_snow L = None -> forall g, (g < l_ng L)%nat -> fst (fst out) i g r c = l_gdq L i g r c) /\
    (forall g, (S g < l_ng L)%nat -> clean (l_gdq L i g r c) -> clean (fst (fst out) i (S g) r c) ->
      exists x, snd (fst out) i r c = Some x /\ n_rate RN x = narrow (Some s : RN) /\ n_chisq RN x = narrow (Some 0 : RN)).
  Proof.
    intros kj ks out i r c T data s (RT & MD & q0) (gain & rn & dk & EG & G0 & ER & R0 & ED & D0) F J8 S8 H Hi ZN ET GT DATA LN.
    destruct (run_parts _ _ _ _ _ _ _ _ _ _ _ L out H) as (G4 & EL & N0). destruct (N0 i Hi) as (g & W & O & RR). clear N0.
    assert (LT : length T = l_ng L) by (rewrite <- EL, ET, some_len; reflexivity).
    assert (FR : front RN L = 0%nat) by (unfold front, zf_used; rewrite ZN; reflexivity). destruct (rows_front RN L EL ltac:(lia)) as [R1 R2]. rewrite FR in R1, R2.
    assert (TU : times_used RN L = some_times T) by (unfold times_used; rewrite ZN; exact ET).
    assert (EP : fst (fst (pix_input RN L i r c)) = map (fun x => Some x : RN) (map data (seq 0 (l_ng L)))).
    { unfold pix_input. rewrite ZN. cbn [option_map likely_input fst]. rewrite map_map. apply map_ext_in. intros k Hk. apply in_seq in Hk. apply DATA. lia. }
    assert (WF : forall k, (k < l_ng L)%nat -> pix_words RN L i r c k = l_gdq L i k r c) by (intros k Hk; rewrite <- (words_front RN L i r c k) by lia; rewrite FR, Nat.add_0_r; reflexivity).
    assert (LINE : forall k, (S k < length T)%nat -> use_before RN L i r c k = true -> nth (S k) (map data (seq 0 (l_ng L))) 0 - nth k (map data (seq 0 (l_ng L))) 0 = s * (Rmean (nth (S k) T []) - Rmean (nth k T []))).
    { intros k Hk U. apply before_words in U. rewrite !WF in U by lia. destruct U as [U1 U2]. rewrite <- LN; [|lia|exact U1|exact U2].
      assert (N : forall j, (j < l_ng L)%nat -> nth j (map data (seq 0 (l_ng L))) 0 = data j).
      { intros j Hj. rewrite (nth_indep _ 0 (data 0%nat)) by (rewrite map_length, seq_length; exact Hj). rewrite (map_nth data), seq_nth by exact Hj. reflexivity. }
      rewrite !N by lia. reflexivity. }
    split.
    - intros SN k Hk. rewrite O. unfold gdq_back. rewrite R2, Nat.add_0_r. unfold gdq_work in W. rewrite SN in W. injection W as <-.
      rewrite (co_words root median q disk L RT MD q0 i r c T (map data (seq 0 (l_ng L))) gain rn s GT ltac:(lia) EG G0 ER R0 TU EP LINE), WF by exact Hk. apply N.lor_diag.
    - intros k Hk C1 C2. rewrite RR. apply (co_result root median q narrow disk L RT MD q0 i r c T (map data (seq 0 (l_ng L))) gain rn dk s GT ltac:(lia) EG G0 ER R0 ED D0 TU EP LINE).
      exists k. split; [lia|]. rewrite O in C2. assert (K : use_final RN root median (Some q : RN) L i g r c (k + front RN L)%nat = true) by (eapply kept_by_words; eassumption). rewrite FR, Nat.add_0_r in K. exact K.
  Qed.
  (** The same with the ZEROFRAME in front, for a pixel that lies on a line from its first read on. *)
  Theorem C124_line_zeroframe : forall kj ks out i r c a s t0 t1 ts gs zf, let T := (t0 :: t1 :: ts) :: gs in
    oracles_ok -> pixel_ok r c -> flagged RN L kj ks -> (kj < 8)%N -> (ks < 8)%N ->
    run L = Some out -> (i < l_nints L)%nat -> l_zf L = Some zf -> zf i r c = (Some (a + s * t0) : RN) -> l_nframes L = length (t0 :: t1 :: ts) -> l_times L = some_times T -> good_times T ->
    (forall g, (g < l_ng L)%nat -> l_data L i g r c = (Some (Rmean (map (fun t => a + s * t) (nth g T []))) : RN)) ->
    (l_snow L = None -> forall g, (g < l_ng L)%nat -> fst (fst out) i g r c = l_gdq L i g r c) /\
    (forall g, (S g < l_ng L)%nat -> clean (l_gdq L i g r c) -> clean (fst (fst out) i (S g) r c) ->
      exists x, snd (fst out) i r c = Some x /\ n_rate RN x = narrow (Some s : RN) /\ n_chisq RN x = narrow (Some 0 : RN)).
  Proof.
    intros kj ks out i r c a s t0 t1 ts gs zf T (RT & MD & q0) (gain & rn & dk & EG & G0 & ER & R0 & ED & D0) F J8 S8 H Hi ZN ZV NF ET GT DATA.
    destruct (run_parts _ _ _ _ _ _ _ _ _ _ _ L out H) as (G4 & EL & N0). destruct (N0 i Hi) as (g & W & O & RR). clear N0.
    assert (LT : length T = l_ng L) by (rewrite <- EL, ET, some_len; reflexivity).
    assert (FR : front RN L = 1%nat) by (unfold front, zf_used; rewrite ZN, ET; reflexivity). destruct (rows_front RN L EL ltac:(lia)) as [R1 R2]. rewrite FR in R1, R2.
    set (T' := [t0] :: (t1 :: ts) :: gs). assert (GT' : good_times T') by (apply LkzProps.split_times, GT).
    assert (LT' : length T' = S (l_ng L)) by (rewrite <- LT; reflexivity).
    assert (TU : times_used RN L = some_times T') by (unfold times_used; rewrite ZN, ET; reflexivity).
    assert (DL : map (fun g => l_data L i g r c) (seq 0 (l_ng L)) = map (fun x => Some x : RN) (LkzProps.on_line a s T)).
    { unfold LkzProps.on_line. rewrite map_map. rewrite <- (map_nth_seq [] T) at 1. rewrite map_map, LT. apply map_ext_in. intros k Hk. apply in_seq in Hk. apply DATA. lia. }
    assert (EP : fst (fst (pix_input RN L i r c)) = map (fun x => Some x : RN) (LkzProps.on_line a s T')).
    { unfold pix_input. rewrite ZN, ET, DL, NF. cbn [option_map]. rewrite ZV. cbn [likely_input fst some_times map]. unfold T'. rewrite <- (LkzProps.zf_on_line a s t0 t1 ts gs). unfold T, LkzProps.on_line. cbn [map zf_data].
      change (fofZ RN (Z.of_nat (length (t0 :: t1 :: ts)))) with (Some (IZR (Z.of_nat (length (t0 :: t1 :: ts)))) : RN).
      change (fofZ RN (Z.of_nat (length (t0 :: t1 :: ts)) - 1)) with (Some (IZR (Z.of_nat (length (t0 :: t1 :: ts)) - 1)) : RN).
      rewrite n_mul, n_sub, n_div; [reflexivity|]. apply not_0_IZR. cbn [length]. lia. }
    assert (LINE : forall k, (S k < length T')%nat -> use_before RN L i r c k = true -> nth (S k) (LkzProps.on_line a s T') 0 - nth k (LkzProps.on_line a s T') 0 = s * (Rmean (nth (S k) T' []) - Rmean (nth k T' []))).
    { intros k Hk _. assert (N : forall j, (j < length T')%nat -> nth j (LkzProps.on_line a s T') 0 = a + s * Rmean (nth j T' [])).
      { intros j Hj. unfold LkzProps.on_line. rewrite (nth_indep _ 0 (Rmean (map (fun t => a + s * t) []))) by (rewrite map_length; exact Hj). rewrite (map_nth (fun g => Rmean (map (fun t => a + s * t) g))). apply LkzProps.Rmean_lin, good_ne; assumption. }
      rewrite !N by lia. ring. }
    split.
    - intros SN k Hk. rewrite O. unfold gdq_back. rewrite R2. unfold gdq_work in W. rewrite SN in W. injection W as <-.
      rewrite (co_words root median q disk L RT MD q0 i r c T' (LkzProps.on_line a s T') gain rn s GT' ltac:(lia) EG G0 ER R0 TU EP LINE). rewrite <- FR, words_front by lia. apply N.lor_diag.
    - intros k Hk C1 C2. rewrite RR. apply (co_result root median q narrow disk L RT MD q0 i r c T' (LkzProps.on_line a s T') gain rn dk s GT' ltac:(lia) EG G0 ER R0 ED D0 TU EP LINE).
      exists (k + front RN L)%nat. split; [lia|]. rewrite O in C2. eapply kept_by_words; eassumption.
  Qed.
End Line.
Print Assumptions C124_line. Print Assumptions C124_line_zeroframe.

(** ** Example *)
(** five groups of two reads; the ramp 100 + 3 t has a known jump of 50 in its third group, which is flagged; 1 x 1 pixel.  With or without the ZEROFRAME
    (then without the jump). *)
Definition lrT : list (list R) := [[1; 2]; [3; 4]; [5; 6]; [7; 8]; [9; 10]].
Definition lrL (zf : bool) : likely_in RN :=
  {| l_nints := 1; l_ng := 5; l_nr := 1; l_nc := 1;
     l_data := fun _ g _ _ => (Some (Rmean (map (fun t => 100 + 3 * t) (nth g lrT [])) + (if zf then 0 else if Nat.leb 2 g then 50 else 0)) : RN);
     l_gdq := fun _ g _ _ => if Nat.eqb g 2 then 4%N else 0%N; l_pdq := fun _ _ => 0%N; l_zf := if zf then Some (fun _ _ _ => Some (100 + 3 * 1) : RN) else None; l_nframes := 2;
     l_times := some_times lrT; l_rn := fun _ _ => (Some 5 : RN); l_gain := fun _ _ => (Some 2 : RN); l_dark := fun _ _ => (Some 0 : RN);
     l_h := {| h_one := (Some 20 : RN); h_two := (Some 24 : RN) |}; l_flags := {| o_dnu := 1; o_jump := 4; o_sat := 2; o_pers := 8; o_ngval := 16; o_chg := 32 |}%N; l_snow := None |}.
Lemma lr_good : good_times lrT. Proof. split; [repeat constructor; discriminate|cbn; repeat constructor; lra]. Qed.
Lemma lr_oracles : oracles_ok (fun x _ => x) (fun l => nth 0 l None) 2.
Proof. split; [intros x i X _; exists x; auto|]. split; [|lra]. intros [|x l] E; [cbn in E; lia|]. exists x. reflexivity. Qed.
Definition lrrun zf := likely_ramp_fit RN (fun x _ => x) (fun l => nth 0 l None) (fun l => nth 0 l None) (Some 2 : RN) (fun x => x) (fun _ => 0%Z) (fun _ _ _ _ _ => false) (fun _ => []) (fun _ => []) (fun _ _ => false) (lrL zf).
Lemma lr_defined zf : exists out, lrrun zf = Some out.
Proof.
  pose proof (proj2 (C124_defined RN (fun x _ => x) (fun l => nth 0 l None) (fun l => nth 0 l None) (Some 2 : RN) (fun x => x) (fun _ => 0%Z) (fun _ _ _ _ _ => false) (fun _ => []) (fun _ => []) (fun _ _ => false) (lrL zf) eq_refl)) as D.
  unfold lrrun. match goal with |- exists out, ?x = _ => destruct x as [out|] eqn:E end; [exists out; reflexivity|]. exfalso. apply D; [cbn; lia|reflexivity].
Qed.
Lemma lr_pixel zf : pixel_ok (lrL zf) 0 0. Proof. exists 2, 5, 0. repeat split; lra. Qed.
Example C124_line_ex : forall zf, exists out x, lrrun zf = Some out /\ (forall g, (g < 5)%nat -> fst (fst out) 0%nat g 0%nat 0%nat = if Nat.eqb g 2 then 4%N else 0%N) /\
  snd (fst out) 0%nat 0%nat 0%nat = Some x /\ n_rate RN x = (Some 3 : RN) /\ n_chisq RN x = (Some 0 : RN).
Proof.
  intro zf. destruct (lr_defined zf) as (out & E).
  assert (P : (l_snow (lrL zf) = None -> forall g, (g < 5)%nat -> fst (fst out) 0%nat g 0%nat 0%nat = l_gdq (lrL zf) 0%nat g 0%nat 0%nat) /\
    (forall g, (S g < 5)%nat -> clean (l_gdq (lrL zf) 0%nat g 0%nat 0%nat) -> clean (fst (fst out) 0%nat (S g) 0%nat 0%nat) ->
      exists x, snd (fst out) 0%nat 0%nat 0%nat = Some x /\ n_rate RN x = (Some 3 : RN) /\ n_chisq RN x = (Some 0 : RN))).
  { destruct zf.
    - eapply (C124_line_zeroframe (fun x _ => x) (fun l => nth 0 l None) (fun l => nth 0 l None) 2 (fun x => x) (fun _ => 0%Z) (fun _ _ _ _ _ => false) (fun _ => []) (fun _ => []) (fun _ _ => false) (lrL true) 2 1 out 0 0 0 100 3 1 2 [] [[3; 4]; [5; 6]; [7; 8]; [9; 10]] _ lr_oracles (lr_pixel true)); try exact E; try reflexivity; try apply lr_good; [repeat split; reflexivity|cbn; lia|].
      intros g _. cbn [l_data lrL]. apply (f_equal (@Some R)). apply Rplus_0_r.
    - eapply (C124_line (fun x _ => x) (fun l => nth 0 l None) (fun l => nth 0 l None) 2 (fun x => x) (fun _ => 0%Z) (fun _ _ _ _ _ => false) (fun _ => []) (fun _ => []) (fun _ _ => false) (lrL false) 2 1 out 0 0 0 lrT (fun g => Rmean (map (fun t => 100 + 3 * t) (nth g lrT [])) + (if Nat.leb 2 g then 50 else 0)) 3 lr_oracles (lr_pixel false)); try exact E; try reflexivity; try apply lr_good; [repeat split; reflexivity|cbn; lia|].
      intros g Hg C1 C2. cbn [l_ng lrL] in Hg. rewrite !LkzProps.Rmean_lin by (apply good_ne; [apply lr_good|cbn; lia]).
      do 4 (destruct g as [|g]; [first [cbn [Nat.leb]; ring|discriminate C1|discriminate C2]|]). lia. }
  destruct P as [P1 P2]. specialize (P1 eq_refl). destruct (P2 3%nat ltac:(lia)) as (x & X); [reflexivity|rewrite P1 by lia; reflexivity|].
  exists out, x. split; [exact E|]. split; [exact P1|]. exact X.
Qed.
(** the numbers of RN satisfy what C124_pixels_alone asks for *)
Example C124_pixels_alone_ex : forall x : RN, fadd RN (fmul RN x (fone RN)) (fzero RN) = x.
Proof. intros [x|]; [|reflexivity]. apply (f_equal (@Some R)). ring. Qed.
