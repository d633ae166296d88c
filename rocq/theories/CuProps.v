(** C126: the Casertano fit in another unit of time. *)
From Coq Require Import Reals Lra FunctionalExtensionality.
From Verif Require Import Base BaseLemmas FLaws RBase RNBase ShProps3 Cas22Model Cas22Spec Cas22Proofs Cas22Props UnProps.
Local Open Scope R_scope.

(** ** Specification *)
(** times in units 1/u as large: rates are 1/u, variances 1/u^2 of what they were; DQ words stay *)
Definition fit_time (u : R) (f : rfit RN) : rfit RN := {| f_slope := sc (/ u) (f_slope f); f_read := sc (/ (u * u)) (f_read f); f_poisson := sc (/ (u * u)) (f_poisson f) |}.
(** mean times that differ *)
Definition times_differ (t : nat -> RN) : Prop := forall i j, (i < j)%nat -> fsub RN (t j) (t i) <> Some 0.
(** the threshold does not see the unit *)
Definition threshold_unitless (lg : RN -> RN) (ic cc : RN) (u : R) : Prop := forall s : RN, threshold RN lg ic cc (sc (/ u) s) = threshold RN lg ic cc s.

Lemma c_rel1 x x' : rel 1 x x' -> x' = x. Proof. intro H. rewrite H. symmetry. apply rel_id. Qed.
Lemma c_same a x x' : rel a x x' -> a = 1 -> x' = x. Proof. intros H E. apply c_rel1. subst a. exact H. Qed.
Lemma c_mul1 a x x' y : rel a x x' -> rel a (fmul RN x y) (fmul RN x' y).
Proof. intro H. eapply rel_eq; [apply (rel_mul a 1); [exact H|apply rel_id]|ring]. Qed.
Lemma c_1mul a x x' y : rel a x x' -> rel a (fmul RN y x) (fmul RN y x').
Proof. intro H. eapply rel_eq; [apply (rel_mul 1 a); [apply rel_id|exact H]|ring]. Qed.
Lemma c_div1 a x x' y : rel a x x' -> rel a (fdiv RN x y) (fdiv RN x' y).
Proof. intro H. eapply rel_eq; [apply (rel_div a 1); [lra|exact H|apply rel_id]|field]. Qed.
Lemma c_sum a {A} (f f' : A -> RN) l : (forall i, rel a (f i) (f' i)) -> rel a (sum RN (map f l)) (sum RN (map f' l)).
Proof. intro H. unfold sum. apply rel_fold; [apply Forall2_map_in; intros; apply H|apply rel_0]. Qed.

Lemma c_eqz a x x' : 0 < a -> rel a x x' -> feq RN x' (fzero RN) = feq RN x (fzero RN). Proof. intros A H. apply (rel_eqz a x x' A H). Qed.

Section Time.
  Variable pow : RN -> RN -> RN. Variable lg : RN -> RN.
  Variable u : R. Hypothesis U : 0 < u.
  Variables (y t tau : nat -> RN) (nr : nat -> nat) (rn : RN).
  Hypothesis TD : times_differ t.
  Notation t' := (fun i => sc u (t i)). Notation tau' := (fun i => sc u (tau i)).
  Lemma iu : 0 < / u. Proof. apply Rinv_0_lt_compat, U. Qed.
  (** a ramp's fit; its Poisson part still lacks the rate *)
  Definition frel (f f' : rfit RN) : Prop := rel (/ u) (f_slope f) (f_slope f') /\ rel (/ (u * u)) (f_read f) (f_read f') /\ rel (/ u) (f_poisson f) (f_poisson f').
  Lemma tscale_rel r : (fst r < snd r)%nat -> rel u (t_scale RN t r) (t_scale RN t' r).
  Proof.
    intro H. unfold t_scale. cbv zeta. set (x := fdiv RN _ _). set (x' := fdiv RN (fsub RN (sc u _) _) _).
    assert (X : rel u x x') by (apply c_div1, rel_sub; reflexivity). rewrite (c_eqz u x x' U X).
    assert (F : feq RN x (fzero RN) = false).
    { unfold x. specialize (TD _ _ H). destruct (fsub RN (t (snd r)) (t (fst r))) as [d|]; [|reflexivity]. unfold fz. cbn. unfold Reqb at 2. destruct (Req_EM_T 2 0); [lra|]. cbn.
      unfold Reqb. destruct (Req_EM_T (d / 2) 0) as [E|]; [|reflexivity]. exfalso. apply TD. f_equal. lra. }
    rewrite F. exact X.
  Qed.
  Lemma weight_same r i : (fst r < snd r)%nat -> weight_at RN pow y t' nr rn r i = weight_at RN pow y t nr rn r i.
  Proof.
    intro H. unfold weight_at. cbv zeta. f_equal. f_equal. f_equal.
    eapply c_same; [apply (rel_div u u); [lra| |apply tscale_rel, H]|field; lra]. apply rel_sub; [reflexivity|]. apply c_div1, rel_add; reflexivity.
  Qed.
  Lemma fit_rel_t r : frel (fit_ramp RN pow y t tau nr rn r) (fit_ramp RN pow y t' tau' nr rn r).
  Proof.
    pose proof iu as I. unfold fit_ramp. destruct (Nat.leb_spec (snd r + 1 - fst r) 1); [repeat split; apply rel_nan|]. cbv zeta.
    assert (H1 : (fst r < snd r)%nat) by lia.
    set (f0 := sum RN (map (weight_at RN pow y t nr rn r) _)). set (f1 := sum RN (map (fun i => fmul RN (weight_at RN pow y t nr rn r i) (t i)) _)).
    set (f2 := sum RN (map (fun i => fmul RN (weight_at RN pow y t nr rn r i) (fmul RN (t i) (t i))) _)).
    set (f0' := sum RN (map (weight_at RN pow y t' nr rn r) _)). set (f1' := sum RN (map (fun i => fmul RN (weight_at RN pow y t' nr rn r i) (sc u (t i))) _)).
    set (f2' := sum RN (map (fun i => fmul RN (weight_at RN pow y t' nr rn r i) (fmul RN (sc u (t i)) (sc u (t i)))) _)).
    assert (E0 : f0' = f0) by (unfold f0, f0'; f_equal; apply map_ext; intro; apply weight_same, H1).
    assert (E1 : rel u f1 f1') by (apply c_sum; intro i; rewrite weight_same by exact H1; apply c_1mul; reflexivity).
    assert (E2 : rel (u * u) f2 f2') by (apply c_sum; intro i; rewrite weight_same by exact H1; apply c_1mul, rel_mul; reflexivity).
    rewrite E0. assert (D : rel (u * u) (fsub RN (fmul RN f2 f0) (fmul RN f1 f1)) (fsub RN (fmul RN f2' f0) (fmul RN f1' f1'))) by (apply rel_sub; [apply c_mul1, E2|apply rel_mul; exact E1]).
    rewrite (c_eqz (u * u) _ _ ltac:(nra) D). destruct (feq RN _ (fzero RN)); [repeat split; apply rel_0|].
    set (det := fsub RN (fmul RN f2 f0) (fmul RN f1 f1)) in *. set (det' := fsub RN (fmul RN f2' f0) (fmul RN f1' f1')) in *.
    assert (C : forall i, rel (/ u) (coeff_at RN pow y t nr rn r f0 f1 det i) (coeff_at RN pow y t' nr rn r f0 f1' det' i)).
    { intro i. unfold coeff_at. rewrite weight_same by exact H1. eapply rel_eq; [apply (rel_div u (u * u)); [nra| |exact D]|field; lra]. apply c_mul1, rel_sub; [apply c_1mul; reflexivity|exact E1]. }
    clearbody f0 f1 f1' det det'. clear - C U I.
    assert (G : forall l a s a' s', frel a a' -> s' = s ->
      let go t tau f1 det := fold_left (fun (st : rfit RN * RN) i => let '(a, s) := st in let c := coeff_at RN pow y t nr rn r f0 f1 det i in
        ({| f_slope := fadd RN (f_slope a) (fmul RN c (y i)); f_read := fadd RN (f_read a) (fdiv RN (fmul RN (fmul RN c c) (fmul RN rn rn)) (fn RN (nr i)));
            f_poisson := fadd RN (f_poisson a) (fadd RN (fmul RN (fmul RN c c) (tau i)) (fmul RN (fmul RN (fz RN 2) c) s)) |}, fadd RN s (fmul RN c (t i)))) l in
      frel (fst (go t tau f1 det (a, s))) (fst (go t' tau' f1' det' (a', s')))).
    { induction l as [|i l IH]; intros a s a' s' A ->; [exact A|]. cbv zeta in *. cbn [fold_left]. destruct A as (A1 & A2 & A3). pose proof (C i) as Ci. apply IH; [|].
      - split; [|split]; cbn [f_slope f_read f_poisson].
        + apply rel_add; [exact A1|apply c_mul1, Ci].
        + apply rel_add; [exact A2|]. apply c_div1, c_mul1. eapply rel_eq; [apply rel_mul; exact Ci|]. field. lra.
        + apply rel_add; [exact A3|]. apply rel_add.
          * eapply rel_eq; [apply rel_mul; [apply rel_mul; exact Ci|reflexivity]|]. field. lra.
          * apply c_mul1, c_1mul, Ci.
      - f_equal. eapply c_same; [apply rel_mul; [exact Ci|reflexivity]|]. field. lra. }
    exact (G (members r) (zfit RN) (fzero RN) (zfit RN) (fzero RN) (conj (rel_0 _) (conj (rel_0 _) (rel_0 _))) eq_refl).
  Qed.

  (** the jump statistic *)
  Definition brel (b b' : buffer RN) : Prop := forall d i, rel (/ u) (fst (b d i)) (fst (b' d i)) /\ snd (b' d i) = snd (b d i).
  Lemma cmin_rel a x x' z z' : 0 < a -> rel a x x' -> rel a z z' -> rel a (cmin RN x z) (cmin RN x' z').
  Proof. intros A X Z. unfold cmin. rewrite (rel_lt a z z' x x' A Z X). destruct (flt RN z x); assumption. Qed.
  Lemma xdiff_rel d i : rel u (x_diff RN (fixed_at RN t tau nr d i)) (x_diff RN (fixed_at RN t' tau' nr d i)).
  Proof. cbn [fixed_at x_diff]. apply rel_sub; reflexivity. Qed.
  Lemma xslope_rel d i : rel u (x_slope RN (fixed_at RN t tau nr d i)) (x_slope RN (fixed_at RN t' tau' nr d i)).
  Proof. cbn [fixed_at x_slope]. apply rel_sub; [apply rel_add; reflexivity|]. apply c_1mul, cmin_rel; [exact U|reflexivity|reflexivity]. Qed.
  Lemma pixel_rel_t d i : rel (/ u) (fst (pixel_at RN y t tau nr rn d i)) (fst (pixel_at RN y t' tau' nr rn d i)) /\ snd (pixel_at RN y t' tau' nr rn d i) = snd (pixel_at RN y t tau nr rn d i).
  Proof.
    unfold pixel_at. cbv zeta. cbn [fst snd]. split; [|reflexivity]. eapply rel_eq; [apply (rel_div 1 u); [lra|apply rel_id|apply xdiff_rel]|]. field. lra.
  Qed.
  Lemma fill_rel n b b' : brel b b' -> brel (fill_pixel RN y t tau nr rn n b) (fill_pixel RN y t' tau' nr rn n b').
  Proof.
    intros B d i. unfold fill_pixel. destruct (Nat.ltb i (n - 1)); [|apply B]. destruct (Nat.eqb d 1); [apply pixel_rel_t|]. destruct (Nat.eqb d 2); [|apply B].
    destruct (Nat.ltb i (n - 2)); [apply pixel_rel_t|]. split; [apply rel_nan|reflexivity].
  Qed.
  Lemma stat_same b b' d i s c c' s' : brel b b' -> rel (/ u) s s' -> rel (/ (u * u)) c c' -> statistic RN t' tau' nr b' d i s' c' = statistic RN t tau nr b d i s c.
  Proof.
    intros B S C. destruct (B d i) as [B1 B2]. unfold statistic. destruct (b d i) as [lo va], (b' d i) as [lo' va']. cbn [fst snd] in B1, B2. subst va'. cbv zeta. pose proof iu as I.
    eapply c_same; [apply (rel_div (/ u) (/ u)); [lra|apply rel_sub; assumption|]|field; lra]. apply rel_sqrt; [exact I|]. replace (/ u * / u) with (/ (u * u)) by (field; lra).
    apply rel_add; [|exact C].
    eapply rel_eq; [apply (rel_div 1 (u * u)); [nra| |]|field; lra].
    - apply rel_add; [apply rel_id|]. eapply rel_eq; [apply rel_mul; [exact S|apply xslope_rel]|]. field. lra.
    - cbn [fixed_at x_diff2]. apply rel_mul; apply rel_sub; reflexivity.
  Qed.
  Lemma fstat_same b b' s s' r : brel b b' -> rel (/ u) s s' -> fit_statistic RN t' tau' nr b' s' r = fit_statistic RN t tau nr b s r.
  Proof.
    intros B S. unfold fit_statistic. destruct (Nat.eqb (fst r) (snd r)); [reflexivity|]. cbv zeta.
    assert (C : rel (/ (u * u)) (correction RN t r s) (correction RN t' r s')).
    { unfold correction. eapply rel_eq; [apply (rel_div (/ u) u); [lra| |apply rel_sub; reflexivity]|field; lra]. apply rel_sub; [apply rel_0|exact S]. }
    rewrite (stat_same b b' 1 (snd r - 1) s _ _ s' B S C). generalize (seq 0 (snd r - 1 - fst r)). intro l.
    generalize ((snd r - fst r - 1)%nat, statistic RN t tau nr b 1 (snd r - 1) s (correction RN t r s)). induction l as [|k l IH]; intro st; [reflexivity|]. cbn [fold_left].
    rewrite !(fun d => stat_same b b' d (fst r + k) s _ _ s' B S C). apply IH.
  Qed.
  Lemma detect_same use ic cc b b' r f f' : (use = true -> threshold_unitless lg ic cc u) -> brel b b' -> frel f f' ->
    detect RN lg t' tau' nr use ic cc b' r f' = detect RN lg t tau nr use ic cc b r f.
  Proof.
    intros T B (S & _). unfold detect. destruct use; [|reflexivity]. rewrite (fstat_same b b' _ _ r B S). rewrite S. rewrite (T eq_refl). reflexivity.
  Qed.
  (** the work list *)
  Definition wrel (w w' : work (rfit RN)) : Prop :=
    w_stack w' = w_stack w /\ w_dq w' = w_dq w /\ w_jumps w' = w_jumps w /\ Forall2 (fun x x' => fst x' = fst x /\ frel (snd x) (snd x')) (w_fits w) (w_fits w').
  Lemma loop_rel_t fit fit' det det' fuel : (forall r, frel (fit r) (fit' r)) -> (forall r, det' r (fit' r) = det r (fit r)) -> forall w w', wrel w w' ->
    match loop (rfit RN) fit det fuel w, loop (rfit RN) fit' det' fuel w' with Some v, Some v' => wrel v v' | None, None => True | _, _ => False end.
  Proof.
    intros F D. induction fuel as [|k IH]; intros w w' (W1 & W2 & W3 & W4); cbn [loop]; rewrite W1; (destruct (w_stack w) as [|r rest] eqn:E; [repeat split; congruence|]); [exact I|].
    apply IH. unfold body. cbv zeta. rewrite D. destruct (det r (fit r)) as [j|]; repeat split; cbn [w_stack w_dq w_jumps w_fits]; try congruence.
    apply Forall2_app; [exact W4|]. constructor; [|constructor]. split; [reflexivity|apply F].
  Qed.
End Time.

(** ** The average of the ramps *)
Definition zero_or_nan (x : RN) : Prop := x = None \/ x = Some 0.
Definition nonneg (x : RN) : Prop := match x with Some v => 0 <= v | None => True end.
Lemma zn_rel a b x x' : zero_or_nan x -> rel a x x' -> rel b x x'.
Proof. intros [->| ->] H; [exact H|]. unfold rel in *. rewrite H. cbn. f_equal. ring. Qed.
Lemma zn_add0 x y : zero_or_nan x -> zero_or_nan y -> zero_or_nan (fadd RN x y).
Proof. intros [->| ->] [->| ->]; [left; reflexivity..|right; cbn; f_equal; ring]. Qed.
Lemma zn_0mul x : zero_or_nan (fmul RN (Some 0) x).
Proof. destruct x; [right; cbn; f_equal; ring|left; reflexivity]. Qed.
Lemma nonneg_add x y : nonneg x -> nonneg y -> nonneg (fadd RN x y).
Proof. destruct x, y; cbn; try tauto. lra. Qed.
Lemma fit_nonneg pow y t tau nr rn r : nonneg (f_read (fit_ramp RN pow y t tau nr rn r)).
Proof.
  unfold fit_ramp. destruct (Nat.leb _ 1); [exact I|]. cbv zeta. destruct (feq RN _ _); [cbn; lra|].
  match goal with |- nonneg (f_read (let '(a, _) := ?X in a)) => change (nonneg (f_read (fst X))) end.
  assert (G : forall (c : nat -> RN) (l : list nat) (st : rfit RN * RN), nonneg (f_read (fst st)) ->
    nonneg (f_read (fst (fold_left (fun (st : rfit RN * RN) i => let '(a, s) := st in
      ({| f_slope := fadd RN (f_slope a) (fmul RN (c i) (y i)); f_read := fadd RN (f_read a) (fdiv RN (fmul RN (fmul RN (c i) (c i)) (fmul RN rn rn)) (fn RN (nr i)));
          f_poisson := fadd RN (f_poisson a) (fadd RN (fmul RN (fmul RN (c i) (c i)) (tau i)) (fmul RN (fmul RN (fz RN 2) (c i)) s)) |}, fadd RN s (fmul RN (c i) (t i)))) l st)))).
  { intros c l. induction l as [|i l IH]; intros [a s] H; [exact H|]. cbn [fold_left]. apply IH. cbn [fst f_read] in *. apply nonneg_add; [exact H|].
    destruct (c i) as [v|], rn as [q|]; try exact I. unfold fn. cbn. destruct (Reqb (IZR (Z.of_nat (nr i))) 0) eqn:E; [exact I|]. cbn. rewrite <- INR_IZR_INZ in *.
    assert (P : 0 < INR (nr i)). { destruct (pos_INR (nr i)) as [|Z0]; [assumption|]. exfalso. assert (Reqb (INR (nr i)) 0 = true) by (apply Reqb_spec; congruence). congruence. }
    apply Rmult_le_pos; [nra|]. apply Rlt_le, Rinv_0_lt_compat, P. }
  apply G. cbn. lra.
Qed.
Section Average.
  Variable u : R. Hypothesis U : 0 < u.
  Notation frel := (frel u).
  Definition arel (x x' : rfit RN * RN) : Prop :=
    rel u (f_slope (fst x)) (f_slope (fst x')) /\ rel (u * u) (f_read (fst x)) (f_read (fst x')) /\ rel (u * u * u) (f_poisson (fst x)) (f_poisson (fst x')) /\ rel (u * u) (snd x) (snd x').
  Definition ainv (x : rfit RN * RN) : Prop :=
    nonneg (snd x) /\ (snd x = Some 0 -> zero_or_nan (f_slope (fst x)) /\ zero_or_nan (f_read (fst x)) /\ zero_or_nan (f_poisson (fst x))).
  Lemma inv2 : 0 < / (u * u). Proof. apply Rinv_0_lt_compat. nra. Qed.
  Lemma accumulate_ok f f' x x' : frel f f' -> nonneg (f_read f) -> arel x x' -> ainv x -> arel (accumulate RN x f) (accumulate RN x' f') /\ ainv (accumulate RN x f).
  Proof.
    destruct x as [a tot], x' as [a' tot']. intros (F1 & F2 & F3) NN (A1 & A2 & A3 & A4) (I1 & I2). cbn [fst snd] in *. pose proof inv2 as V.
    unfold accumulate. rewrite (rel_nanb _ _ _ F1). destruct (fisnan RN (f_slope f)) eqn:EN; [split; [repeat split; assumption|split; assumption]|].
    rewrite (c_eqz _ _ _ V F2).
    assert (W : rel (u * u) (if feq RN (f_read f) (fzero RN) then fzero RN else fdiv RN (fone RN) (f_read f)) (if feq RN (f_read f) (fzero RN) then fzero RN else fdiv RN (fone RN) (f_read f'))).
    { destruct (feq RN (f_read f) (fzero RN)); [apply rel_0|]. eapply rel_eq; [apply rel_one; [|exact F2]; lra|]. field. lra. }
    set (w := if feq RN (f_read f) (fzero RN) then fzero RN else fdiv RN (fone RN) (f_read f)) in *. set (w' := if feq RN (f_read f) (fzero RN) then fzero RN else fdiv RN (fone RN) (f_read f')) in *.
    cbv zeta. split.
    - unfold arel. cbn [fst snd f_slope f_read f_poisson]. split; [|split; [|split]].
      + apply rel_add; [exact A1|]. eapply rel_eq; [apply rel_mul; [exact W|exact F1]|]. field. lra.
      + apply rel_add; [exact A2|]. eapply rel_eq; [apply rel_mul; [apply rel_mul; exact W|exact F2]|]. field. lra.
      + apply rel_add; [exact A3|]. eapply rel_eq; [apply rel_mul; [apply rel_mul; exact W|exact F3]|]. field. lra.
      + apply rel_add; assumption.
    - unfold ainv. cbn [fst snd f_slope f_read f_poisson].
      assert (C : w = None \/ (exists v, w = Some v /\ 0 < v) \/ w = Some 0).
      { unfold w. destruct (f_read f) as [v|]; [|left; reflexivity]. cbn in NN |- *. destruct (Reqb v 0) eqn:E; [right; right; reflexivity|]. right. left. exists (1 / v). split; [reflexivity|].
        assert (v <> 0) by (intro Z; apply Reqb_spec in Z; congruence). apply Rdiv_lt_0_compat; lra. }
      destruct C as [-> |[(v & -> & P)| ->]].
      + assert (Z : fadd RN tot None = None) by (destruct tot; reflexivity). rewrite Z. split; [exact I|discriminate].
      + destruct tot as [q|]; [|split; [exact I|discriminate]]. cbn in I1 |- *. split; [lra|]. intro Z. exfalso. assert (q + v = 0) by congruence. lra.
      + assert (Z : fadd RN tot (Some 0) = tot) by (destruct tot; [cbn; f_equal; ring|reflexivity]). rewrite Z. split; [exact I1|]. intro T0. destruct (I2 T0) as (Z1 & Z2 & Z3).
        assert (SQ : fmul RN (Some 0 : RN) (Some 0 : RN) = (Some 0 : RN)) by (cbn; f_equal; ring). rewrite SQ. repeat split; apply zn_add0; try assumption; apply zn_0mul.
  Qed.
  Lemma average_rel l l' : Forall2 frel l l' -> Forall (fun f => nonneg (f_read f)) l -> average RN l' = fit_time u (average RN l).
  Proof.
    intros H P. unfold average.
    assert (G : forall x x', arel x x' -> ainv x -> arel (fold_left (accumulate RN) l x) (fold_left (accumulate RN) l' x') /\ ainv (fold_left (accumulate RN) l x)).
    { induction H as [|f f' l l' F _ IH]; intros x x' A I; [split; assumption|]. inversion P as [|? ? P1 P2]; subst. cbn [fold_left]. destruct (accumulate_ok f f' x x' F P1 A I) as [A' I']. apply IH; assumption. }
    assert (X : arel (zfit RN, fzero RN) (zfit RN, fzero RN)) by (repeat split; apply rel_0).
    assert (Y : ainv (zfit RN, fzero RN)) by (split; [cbn; lra|intros _; repeat split; right; reflexivity]).
    destruct (G _ _ X Y) as ((A1 & A2 & A3 & A4) & I1 & I2). clear G X Y. destruct (fold_left (accumulate RN) l _) as [a tot], (fold_left (accumulate RN) l' _) as [a' tot']. cbn [fst snd] in *.
    cbv zeta. rewrite (c_eqz (u * u) tot tot' ltac:(nra) A4).
    assert (S : rel (/ u) (fdiv RN (f_slope a) (if feq RN tot (fzero RN) then fone RN else tot)) (fdiv RN (f_slope a') (if feq RN tot (fzero RN) then fone RN else tot'))).
    { destruct (feq RN tot (fzero RN)) eqn:E.
      - assert (T0 : tot = Some 0) by (destruct tot as [q|]; [|discriminate E]; apply Reqb_spec in E; f_equal; exact E). apply c_div1. apply (zn_rel u); [apply I2, T0|exact A1].
      - eapply rel_eq; [apply rel_div; [|exact A1|exact A4]; nra|]. field. lra. }
    assert (D2 : forall x x' e, rel (e * (u * u * (u * u))) x x' -> (tot = Some 0 -> zero_or_nan x) ->
      rel e (fdiv RN x (if feq RN tot (fzero RN) then fone RN else fmul RN tot tot)) (fdiv RN x' (if feq RN tot (fzero RN) then fone RN else fmul RN tot' tot'))).
    { intros x x' e X Z. destruct (feq RN tot (fzero RN)) eqn:E.
      - assert (T0 : tot = Some 0) by (destruct tot as [q|]; [|discriminate E]; apply Reqb_spec in E; f_equal; exact E). apply c_div1. eapply zn_rel; [apply Z, T0|exact X].
      - eapply rel_eq; [apply rel_div; [|exact X|apply rel_mul; exact A4]|field; lra]. assert (0 < u * u) by nra. nra. }
    unfold fit_time. cbn [f_slope f_read f_poisson]. f_equal.
    - exact S.
    - apply D2; [|intro T0; apply I2, T0]. eapply rel_eq; [exact A2|]. field. lra.
    - eapply rel_eq; [apply rel_mul|].
      + apply (D2 _ _ (/ u)); [|intro T0; apply I2, T0]. eapply rel_eq; [exact A3|]. field. lra.
      + unfold cmax0. pose proof (Rinv_0_lt_compat u U) as V. rewrite (rel_lt (/ u) _ _ (fzero RN) (fzero RN) V S (rel_0 _)). destruct (flt RN _ (fzero RN)); [apply rel_0|exact S].
      + field. lra.
  Qed.
End Average.

(** ** C126 *)
(** One pixel: with a threshold that does not see the unit (or no jump detection), the ramp is cut at the same places, the DQ is the same and the averages follow the unit. *)
Theorem C126_pixel : forall pow lg use ic cc u t tau nr n y dq rn b b', 0 < u -> times_differ t -> (use = true -> threshold_unitless lg ic cc u) ->
  match fit_jumps RN pow lg use ic cc t tau nr n y dq rn b, fit_jumps RN pow lg use ic cc (fun i => sc u (t i)) (fun i => sc u (tau i)) nr n y dq rn b' with
  | Some (o, _), Some (o', _) => p_avg RN o' = fit_time u (p_avg RN o) /\ p_dq RN o' = p_dq RN o /\ p_jumps RN o' = p_jumps RN o /\ map fst (p_fits RN o') = map fst (p_fits RN o)
  | None, None => True
  | _, _ => False
  end.
Proof.
  intros pow lg use ic cc u t tau nr n y dq rn b b' U TD TH.
  set (t' := fun i => sc u (t i)). set (tau' := fun i => sc u (tau i)). set (bs := fun d i => (sc (/ u) (fst (b d i)), snd (b d i))).
  pose proof (C65_buffer_irrelevant RN RN_laws eq_refl pow lg use ic cc t' tau' nr n y dq rn b' bs) as BI.
  assert (B0 : brel u b bs) by (intros d i; split; reflexivity).
  assert (M : match fit_jumps RN pow lg use ic cc t tau nr n y dq rn b, fit_jumps RN pow lg use ic cc t' tau' nr n y dq rn bs with
    | Some (o, _), Some (o', _) => p_avg RN o' = fit_time u (p_avg RN o) /\ p_dq RN o' = p_dq RN o /\ p_jumps RN o' = p_jumps RN o /\ map fst (p_fits RN o') = map fst (p_fits RN o)
    | None, None => True | _, _ => False end).
  { unfold fit_jumps. cbv zeta. set (B1 := if use then fill_pixel RN y t tau nr rn n b else b). set (B2 := if use then fill_pixel RN y t' tau' nr rn n bs else bs).
    assert (BB : brel u B1 B2) by (unfold B1, B2; destruct use; [apply fill_rel|]; assumption).
    unfold split_ramps. set (w0 := {| w_stack := rev (init_ramps dq n); w_dq := dq; w_fits := []; w_jumps := [] |}).
    pose proof (loop_rel_t u (fit_ramp RN pow y t tau nr rn) (fit_ramp RN pow y t' tau' nr rn) (detect RN lg t tau nr use ic cc B1) (detect RN lg t' tau' nr use ic cc B2) n) as LR.
    assert (F : forall r, frel u (fit_ramp RN pow y t tau nr rn r) (fit_ramp RN pow y t' tau' nr rn r)) by (intro r; apply fit_rel_t; assumption).
    specialize (LR F). assert (DD : forall r, detect RN lg t' tau' nr use ic cc B2 r (fit_ramp RN pow y t' tau' nr rn r) = detect RN lg t tau nr use ic cc B1 r (fit_ramp RN pow y t tau nr rn r))
      by (intro r; apply (detect_same lg u U t tau nr); [exact TH|exact BB|apply F]).
    specialize (LR DD w0 w0 ltac:(repeat split; constructor)).
    assert (NN : forall w, loop (rfit RN) (fit_ramp RN pow y t tau nr rn) (detect RN lg t tau nr use ic cc B1) n w0 = Some w -> Forall (fun f => nonneg (f_read f)) (map snd (w_fits w))).
    { assert (Z : Forall (fun f => nonneg (f_read f)) (map snd (w_fits w0))) by constructor. revert Z. generalize w0. generalize n at 1. intro k. clear. induction k as [|k IH]; intros w0 Z w E; cbn [loop] in E; destruct (w_stack w0) as [|r rest] eqn:ES; try discriminate; try (injection E as <-; exact Z).
      apply (IH _) in E; [exact E|]. unfold body. cbv zeta. destruct (detect _ _ _ _ _ _ _ _ _ _ _); cbn [w_fits]; [exact Z|]. rewrite map_app. apply Forall_app. split; [exact Z|]. constructor; [apply fit_nonneg|constructor]. }
    destruct (loop (rfit RN) (fit_ramp RN pow y t tau nr rn) _ n w0) as [w|], (loop (rfit RN) (fit_ramp RN pow y t' tau' nr rn) _ n w0) as [w'|]; try exact LR. cbn [bind]. cbn [p_avg p_dq p_jumps p_fits].
    destruct LR as (_ & L2 & L3 & L4). repeat split; try assumption.
    - apply average_rel; [exact U| |apply NN; reflexivity]. clear - L4. induction L4 as [|x x' l l' [_ F] _ IH]; constructor; assumption.
    - clear - L4. induction L4 as [|x x' l l' [E _] _ IH]; [reflexivity|]. cbn [map]. congruence. }
  destruct (fit_jumps RN pow lg use ic cc t tau nr n y dq rn b) as [[o b1]|], (fit_jumps RN pow lg use ic cc t' tau' nr n y dq rn bs) as [[o' b2]|], (fit_jumps RN pow lg use ic cc t' tau' nr n y dq rn b') as [[o'' b3]|]; try discriminate BI; try exact M.
  cbn [option_map fst] in BI. injection BI as ->. exact M.
Qed.
Print Assumptions C126_pixel.

(** the mean read number of a resultant *)
Definition mean_read (reads : list Z) : R := IZR (fold_right Z.add 0%Z reads) / INR (length reads).
(** resultants with reads, at different mean times *)
Definition pattern_ok (pattern : list (list Z)) : Prop :=
  (forall l, In l pattern -> l <> []) /\ (forall i j, (i < j)%nat -> (j < length pattern)%nat -> mean_read (nth i pattern []) <> mean_read (nth j pattern [])).
Lemma sum_reads reads : sum RN (map (fz RN) reads) = (Some (IZR (fold_right Z.add 0%Z reads)) : RN).
Proof.
  unfold sum. assert (G : forall l (a : R), fold_left (fadd RN) (map (fz RN) l) (Some a : RN) = (Some (a + IZR (fold_right Z.add 0%Z l)) : RN)).
  { induction l as [|z l IH]; intro a; [cbn; f_equal; ring|]. cbn [map fold_left fold_right]. change (fadd RN (Some a : RN) (fz RN z)) with (Some (a + IZR z) : RN). rewrite IH, plus_IZR. f_equal. ring. }
  change (fzero RN) with (Some 0 : RN). rewrite G. f_equal. ring.
Qed.
Lemma t_bar_is (v : R) reads : reads <> [] -> t_bar_of RN (Some v) reads = (Some (v * mean_read reads) : RN).
Proof.
  intro H. unfold t_bar_of. rewrite sum_reads. unfold fn, mean_read. cbn. rewrite <- INR_IZR_INZ. assert (P : INR (length reads) <> 0) by (apply not_0_INR; destruct reads; [congruence|discriminate]).
  destruct (Reqb (INR (length reads)) 0) eqn:E; [apply Reqb_spec in E; contradiction|]. reflexivity.
Qed.
Lemma pattern_times (v : R) pattern : v <> 0 -> pattern_ok pattern -> times_differ (fun i => t_bar_of RN (Some v) (nth i pattern [])).
Proof.
  intros V (NE & D) i j L. destruct (Nat.lt_ge_cases j (length pattern)) as [J|J].
  - rewrite !t_bar_is by (apply NE, nth_In; lia). cbn. intro E. assert (E' : v * mean_read (nth j pattern []) - v * mean_read (nth i pattern []) = 0) by congruence.
    apply (D i j L J). apply Rmult_eq_reg_l with v; [lra|exact V].
  - rewrite (nth_overflow pattern [] J). assert (N : t_bar_of RN (Some v) [] = (None : RN)). { unfold t_bar_of. cbn. unfold Reqb. destruct (Req_EM_T 0 0); [reflexivity|congruence]. }
    rewrite N. cbn. discriminate.
Qed.
Definition out_time (u : R) (x : rfit RN * RN * (nat -> Z)) : rfit RN * RN * (nat -> Z) := let '(f, v, q) := x in (fit_time u f, sc (/ (u * u)) v, q).
(** All pixels: in units of time 1/u as large, every rate is 1/u, every variance (read noise, Poisson, total) 1/u^2 of what it was, and every DQ word the same, if jump detection is off
    or its threshold does not see the unit. *)
Theorem C126_time : forall pow lg use ic cc u (rt : R) pattern n np y dq rn b b', 0 < u -> rt <> 0 -> pattern_ok pattern -> (use = true -> threshold_unitless lg ic cc u) ->
  fit_ramps RN pow lg use ic cc (sc u (Some rt)) pattern n np y dq rn b' = option_map (map (out_time u)) (fit_ramps RN pow lg use ic cc (Some rt) pattern n np y dq rn b).
Proof.
  intros pow lg use ic cc u rt pattern n np y dq rn b b' U RT PO TH.
  destruct (Nat.eq_dec n (length pattern)) as [EL|NL]; [|rewrite !C65_wrong_length by exact NL; reflexivity].
  destruct (Bool.bool_dec (use && Nat.eqb n 0) true) as [Z|Z]; [unfold fit_ramps; rewrite Z, orb_true_r; reflexivity|].
  assert (Z' : use = true -> n <> 0%nat) by (intros -> E0; apply Z; subst n; rewrite E0; reflexivity).
  destruct (C65_pixels_independent RN RN_laws eq_refl pow lg use ic cc (Some rt) pattern n np y dq rn b EL Z') as (outs & E & LEN & H).
  destruct (C65_pixels_independent RN RN_laws eq_refl pow lg use ic cc (sc u (Some rt)) pattern n np y dq rn b' EL Z') as (outs' & E' & LEN' & H').
  rewrite E, E'. cbn [option_map]. f_equal. apply nth_ext with (d := out_time u (zfit RN, fzero RN, fun _ => 0%Z)) (d' := out_time u (zfit RN, fzero RN, fun _ => 0%Z)); [rewrite map_length; congruence|].
  intros p P. rewrite LEN' in P. rewrite (map_nth (out_time u)).
  destruct (H p b P) as (o & b1 & A1 & A2). destruct (H' p b' P) as (o' & b2 & A1' & A2').
  rewrite (nth_error_nth _ _ _ A2). rewrite (nth_error_nth _ _ _ A2').
  assert (TB : (fun i => t_bar_of RN (sc u (Some rt)) (nth i pattern [])) = fun i => sc u (t_bar_of RN (Some rt) (nth i pattern []))).
  { apply functional_extensionality; intro i. unfold t_bar_of. apply c_mul1. reflexivity. }
  assert (TA : (fun i => tau_of RN (sc u (Some rt)) (nth i pattern [])) = fun i => sc u (tau_of RN (Some rt) (nth i pattern []))).
  { apply functional_extensionality; intro i. unfold tau_of. cbv zeta. apply c_div1, c_1mul. reflexivity. }
  rewrite TB, TA in A1'.
  pose proof (C126_pixel pow lg use ic cc u _ (fun i => tau_of RN (Some rt) (nth i pattern [])) (fun i => length (nth i pattern [])) n (fun i => y i p) (fun i => dq i p) (rn p) b b' U (pattern_times rt pattern RT PO) TH) as Q.
  rewrite A1, A1' in Q. destruct Q as (Q1 & Q2 & _). unfold out_time. rewrite Q1, Q2. unfold fit_time at 2 3. cbn [f_read f_poisson]. f_equal. f_equal. apply rel_add; reflexivity.
Qed.
Print Assumptions C126_time.
(** Thresholds with a slope-dependent part of zero do not see the unit, with any logarithm that is a number between 1 and 10000. *)
Theorem C126_flat_threshold : forall lg (ic : RN) u, (forall x, 1 <= x <= 10000 -> exists z, lg (Some x) = (Some z : RN)) -> threshold_unitless lg ic (Some 0) u.
Proof.
  intros lg ic u LG. assert (E : forall s : RN, threshold RN lg ic (Some 0) s = fsub RN ic (Some 0)).
  { intro s. unfold threshold. cbv zeta.
    assert (B : exists x, (if flt RN (if flt RN (fone RN) s then s else fone RN) (fz RN 10000) then (if flt RN (fone RN) s then s else fone RN) else fz RN 10000) = (Some x : RN) /\ 1 <= x <= 10000).
    { destruct s as [v|]; [|exists 1; split; [|lra]].
      - cbn. destruct (Rltb 1 v) eqn:E1; cbn.
        + apply Rltb_spec in E1. destruct (Rltb v 10000) eqn:E2; [apply Rltb_spec in E2; exists v; split; [reflexivity|lra]|exists 10000; split; [reflexivity|lra]].
        + exists 1. split; [|lra]. unfold Rltb. destruct (Rlt_dec 1 10000); [reflexivity|lra].
      - cbn. unfold Rltb. destruct (Rlt_dec 1 10000); [reflexivity|lra]. }
    destruct B as (x & -> & X). destruct (LG x X) as (z & ->). f_equal. cbn. f_equal. ring. }
  intro s. rewrite !E. reflexivity.
Qed.
Print Assumptions C126_flat_threshold.

(** The default threshold falls with the rate, in counts per whatever the unit of time is (between 1 and 10000): the same exposure gives other flags in another unit.
    Six resultants of one read, a step of 46 with read noise 10 (weights 1: the exponent is 0); the logarithm is only taken of 1 and 10000. *)
Definition cq (z : Z) : B64 := fofZ B64 z.
Definition cu_lg (x : B64) : B64 := if feq B64 x (cq 10000) then cq 4 else fzero B64.
Definition cu_y (i : nat) : B64 := nth i (map cq [0; 2; 4; 50; 52; 54]%Z) (cq 0).
Definition cu_flags (ic cc rt : B64) : option (list Z) :=
  match fit_ramps B64 (fun _ _ => fone B64) cu_lg true ic cc rt [[1]; [2]; [3]; [4]; [5]; [6]]%Z 6 1 (fun i _ => cu_y i) (fun _ _ => 0%Z) (fun _ => cq 10) (fun _ _ => (cq 0, cq 0)) with
  | Some [(_, _, d)] => Some (map d (seq 0 6))
  | _ => None
  end.
Theorem C126_threshold_refuted : exists rt rt', ramp_power B64 cu_y (cq 10) (0, 5)%nat = fzero B64 /\ cu_flags (cq 4) (fdiv B64 (fone B64) (cq 2)) rt <> cu_flags (cq 4) (fdiv B64 (fone B64) (cq 2)) rt'.
Proof. exists (fdiv B64 (fone B64) (cq 1048576)), (cq 16). split; [vm_compute; reflexivity|]. vm_compute. discriminate. Qed.
Print Assumptions C126_threshold_refuted.
(** with the constant part only, both units find the step *)
Example C126_flat_ex : cu_flags (cq 2) (cq 0) (fdiv B64 (fone B64) (cq 1048576)) = Some [0; 0; 4; 4; 0; 0]%Z /\ cu_flags (cq 2) (cq 0) (cq 16) = Some [0; 0; 4; 4; 0; 0]%Z /\
  pattern_ok [[1]; [2; 3]; [6]]%Z /\ threshold_unitless (fun x => x) (Some 4) (Some 0) 16.
Proof.
  split; [vm_compute; reflexivity|]. split; [vm_compute; reflexivity|]. split.
  - split; [intros l [<-|[<-|[<-|[]]]]; discriminate|]. intros [|[|[|i]]] [|[|[|j]]] H1 H2; cbn in H1, H2; try lia; unfold mean_read; cbn; lra.
  - apply C126_flat_threshold. intros x _. exists x. reflexivity.
Qed.
