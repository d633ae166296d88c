(** C28 for one pixel with missing values: flagged resultants may hold anything, NaN included, and the fit of a ramp with a
    single resultant is NaN, as in the code. *)
From Coq Require Import Reals Lra FunctionalExtensionality.
From Verif Require Import Base BaseLemmas FLaws RBase RNBase Cas22Model Cas22Spec Cas22Fit Cas22Proofs Cas22Props CpProps.
Local Open Scope R_scope.

Definition lift_fit (f : rfit RF) : rfit RN := {| f_slope := Some (f_slope f : R) : RN; f_read := Some (f_read f : R) : RN; f_poisson := Some (f_poisson f : R) : RN |}.
Lemma l_div (a b : R) : b <> 0 -> fdiv RN (Some a) (Some b) = (Some (a / b) : RN).
Proof. intro H. cbn. destruct (Reqb b 0) eqn:E; [apply Reqb_spec in E; contradiction|reflexivity]. Qed.
Lemma l_power (x : R) : get_power RN (Some x) = (Some (get_power RF x : R) : RN).
Proof.
  unfold get_power, PTABLE. unfold fz. change (fdiv RN (fofZ RN 4) (fofZ RN 10)) with (fdiv RN (Some 4 : RN) (Some 10 : RN)). rewrite l_div by lra. cbn [find fst]. cbn [fofZ RN RF flt rncmp fzero fone fdiv].
  repeat (destruct (Rltb x _); [reflexivity|]). reflexivity.
Qed.
Lemma rfit_eq (a b c a' b' c' : RN) : a = a' -> b = b' -> c = c' -> {| f_slope := a; f_read := b; f_poisson := c |} = {| f_slope := a'; f_read := b'; f_poisson := c' |}.
Proof. intros -> -> ->. reflexivity. Qed.
Section Lift.
  Variable pow : R -> R -> R. Variable pow' : RN -> RN -> RN.
  Hypothesis POW : pow_ok pow.
  Hypothesis POW' : forall x p, 0 <= x -> pow' (Some x) (Some p) = (Some (pow x p) : RN).
  Variables (y t tau : nat -> R) (y' : nat -> RN) (nr : nat -> nat) (rn : R).
  Hypothesis RN0 : rn <> 0.
  Notation t' := (fun i => Some (t i) : F RN). Notation tau' := (fun i => Some (tau i) : F RN).
  Variable r : ramp.
  Hypothesis L : (fst r < snd r)%nat.
  Hypothesis T : t (fst r) <> t (snd r).
  Hypothesis K : forall i, (fst r <= i <= snd r)%nat -> (1 <= nr i)%nat.
  Hypothesis Y : forall i, (fst r <= i <= snd r)%nat -> y' i = (Some (y i) : RN).
  Lemma l_rpower : ramp_power RN y' (Some rn) r = (Some (ramp_power RF y rn r : R) : RN).
  Proof.
    unfold ramp_power. rewrite !Y by lia. cbv zeta.
    assert (M : fmaxf RN (fsub RN (Some (y (snd r))) (Some (y (fst r)))) (fzero RN) = (Some (fmaxf RF (fsub RF (y (snd r)) (y (fst r))) (fzero RF) : R) : RN)).
    { unfold fmaxf. cbn [fsub RN rn2 fisnan fzero flt rncmp RF]. destruct (Rltb _ 0); reflexivity. }
    rewrite M. set (p := fmaxf RF _ _). assert (P : 0 <= p).
    { unfold p, fmaxf. cbn [fisnan RF fsub fzero flt]. destruct (Rltb _ 0) eqn:E; [lra|]. destruct (Rlt_le_dec (y (snd r) - y (fst r)) 0) as [H|H]; [apply Rltb_spec in H; congruence|exact H]. }
    assert (Q : 0 < rn * rn + p) by (pose proof (Rlt_0_sqr rn RN0); unfold Rsqr in *; lra).
    cbn [fmul fadd fsqrt RN rn2]. change (F RF) with R in *. destruct (Rltb (rn * rn + p) 0) eqn:E; [apply Rltb_spec in E; lra|].
    rewrite l_div; [apply l_power|]. apply Rgt_not_eq, sqrt_lt_R0, Q.
  Qed.
  Lemma l_tscale : t_scale RN t' r = (Some (t_scale RF t r : R) : RN) /\ t_scale RF t r <> 0.
  Proof.
    unfold t_scale, fz. cbn [fsub RN rn2 fofZ]. rewrite l_div by lra. cbn [feq rncmp RN fzero fone RF fsub fdiv fofZ]. cbv zeta. destruct (Reqb _ 0) eqn:E.
    - split; [reflexivity|]. apply Reqb_spec in E. lra.
    - split; [reflexivity|]. intro H. change (F RF) with R in *. lra.
  Qed.
  Lemma l_weight i : (fst r <= i <= snd r)%nat -> weight_at RN pow' y' t' nr (Some rn) r i = (Some (weight_at RF pow y t nr rn r i : R) : RN).
  Proof.
    intro I. unfold weight_at. rewrite l_rpower. destruct l_tscale as [-> S]. cbv zeta. set (p := ramp_power RF y rn r).
    assert (P : 0 <= p) by apply power_nonneg. pose proof (K i I) as N. apply le_INR in N. cbn in N.
    unfold fn, fz. cbn [fadd fsub fmul RN rn2 fone fofZ fabs option_map]. rewrite <- INR_IZR_INZ. change (F RF) with R in *.
    rewrite (l_div _ (1 + p * INR (nr i))) by nra. rewrite (l_div _ 2) by lra. cbn [fsub RN rn2]. rewrite l_div by exact S. cbn [fabs RN option_map]. rewrite POW' by apply Rabs_pos.
    change (fofZ RF (Z.of_nat (nr i))) with (IZR (Z.of_nat (nr i))). rewrite <- INR_IZR_INZ. reflexivity.
  Qed.
  Lemma l_sum (g : nat -> R) (f : nat -> RN) : (forall i, (fst r <= i <= snd r)%nat -> f i = (Some (g i) : RN)) -> sum RN (map f (members r)) = (Some (Rsum (map g (members r))) : RN).
  Proof.
    intro H. rewrite sum_acc. change (fzero RN) with (Some 0 : RN). rewrite (acc_some g); [f_equal; ring|]. intros i I. apply members_in in I. apply H. lia.
  Qed.
  Lemma l_fit : fit_ramp RN pow' y' t' tau' nr (Some rn) r = lift_fit (fit_ramp RF pow y t tau nr rn r).
  Proof.
    pose proof (ramp_det_pos pow y t tau nr rn POW r L T K) as D. unfold det in D. cbv zeta in D.
    unfold fit_ramp. destruct (Nat.leb_spec (snd r + 1 - fst r) 1); [lia|]. cbv zeta.
    rewrite (l_sum (weight_at RF pow y t nr rn r) (weight_at RN pow' y' t' nr (Some rn) r)) by (intros; apply l_weight; assumption).
    rewrite (l_sum (fun i => weight_at RF pow y t nr rn r i * t i) (fun i => fmul RN (weight_at RN pow' y' t' nr (Some rn) r i) (Some (t i)))) by (intros; rewrite l_weight by assumption; reflexivity).
    rewrite (l_sum (fun i => weight_at RF pow y t nr rn r i * (t i * t i)) (fun i => fmul RN (weight_at RN pow' y' t' nr (Some rn) r i) (fmul RN (Some (t i)) (Some (t i))))) by (intros; rewrite l_weight by assumption; reflexivity).
    rewrite !sum_R. unfold wt in D. change (fmul RF) with Rmult. change (fsub RF) with Rminus. change (F RF) with R in *.
    set (f0 := Rsum (map (weight_at RF pow y t nr rn r) (members r))) in *.
    set (f1 := Rsum (map (fun i => weight_at RF pow y t nr rn r i * t i) (members r))) in *.
    set (f2 := Rsum (map (fun i => weight_at RF pow y t nr rn r i * (t i * t i)) (members r))) in *.
    cbn [fmul fsub RN rn2]. set (d := f2 * f0 - f1 * f1) in *.
    change (0 < d) in D. cbn [feq RN rncmp fzero RF]. destruct (Reqb d 0) eqn:E; [apply Reqb_spec in E; lra|]. match goal with |- context [if Reqb ?e 0 then zfit RF else _] => change e with d end. rewrite E. assert (D0 : d <> 0) by lra.
    assert (C : forall i, (fst r <= i <= snd r)%nat -> coeff_at RN pow' y' t' nr (Some rn) r (Some f0) (Some f1) (Some d) i = (Some (coeff_at RF pow y t nr rn r f0 f1 d i : R) : RN)).
    { intros i I. unfold coeff_at. rewrite l_weight by exact I. cbn [fmul fsub RN rn2]. rewrite l_div by exact D0. reflexivity. }
    assert (G : forall l (a : rfit RF) (s : R), (forall i, In i l -> (fst r <= i <= snd r)%nat) ->
      let step1 := fun (st : rfit RN * RN) i => let '(a, s) := st in let c := coeff_at RN pow' y' t' nr (Some rn) r (Some f0) (Some f1) (Some d) i in
        ({| f_slope := fadd RN (f_slope a) (fmul RN c (y' i)); f_read := fadd RN (f_read a) (fdiv RN (fmul RN (fmul RN c c) (fmul RN (Some rn) (Some rn))) (fn RN (nr i)));
            f_poisson := fadd RN (f_poisson a) (fadd RN (fmul RN (fmul RN c c) (Some (tau i))) (fmul RN (fmul RN (fz RN 2) c) s)) |}, fadd RN s (fmul RN c (Some (t i)))) in
      let step2 := fun (st : rfit RF * RF) i => let '(a, s) := st in let c := coeff_at RF pow y t nr rn r f0 f1 d i in
        ({| f_slope := fadd RF (f_slope a) (fmul RF c (y i)); f_read := fadd RF (f_read a) (fdiv RF (fmul RF (fmul RF c c) (fmul RF rn rn)) (fn RF (nr i)));
            f_poisson := fadd RF (f_poisson a) (fadd RF (fmul RF (fmul RF c c) (tau i)) (fmul RF (fmul RF (fz RF 2) c) s)) |}, fadd RF s (fmul RF c (t i))) in
      fst (fold_left step1 l (lift_fit a, Some s)) = lift_fit (fst (fold_left step2 l (a, s)))).
    { intros l a s H1 step1 step2. assert (ST : forall i a s, (fst r <= i <= snd r)%nat -> step1 (lift_fit a, Some s : F RN) i = (lift_fit (fst (step2 (a, s) i)), Some (snd (step2 (a, s) i) : R) : F RN)).
      { intros i a1 s1 I. unfold step1, step2. cbv zeta. cbn [fst snd]. rewrite C, Y by exact I. pose proof (K i I) as N. apply le_INR in N. cbn in N.
        set (c := coeff_at RF pow y t nr rn r f0 f1 d i). apply (f_equal2 pair); [|reflexivity]. unfold lift_fit. cbn [f_slope f_read f_poisson].
        assert (Q : fdiv RN (fmul RN (fmul RN (Some c) (Some c)) (fmul RN (Some rn) (Some rn))) (fn RN (nr i)) = (Some (fdiv RF (fmul RF (fmul RF c c) (fmul RF rn rn)) (fn RF (nr i)) : R) : RN)).
        { unfold fn. cbn [fmul RN rn2 fofZ RF fdiv]. change (IZR (Z.of_nat (nr i))) with (IZR (Z.of_nat (nr i)) : R). rewrite <- INR_IZR_INZ. apply l_div. lra. }
        apply rfit_eq; [reflexivity|exact (f_equal (fadd RN (Some (f_read a1 : R))) Q)|reflexivity]. }
      revert a s. induction l as [|i l IH]; intros a s; [reflexivity|]. cbn [fold_left]. rewrite ST by (apply H1; left; reflexivity).
      rewrite IH by (intros j J; apply H1; right; exact J). destruct (step2 (a, s) i). reflexivity. }
    refine (G (members r) (zfit RF) 0 _). intros i I. apply members_in in I. lia.
  Qed.
End Lift.

(** ** The average of the fits of a pixel whose ramps all have the rate [b] *)
Definition slope_fit (b : R) (f : rfit RN) : Prop := exists v p : R, 0 < v /\ f = {| f_slope := Some b : RN; f_read := Some v : RN; f_poisson := Some p : RN |}.
Lemma avg_line b fits : (forall f, In f fits -> f = nanfit RN \/ slope_fit b f) -> (exists f, In f fits /\ slope_fit b f) ->
  exists v p : R, 0 < v /\ average RN fits = {| f_slope := Some b : RN; f_read := Some v : RN; f_poisson := Some p : RN |}.
Proof.
  intros A (f0 & I0 & S0). unfold average.
  assert (G : forall l (W P : R), (forall f, In f l -> f = nanfit RN \/ slope_fit b f) -> 0 <= W -> exists W' P' : R,
    W <= W' /\ ((exists f, In f l /\ slope_fit b f) -> W < W') /\
    fold_left (accumulate RN) l ({| f_slope := Some (W * b) : RN; f_read := Some W : RN; f_poisson := Some P : RN |}, Some W : F RN) =
      ({| f_slope := Some (W' * b) : RN; f_read := Some W' : RN; f_poisson := Some P' : RN |}, Some W' : F RN)).
  { induction l as [|f l IH]; intros W P H HW; [exists W, P; split; [lra|split; [intros (f & [] & _)|reflexivity]]|]. cbn [fold_left].
    destruct (H f (or_introl eq_refl)) as [->|(v & p & V & ->)].
    - change (accumulate RN _ (nanfit RN)) with ({| f_slope := Some (W * b) : RN; f_read := Some W : RN; f_poisson := Some P : RN |}, Some W : F RN).
      destruct (IH W P (fun f I => H f (or_intror I)) HW) as (W' & P' & Q1 & Q2 & Q3). exists W', P'. split; [exact Q1|]. split; [|exact Q3].
      intros (f & [<-|I] & S); [|apply Q2; exists f; split; assumption]. destruct S as (v & p & _ & S). apply (f_equal f_slope) in S. change (@eq (option R) None (Some b)) in S. discriminate.
    - unfold accumulate at 2. cbn [fisnan RN f_slope f_read f_poisson feq rncmp fzero fone]. destruct (Reqb v 0) eqn:E; [apply Reqb_spec in E; lra|].
      rewrite l_div by lra. cbn [fadd fmul RN rn2]. assert (IV : 0 < 1 / v) by (unfold Rdiv; rewrite Rmult_1_l; apply Rinv_0_lt_compat, V).
      replace (W * b + 1 / v * b) with ((W + 1 / v) * b) by ring. replace (W + 1 / v * (1 / v) * v) with (W + 1 / v) by (field; lra).
      destruct (IH (W + 1 / v) (P + 1 / v * (1 / v) * p) (fun f I => H f (or_intror I)) ltac:(lra)) as (W' & P' & Q1 & Q2 & Q3). exists W', P'. split; [lra|]. split; [intros _; lra|exact Q3]. }
  destruct (G fits 0 0 A ltac:(lra)) as (W & P & _ & Q & E). specialize (Q (ex_intro _ f0 (conj I0 S0))). rewrite Rmult_0_l in E.
  change (zfit RN, fzero RN) with ({| f_slope := Some 0 : RN; f_read := Some 0 : RN; f_poisson := Some 0 : RN |}, Some 0 : F RN). rewrite E.
  cbn [feq rncmp RN fzero f_slope f_read f_poisson fmul rn2]. destruct (Reqb W 0) eqn:Z; [apply Reqb_spec in Z; lra|]. rewrite !l_div by nra.
  replace (W * b / W) with b by (field; lra). exists (W / (W * W)), (P / (W * W) * if Rltb b 0 then 0 else b). split; [apply Rdiv_lt_0_compat; nra|]. unfold cmax0. cbn [flt RN rncmp fzero]. destruct (Rltb b 0); reflexivity.
Qed.

(** ** The statistic of a straight ramp *)
Definition zn (x : RN) : Prop := x = None \/ x = Some 0.
Lemma zn_div x : zn (fdiv RN (Some 0) x).
Proof. destruct x as [v|]; [|left; reflexivity]. cbn. destruct (Reqb v 0) eqn:E; [left; reflexivity|right]. f_equal. unfold Rdiv. ring. Qed.
Lemma zn_fmax x y : zn x -> zn y -> zn (fmaxf RN x y).
Proof. intros [->| ->] [->| ->]; unfold fmaxf; cbn; try (left; reflexivity); try (right; reflexivity). destruct (Rltb 0 0); right; reflexivity. Qed.

(** A pixel whose good resultants lie on the line [a + b t] - the others may hold anything, NaN included - with at least two adjacent good resultants, distinct
    mean times and non-zero read noise, gets the rate [b] with a positive read variance, and finite variances; jump detection with thresholds that are non-negative
    on the clipped rate range flags nothing; and the ramps are those of the flags given. *)
Theorem C28_linear_pixel_nan : forall pow (pow' : RN -> RN -> RN) (lg : R -> R) (lg' : RN -> RN), pow_ok pow ->
  (forall x p, 0 <= x -> pow' (Some x) (Some p) = (Some (pow x p) : RN)) -> (forall x, 1 <= x -> lg' (Some x) = (Some (lg x) : RN)) ->
  forall use_jump (ic cc : R) (t tau : nat -> R) nr n (y : nat -> RN) dq (rn : R) buf (a b : R),
  (forall i, (i < n)%nat -> dq i = 0%Z -> y i = (Some (a + b * t i) : RN)) ->
  (forall i j, (i < j < n)%nat -> t i <> t j) -> (forall i, (i < n)%nat -> (1 <= nr i)%nat) -> rn <> 0 ->
  (exists i, (i + 1 < n)%nat /\ dq i = 0%Z /\ dq (i + 1)%nat = 0%Z) ->
  (use_jump = true -> forall x, 1 <= x <= 10000 -> 0 <= ic - cc * lg x) ->
  exists out buf', fit_jumps RN pow' lg' use_jump (Some ic) (Some cc) (fun i => Some (t i)) (fun i => Some (tau i)) nr n y dq (Some rn) buf = Some (out, buf') /\
    (exists v p : R, 0 < v /\ p_avg RN out = {| f_slope := Some b : RN; f_read := Some v : RN; f_poisson := Some p : RN |}) /\
    p_dq RN out = dq /\ p_jumps RN out = [].
Proof.
  intros pow pow' lg lg' HP HP' HL use_jump ic cc t tau nr n y dq rn buf a b Y T K RN0 (i0 & G0 & G1 & G2) TH.
  destruct (init_ramps_runs dq n) as [[W SS] C]. set (yl := fun i => a + b * t i).
  assert (RNG : forall r, In r (init_ramps dq n) -> (fst r <= snd r < n)%nat /\ forall k, (fst r <= k <= snd r)%nat -> y k = (Some (yl k) : RN)).
  { intros r I. assert (Q : forall k, (fst r <= k <= snd r)%nat -> (k < n)%nat /\ dq k = 0%Z) by (intros k Hk; apply C; exists r; auto).
    pose proof (W r I). split; [destruct (Q (snd r)); lia|]. intros k Hk. destruct (Q k Hk). apply Y; assumption. }
  set (t' := fun i => Some (t i) : F RN). set (tau' := fun i => Some (tau i) : F RN).
  assert (FIT : forall r, In r (init_ramps dq n) -> (fst r < snd r)%nat -> slope_fit b (fit_ramp RN pow' y t' tau' nr (Some rn) r)).
  { intros r I Lr. destruct (RNG r I) as [Q1 Q2]. assert (Q3 : t (fst r) <> t (snd r)) by (apply T; lia). assert (Q4 : forall i, (fst r <= i <= snd r)%nat -> (1 <= nr i)%nat) by (intros; apply K; lia).
    unfold t', tau'. rewrite (l_fit pow pow' HP HP' yl t tau y nr rn RN0 r Lr Q3 Q4 Q2). unfold lift_fit. eexists. eexists. split.
    2: { rewrite (C28_linear_ramp pow HP yl t tau nr rn r a b Lr Q3 Q4 (fun _ _ => eq_refl)). reflexivity. }
    rewrite (proj1 (fit_ramp_good pow yl t tau nr rn HP r Lr Q3 Q4)). apply read_pos; assumption. }
  assert (SING : forall r, (snd r <= fst r)%nat -> fit_ramp RN pow' y t' tau' nr (Some rn) r = nanfit RN).
  { intros r Lr. unfold fit_ramp. destruct (Nat.leb_spec (snd r + 1 - fst r) 1); [reflexivity|lia]. }
  set (B := if use_jump then fill_pixel RN y t' tau' nr (Some rn) n buf else buf).
  destruct (split_record (rfit RN) (fit_ramp RN pow' y t' tau' nr (Some rn)) (detect RN lg' t' tau' nr use_jump (Some ic) (Some cc) B) dq n) as (w & E & H1 & H2 & H3).
  - intros r I. unfold detect. destruct use_jump; [|reflexivity]. specialize (TH eq_refl). destruct (RNG r I) as [R1 R2].
    destruct (Nat.eq_dec (fst r) (snd r)) as [Q|Q].
    + unfold fit_statistic. rewrite (proj2 (Nat.eqb_eq _ _) Q). destruct (threshold _ _ _ _ _); reflexivity.
    + assert (Lr : (fst r < snd r)%nat) by lia. destruct (FIT r I Lr) as (v & p & _ & FS). rewrite FS. cbn [f_slope].
      assert (T0 : exists h : R, 0 <= h /\ threshold RN lg' (Some ic) (Some cc) (Some b) = (Some h : RN)).
      { unfold threshold, fz. cbn [flt fone RN rncmp fofZ]. set (s1 := if Rltb 1 b then (Some b : F RN) else Some 1).
        assert (X : exists s : R, 1 <= s <= 10000 /\ (if match s1 with Some a1 => Rltb a1 10000 | None => false end then s1 else (Some 10000 : F RN)) = (Some s : F RN)).
        { unfold s1. destruct (Rltb 1 b) eqn:E1; [apply Rltb_spec in E1|].
          - destruct (Rltb b 10000) eqn:E2; [apply Rltb_spec in E2; exists b; split; [lra|reflexivity]|exists 10000; split; [lra|reflexivity]].
          - destruct (Rltb 1 10000) eqn:E2; [exists 1; split; [lra|reflexivity]|exists 10000; split; [lra|reflexivity]]. }
        destruct X as (s & S1 & S2). exists (ic - cc * lg s). split; [apply TH, S1|]. unfold rncmp. etransitivity; [apply (f_equal (fun z => fsub RN (Some ic) (fmul RN (Some cc) (lg' z)))); exact S2|]. rewrite HL by lra. reflexivity. }
      destruct T0 as (h & T0 & T1). rewrite T1.
      assert (ST : forall d i c, (d = 1 \/ d = 2)%nat -> (fst r <= i)%nat -> (i + d <= snd r)%nat -> zn (statistic RN t' tau' nr B d i (Some b) c)).
      { intros d i c D A1 A2. unfold statistic, B. rewrite fill_pixel_spec by (auto; lia). unfold pixel_at. cbn [x_diff fixed_at].
        rewrite (R2 (i + d)%nat), (R2 i) by lia. assert (t i <> t (i + d)%nat) by (apply T; lia). unfold t' at 1 2. cbn [fsub RN rn2]. rewrite l_div by lra. unfold yl at 1 2.
        replace ((a + b * t (i + d)%nat - (a + b * t i)) / (t (i + d)%nat - t i)) with b by (field; lra). cbn [fsub RN rn2]. rewrite Rminus_diag_eq by reflexivity. apply zn_div. }
      assert (S0 : zn (snd (fit_statistic RN t' tau' nr B (Some b) r))).
      { unfold fit_statistic. destruct (Nat.eqb_spec (fst r) (snd r)) as [Z|_]; [contradiction|]. cbv zeta.
        apply (fold_const _ (fun st => zn (snd st))).
        - cbn [snd]. apply ST; [auto|lia|lia].
        - intros [k0 s0] k Hk Hs. cbn [snd] in *. apply in_seq in Hk. destruct (flt RN s0 _); [|exact Hs]. cbn [snd]. apply zn_fmax; apply ST; auto; lia. }
      destruct (fit_statistic RN t' tau' nr B (Some b) r) as [k st]. cbn [snd] in S0. destruct S0 as [->| ->]; [reflexivity|]. cbn [flt RN rncmp]. destruct (Rltb h 0) eqn:Z; [apply Rltb_spec in Z; lra|reflexivity].
  - unfold fit_jumps. cbv zeta. fold t' tau'. fold B. rewrite E. cbn [bind]. eexists. eexists. split; [reflexivity|]. cbn [p_avg p_dq p_jumps]. rewrite H2, H1, H3, map_map. cbn [snd]. split; [|split; reflexivity].
    apply avg_line.
    + intros f I. apply in_map_iff in I. destruct I as (r & <- & I). apply in_rev in I. destruct (Nat.le_gt_cases (snd r) (fst r)) as [Lr|Lr]; [left; apply SING, Lr|right; apply (FIT r I Lr)].
    + destruct (ramps_two dq n i0 G0 G1 G2) as (r & I & Lr). exists (fit_ramp RN pow' y t' tau' nr (Some rn) r). split; [|apply (FIT r I Lr)]. apply (in_map (fit_ramp RN pow' y t' tau' nr (Some rn))), in_rev. rewrite rev_involutive. exact I.
Qed.
Print Assumptions C28_linear_pixel_nan.
(** a line 10 + 3 t over five resultants; the third is flagged and NaN, leaving two ramps *)
Definition cl_y (i : nat) : RN := nth i [Some 13; Some 16; None; Some 22; Some 25] None.
Definition cl_dq (i : nat) : Z := if Nat.eqb i 2 then 1%Z else 0%Z.
Definition cl_pow (x p : RN) : RN := match x, p with Some a, Some b => Some (c_pow a b) | _, _ => None end.
Example C28_linear_pixel_nan_ex : forall buf, exists out buf',
  fit_jumps RN cl_pow (fun _ => Some 1 : F RN) true (Some 4) (Some 1) (fun i => Some (1 + INR i)) (fun i => Some (1 + INR i)) (fun _ => 1%nat) 5 cl_y cl_dq (Some 10) buf = Some (out, buf') /\
  f_slope (p_avg RN out) = (Some 3 : F RN) /\ p_dq RN out 2%nat = 1%Z.
Proof.
  intro buf. destruct (C28_linear_pixel_nan c_pow cl_pow (fun _ => 1) (fun _ => Some 1 : F RN) c_pow_ok (fun _ _ _ => eq_refl) (fun _ _ => eq_refl) true 4 1 (fun i => 1 + INR i) (fun i => 1 + INR i) (fun _ => 1%nat) 5 cl_y cl_dq 10 buf 10 3)
    as (out & buf' & E & (v & p & V & A) & D & J).
  - intros i I D. unfold cl_dq in D. do 5 (destruct i as [|i]; [first [discriminate|cbn; f_equal; lra]|]). lia.
  - intros i j H E. assert (INR i < INR j) by (apply lt_INR; lia). lra.
  - intros; lia.
  - lra.
  - exists 0%nat. repeat split; lia.
  - intros; lra.
  - exists out, buf'. split; [exact E|]. split; [rewrite A; reflexivity|rewrite D; reflexivity].
Qed.

(** ** C66 with ramps that have no fit *)
(** the fits of a pixel's ramps: [None] for a ramp of a single resultant, whose fit is NaN *)
Definition fit_of (o : option (rfit RF)) : rfit RN := match o with Some f => lift_fit f | None => nanfit RN end.
Fixpoint known (l : list (option (rfit RF))) : list (rfit RF) := match l with [] => [] | Some f :: r => f :: known r | None :: r => known r end.
Lemma known_in f l : In f (known l) <-> In (Some f) l.
Proof.
  induction l as [|[g|] l IH]; cbn; [tauto| |]; rewrite IH.
  - split; intros [H|H]; [left; congruence|right; exact H|left; congruence|right; exact H].
  - split; [intro H; right; exact H|intros [H|H]; [discriminate|exact H]].
Qed.
Lemma avg_known fits : average RN (map fit_of fits) = lift_fit (average RF (known fits)).
Proof.
  unfold average.
  assert (G : forall l (a : rfit RF) (s : R), fold_left (accumulate RN) (map fit_of l) (lift_fit a, Some s : F RN) =
    let x := fold_left (accumulate RF) (known l) (a, s) in (lift_fit (fst x), Some (snd x : R) : F RN)).
  { induction l as [|[f|] l IH]; intros a s; [reflexivity| |].
    - cbn [map known fold_left fit_of]. assert (ST : accumulate RN (lift_fit a, Some s : F RN) (lift_fit f) = (lift_fit (fst (accumulate RF (a, s) f)), Some (snd (accumulate RF (a, s) f) : R) : F RN)).
      { unfold accumulate. cbn [fisnan RN RF lift_fit f_slope f_read f_poisson feq rncmp fzero fone]. change (F RF) with R in *. cbn [fst snd].
        destruct (Reqb (f_read f) 0) eqn:E; [reflexivity|]. rewrite l_div; [reflexivity|]. intro Z. change (f_read f = 0) in Z. rewrite Z in E. unfold Reqb in E. destruct (Req_EM_T 0 0); [discriminate|congruence]. }
      rewrite ST. rewrite IH. destruct (accumulate RF (a, s) f). reflexivity.
    - cbn [map known fold_left fit_of]. apply IH. }
  specialize (G fits (zfit RF) 0). cbv zeta in G. change (zfit RN, fzero RN) with (lift_fit (zfit RF), Some 0 : F RN). rewrite G. change (zfit RF, fzero RF) with (zfit RF, 0 : F RF). destruct (fold_left (accumulate RF) _ _) as [a W]. cbn [fst snd].
  change (F RF) with R in *. cbn [feq RN rncmp RF fzero fone fmul rn2 lift_fit f_slope f_read f_poisson fdiv]. destruct (Reqb W 0) eqn:E.
  - destruct (Reqb 1 0) eqn:E1; [apply Reqb_spec in E1; lra|]. apply rfit_eq; [reflexivity|reflexivity|]. unfold cmax0. cbn [flt RN rncmp fzero RF]. destruct (Rltb _ 0); reflexivity.
  - rewrite E. destruct (Reqb (W * W) 0) eqn:E1. { apply Reqb_spec in E1. apply Rmult_integral in E1. assert (Z : W = 0) by tauto. apply Reqb_spec in Z. congruence. }
    apply rfit_eq; [reflexivity|reflexivity|]. unfold cmax0. cbn [flt RN rncmp fzero RF]. destruct (Rltb _ 0); reflexivity.
Qed.
(** Ramps without a fit leave no trace; the others are combined with weights 1 / read variance. *)
Theorem C66_combination_nan : forall fits : list (option (rfit RF)),
  (forall f, In (Some f) fits -> 0 <= f_read f) -> (exists f, In (Some f) fits /\ 0 < f_read f) ->
  let used := filter (fun f : rfit RF => Rltb 0 (f_read f)) (known fits) in
  let W := Rsum (map (fun f : rfit RF => / f_read f) used) in
  let S := Rsum (map (fun f : rfit RF => / f_read f * f_slope f) used) / W in
  average RN (map fit_of fits) =
    {| f_slope := Some S : RN; f_read := Some (/ W) : RN;
       f_poisson := Some (Rsum (map (fun f : rfit RF => / f_read f * / f_read f * f_poisson f) used) / (W * W) * Rmax S 0) : RN |} /\
  0 < W /\ (forall lo hi, (forall f, In f used -> lo <= f_slope f <= hi) -> lo <= S <= hi) /\ (forall f, In f used -> / W <= f_read f).
Proof.
  intros fits H1 (f & I & P) used W S. rewrite avg_known.
  destruct (C66_combination (known fits)) as (Q1 & Q2 & Q3 & Q4 & Q5 & Q6).
  - intros g G. apply H1, known_in, G.
  - exists f. split; [apply known_in, I|exact P].
  - fold used in Q1, Q2, Q3, Q4, Q5, Q6. fold W in Q1, Q2, Q3, Q4, Q5. fold S in Q2. split; [|split; [exact Q1|split]].
    + unfold lift_fit. rewrite Q4, Q3, Q2. reflexivity.
    + intros lo hi B. specialize (Q5 lo hi B). rewrite Q2 in Q5. exact Q5.
    + intros g G. specialize (Q6 g G). rewrite Q3 in Q6. exact Q6.
Qed.
Print Assumptions C66_combination_nan.
Example C66_combination_nan_ex : let f s v := Some {| f_slope := s : RF; f_read := v : RF; f_poisson := 1 : RF |} in
  f_slope (average RN (map fit_of [f 1 1; None; f 4 2])) = (Some 2 : F RN).
Proof.
  intro f. destruct (C66_combination_nan [f 1 1; None; f 4 2]) as (E & _ & _).
  - intros g [G|[G|[G|[]]]]; unfold f in G; try discriminate G; injection G as <-; cbn; lra.
  - exists {| f_slope := 1 : RF; f_read := 1 : RF; f_poisson := 1 : RF |}. split; [left; reflexivity|cbn; lra].
  - rewrite E. cbn [f_slope known f filter f_read]. assert (A : Rltb 0 1 = true) by (apply Rltb_spec; lra). assert (B : Rltb 0 2 = true) by (apply Rltb_spec; lra). rewrite A, B. cbn [map f_read f_slope].
    rewrite !Rsum_cons, !Rsum_nil. f_equal. cbn. field.
Qed.
