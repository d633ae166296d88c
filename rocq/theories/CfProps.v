(** C135: a cosmic ray in a steady ramp and the Casertano fit.  Exact reals with missing values. *)
From Coq Require Import Reals Lra.
From Verif Require Import Base BaseLemmas FLaws RBase RNBase Cas22Model Cas22Spec Cas22Fit Cas22Proofs Cas22Props CpProps ClProps.
From Verif Require ShProps3.
Local Open Scope R_scope.

(** [h] does not change between two neighbours that both hold for [ok] *)
Definition steps_only_at_bad (ok : nat -> Prop) (n : nat) (h : nat -> R) : Prop := forall i, (i + 1 < n)%nat -> ok i -> ok (i + 1)%nat -> h i = h (i + 1)%nat.
Section Found.
  Variables (pow : R -> R -> R) (pow' : RN -> RN -> RN).
  Hypothesis HP : pow_ok pow.
  Hypothesis HP' : forall x p, 0 <= x -> pow' (Some x) (Some p) = (Some (pow x p) : RN).
  Variable lg' : RN -> RN.
  Variables (use_jump : bool) (ic cc : R) (t tau : nat -> R) (nr : nat -> nat) (n : nat) (y : nat -> RN) (dq : nat -> Z) (rn : R) (buf : buffer RN).
  Variables (h : nat -> R) (b : R).
  (** the good resultants lie on lines of rate [b], with offsets [h] *)
  Hypothesis Y : forall i, (i < n)%nat -> dq i = 0%Z -> y i = (Some (h i + b * t i) : RN).
  Hypothesis T : forall i j, (i < j < n)%nat -> t i < t j.
  Hypothesis K : forall i, (i < n)%nat -> (1 <= nr i)%nat.
  Hypothesis RN0 : rn <> 0.
  Notation t' := (fun i => Some (t i) : F RN). Notation tau' := (fun i => Some (tau i) : F RN).
  Notation run := (fit_jumps RN pow' lg' use_jump (Some ic) (Some cc) t' tau' nr n y dq (Some rn) buf).
  (** the flags returned separate all the steps: the rate is the rate of the lines *)
  Theorem C135_rate_when_found : forall out buf', run = Some (out, buf') ->
    steps_only_at_bad (fun i => p_dq RN out i = 0%Z) n h ->
    (exists i, (i + 1 < n)%nat /\ p_dq RN out i = 0%Z /\ p_dq RN out (i + 1)%nat = 0%Z) ->
    exists v p : R, 0 < v /\ p_avg RN out = {| f_slope := Some b : RN; f_read := Some v : RN; f_poisson := Some p : RN |}.
  Proof.
    intros out buf' E ST (i0 & G0 & G1 & G2).
    destruct (C27_accounts RN ShProps3.RN_laws eq_refl pow' lg' use_jump (Some ic) (Some cc) t' tau' nr n y dq (Some rn) buf) as (out2 & b2 & E2 & A1 & A2 & _ & _ & A5 & A6 & A7).
    rewrite E in E2. injection E2 as <- <-. rewrite A7.
    assert (GD : forall k, (k < n)%nat -> p_dq RN out k = 0%Z -> dq k = 0%Z).
    { intros k Hk Z0. destruct (Z.eq_dec (dq k) 0) as [Q|Q]; [exact Q|]. rewrite <- (proj1 (A2 k (or_intror Q))). exact Z0. }
    destruct (init_ramps_runs (p_dq RN out) n) as [[W SS] C].
    assert (MEM : forall r k, In r (init_ramps (p_dq RN out) n) -> (fst r <= k <= snd r)%nat -> (k < n)%nat /\ p_dq RN out k = 0%Z) by (intros r k I Hk; apply C; exists r; auto).
    assert (HC : forall r d, In r (init_ramps (p_dq RN out) n) -> (fst r + d <= snd r)%nat -> h (fst r + d)%nat = h (fst r)).
    { intros r d I. induction d as [|d IH]; intro Hd; [rewrite Nat.add_0_r; reflexivity|]. rewrite <- IH by lia. symmetry.
      destruct (MEM r (fst r + d)%nat I ltac:(lia)), (MEM r (fst r + d + 1)%nat I ltac:(lia)). replace (fst r + S d)%nat with (fst r + d + 1)%nat by lia. apply ST; assumption. }
    assert (FIT : forall r, In r (init_ramps (p_dq RN out) n) -> (fst r < snd r)%nat -> slope_fit b (fit_ramp RN pow' y t' tau' nr (Some rn) r)).
    { intros r I Lr. set (yl := fun i => h (fst r) + b * t i).
      assert (Q2 : forall k, (fst r <= k <= snd r)%nat -> y k = (Some (yl k) : RN)).
      { intros k Hk. destruct (MEM r k I Hk) as [M1 M2]. rewrite (Y k M1 (GD k M1 M2)). unfold yl. pose proof (HC r (k - fst r)%nat I ltac:(lia)) as X. replace (fst r + (k - fst r))%nat with k in X by lia. rewrite X. reflexivity. }
      destruct (MEM r (snd r) I ltac:(lia)) as [N1 _].
      assert (Q3 : t (fst r) <> t (snd r)) by (pose proof (T (fst r) (snd r) ltac:(lia)); lra). assert (Q4 : forall i, (fst r <= i <= snd r)%nat -> (1 <= nr i)%nat) by (intros; apply K; lia).
      rewrite (l_fit pow pow' HP HP' yl t tau y nr rn RN0 r Lr Q3 Q4 Q2). unfold lift_fit. eexists. eexists. split.
      2: { rewrite (C28_linear_ramp pow HP yl t tau nr rn r (h (fst r)) b Lr Q3 Q4 (fun _ _ => eq_refl)). reflexivity. }
      rewrite (proj1 (fit_ramp_good pow yl t tau nr rn HP r Lr Q3 Q4)). apply read_pos; assumption. }
    apply avg_line.
    - intros f I. apply in_map_iff in I. destruct I as ([r f'] & <- & I). cbn [snd]. destruct (A6 r f' I) as [-> _]. assert (Ir : In r (init_ramps (p_dq RN out) n)) by (apply in_rev; rewrite <- A5; apply in_map_iff; exists (r, fit_ramp RN pow' y t' tau' nr (Some rn) r); auto).
      destruct (Nat.le_gt_cases (snd r) (fst r)) as [Lr|Lr]; [left|right; apply FIT; assumption]. unfold fit_ramp. destruct (Nat.leb_spec (snd r + 1 - fst r) 1); [reflexivity|lia].
    - destruct (ramps_two (p_dq RN out) n i0 G0 G1 G2) as (r & I & Lr). assert (Ir : In r (map fst (p_fits RN out))) by (rewrite A5; apply in_rev; rewrite rev_involutive; exact I).
      apply in_map_iff in Ir. destruct Ir as ([r2 f] & E2 & I2). cbn in E2. subst r2. exists f. split; [apply in_map_iff; exists (r, f); auto|]. rewrite (proj1 (A6 r f I2)). apply FIT; assumption.
  Qed.
End Found.
Print Assumptions C135_rate_when_found.

(** ** One step upwards *)
(** the resultants up to [k] have no step, those after it have one of size [J] *)
Definition one_step (k : nat) (a J : R) (i : nat) : R := a + (if Nat.leb i k then 0 else J).
(** a non-negative step cannot lower the fitted rate *)
Lemma step_slope pow (HP : pow_ok pow) (t tau : nat -> R) nr rn n k (a J b : R) r : (fst r < snd r)%nat -> (snd r < n)%nat -> (k + 1 < n)%nat -> 0 <= J ->
  (forall i j, (i < j < n)%nat -> t i < t j) -> (forall i, (i < n)%nat -> (1 <= nr i)%nat) ->
  b <= f_slope (fit_ramp RF pow (fun i => one_step k a J i + b * t i) t tau nr rn r).
Proof.
  intros L N KN HJ T K. set (y := fun i => _).
  assert (Q3 : t (fst r) <> t (snd r)) by (pose proof (T (fst r) (snd r) ltac:(lia)); lra). assert (Q4 : forall i, (fst r <= i <= snd r)%nat -> (1 <= nr i)%nat) by (intros; apply K; lia).
  destruct (fit_ramp_good pow y t tau nr rn HP r L Q3 Q4) as (E & C0 & C1). rewrite E. cbn [fitR f_slope]. change (F RF) with R.
  set (c := co pow y t nr rn r) in *. set (u := fun i => if Nat.leb i k then 0 else 1).
  rewrite (Rsum_ext _ (fun i => a * c i + (J * (c i * u i) + b * (c i * t i)))).
  2: { intros i _. unfold y, one_step, u. destruct (Nat.leb i k); ring. }
  rewrite !Rsum_plus, !Rsum_scal, C0, C1.
  assert (P : 0 <= Rsum (map (fun i => c i * u i) (members r))); [|pose proof (Rmult_le_pos _ _ HJ P); lra].
  pose proof (ramp_det_pos pow y t tau nr rn HP r L Q3 Q4) as D. unfold det in D. cbv zeta in D.
  assert (WP : forall i, In i (members r) -> 0 <= wt pow y t nr rn r i) by (intros i I; apply members_in in I; apply wt_nonneg; [exact HP|]; apply Q4; lia).
  assert (F0 : 0 <= Rsum (map (wt pow y t nr rn r) (members r))).
  { replace 0 with (Rsum (map (fun _ : nat => 0) (members r))); [apply Rsum_le; exact WP|]. clear. induction (members r) as [|x l IH]; [reflexivity|]. cbn [map]. rewrite Rsum_cons, IH. ring. }
  assert (CS : forall i, In i (members r) -> c i = (Rsum (map (wt pow y t nr rn r) (members r)) * t i - Rsum (map (fun j => wt pow y t nr rn r j * t j) (members r))) * wt pow y t nr rn r i /
     (Rsum (map (fun i => wt pow y t nr rn r i * (t i * t i)) (members r)) * Rsum (map (wt pow y t nr rn r) (members r)) - Rsum (map (fun j => wt pow y t nr rn r j * t j) (members r)) * Rsum (map (fun j => wt pow y t nr rn r j * t j) (members r)))) by (intros; reflexivity).
  set (f0 := Rsum (map (wt pow y t nr rn r) (members r))) in *. set (f1 := Rsum (map (fun j => wt pow y t nr rn r j * t j) (members r))) in *. set (dd := _ - f1 * f1) in *.
  assert (Z : forall l : list nat, Rsum (map (fun _ => 0) l) = 0) by (induction l as [|x l IH]; [reflexivity|]; cbn [map]; rewrite Rsum_cons, IH; ring).
  assert (ID : 0 < / dd) by (apply Rinv_0_lt_compat, D).
  destruct (Rle_lt_dec 0 (f0 * t (k + 1)%nat - f1)) as [X|X].
  - rewrite <- (Z (members r)). apply Rsum_le. intros i I. unfold u. destruct (Nat.leb_spec i k) as [H|H]; [lra|]. rewrite (CS i I), Rmult_1_r. apply members_in in I as I'.
    assert (TT : t (k + 1)%nat <= t i) by (destruct (Nat.eq_dec i (k + 1)) as [->|]; [lra|]; left; apply T; lia).
    apply Rmult_le_pos; [|lra]. apply Rmult_le_pos; [|apply WP, I]. pose proof (Rmult_le_compat_l f0 _ _ F0 TT). lra.
  - replace (Rsum (map (fun i => c i * u i) (members r))) with (Rsum (map (fun i => - (c i * (1 - u i))) (members r))).
    + rewrite <- (Z (members r)). apply Rsum_le. intros i I. unfold u. destruct (Nat.leb_spec i k) as [H|H]; [|lra]. rewrite (CS i I). apply members_in in I as I'.
      assert (TT : t i <= t (k + 1)%nat) by (left; apply T; lia). pose proof (Rmult_le_compat_l f0 _ _ F0 TT). pose proof (WP i I).
      replace (- ((f0 * t i - f1) * wt pow y t nr rn r i / dd * (1 - 0))) with ((f1 - f0 * t i) * wt pow y t nr rn r i * / dd) by (unfold Rdiv; ring).
      apply Rmult_le_pos; [|lra]. apply Rmult_le_pos; [lra|assumption].
    + rewrite (Rsum_ext _ (fun i => c i * u i + - 1 * c i)) by (intros; ring). rewrite Rsum_plus, Rsum_scal, C0. ring.
Qed.
(** no value, or one that is not positive *)
Definition low (x : RN) : Prop := x = None \/ exists v : R, v <= 0 /\ x = (Some v : RN).
Lemma low_div (x : R) (q : RN) : x <= 0 -> low (fdiv RN (Some x) (fsqrt RN q)).
Proof.
  intro H. destruct q as [q|]; [|left; reflexivity]. cbn [fsqrt RN]. destruct (Rltb q 0) eqn:E; [left; reflexivity|]. cbn. destruct (Reqb (sqrt q) 0) eqn:Z; [left; reflexivity|right].
  exists (x / sqrt q). split; [|reflexivity]. pose proof (sqrt_pos q). assert (sqrt q <> 0) by (intro W; apply Reqb_spec in W; congruence).
  assert (0 < / sqrt q) by (apply Rinv_0_lt_compat; lra). unfold Rdiv. pose proof (Rmult_le_compat_r (/ sqrt q) _ _ ltac:(lra) H). lra.
Qed.
Lemma low_fmax x y : low x -> low y -> low (fmaxf RN x y).
Proof. intros X Y. unfold fmaxf. destruct X as [->|(v & V & ->)]; [exact Y|]. cbn [fisnan RN]. destruct Y as [->|(w & W & ->)]; [right; exists v; auto|]. cbn [fisnan flt rncmp RN]. destruct (Rltb v w); right; eauto. Qed.
Lemma threshold_nonneg (lg : R -> R) (lg' : RN -> RN) (ic cc s : R) : (forall x, 1 <= x -> lg' (Some x) = (Some (lg x) : RN)) -> (forall x, 1 <= x <= 10000 -> 0 <= ic - cc * lg x) ->
  exists h : R, 0 <= h /\ threshold RN lg' (Some ic) (Some cc) (Some s) = (Some h : RN).
Proof.
  intros HL TH. unfold threshold, fz. cbn [flt fone RN rncmp fofZ]. set (s1 := if Rltb 1 s then (Some s : F RN) else Some 1).
  assert (X : exists s : R, 1 <= s <= 10000 /\ (if match s1 with Some a1 => Rltb a1 10000 | None => false end then s1 else (Some 10000 : F RN)) = (Some s : F RN)).
  { unfold s1. destruct (Rltb 1 s) eqn:E1; [apply Rltb_spec in E1|].
    - destruct (Rltb s 10000) eqn:E2; [apply Rltb_spec in E2; exists s; split; [lra|reflexivity]|exists 10000; split; [lra|reflexivity]].
    - destruct (Rltb 1 10000) eqn:E2; [exists 1; split; [lra|reflexivity]|exists 10000; split; [lra|reflexivity]]. }
  destruct X as (x & S1 & S2). exists (ic - cc * lg x). split; [apply TH, S1|]. unfold rncmp. etransitivity; [apply (f_equal (fun z => fsub RN (Some ic) (fmul RN (Some cc) (lg' z)))); exact S2|]. rewrite HL by lra. reflexivity.
Qed.
(** where the work list can put its flags, if every detection is at a position [G] *)
Lemma loop_places (A : Type) (fit : ramp -> A) d (ok : nat -> Prop) (G : nat -> Prop) fuel : forall w w',
  (forall r f k, (fst r <= snd r)%nat -> d r f = Some k -> (k < snd r - fst r)%nat) ->
  (forall r, (fst r <= snd r)%nat -> (forall i, (fst r <= i <= snd r)%nat -> ok i) -> forall j, d r (fit r) = Some j -> G (j + fst r)%nat) ->
  (forall r, In r (w_stack w) -> (fst r <= snd r)%nat /\ forall i, (fst r <= i <= snd r)%nat -> ok i) ->
  (exists js, w_jumps w = flat_map (fun j => [j; j + 1]%nat) js /\ Forall G js) ->
  loop A fit d fuel w = Some w' -> exists js, w_jumps w' = flat_map (fun j => [j; j + 1]%nat) js /\ Forall G js.
Proof.
  induction fuel as [|fuel IH]; intros w w' R D H J; cbn [loop]; destruct (w_stack w) as [|r rest] eqn:E; try (intro X; first [discriminate X|injection X as <-; exact J]).
  assert (Hr : (fst r <= snd r)%nat /\ forall i, (fst r <= i <= snd r)%nat -> ok i) by (apply H; left; reflexivity). destruct Hr as [V O]. specialize (D r V O) as Dr.
  apply IH; [assumption|assumption| |].
  - intros x I. unfold body in I. destruct (d r (fit r)) as [k|] eqn:Kk; cbn [w_stack] in I.
    + pose proof (R _ _ _ V Kk). destruct (Nat.ltb_spec (fst r) (k + fst r)), (Nat.ltb_spec (k + fst r + 1) (snd r)); cbn [In] in I;
        repeat (destruct I as [<-|I]; [cbn [fst snd]; split; [lia|intros i Hi; apply O; lia]|]); apply H; right; exact I.
    + apply H. right. exact I.
  - destruct J as (js & J1 & J2). unfold body. destruct (d r (fit r)) as [k|] eqn:Kk; cbn [w_jumps]; [|exists js; auto].
    exists (js ++ [(k + fst r)%nat]). rewrite flat_map_app, J1. split; [reflexivity|]. apply Forall_app. split; [exact J2|]. constructor; [apply Dr; reflexivity|constructor].
Qed.

Section Step.
  Variables (pow : R -> R -> R) (pow' : RN -> RN -> RN).
  Hypothesis HP : pow_ok pow.
  Hypothesis HP' : forall x p, 0 <= x -> pow' (Some x) (Some p) = (Some (pow x p) : RN).
  Variables (lg : R -> R) (lg' : RN -> RN).
  Hypothesis HL : forall x, 1 <= x -> lg' (Some x) = (Some (lg x) : RN).
  Variables (use_jump : bool) (ic cc : R) (t tau : nat -> R) (nr : nat -> nat) (n : nat) (y : nat -> RN) (dq : nat -> Z) (rn : R) (buf : buffer RN).
  Variables (k : nat) (a J b : R).
  Hypothesis Y : forall i, (i < n)%nat -> dq i = 0%Z -> y i = (Some (one_step k a J i + b * t i) : RN).
  Hypothesis T : forall i j, (i < j < n)%nat -> t i < t j.
  Hypothesis K : forall i, (i < n)%nat -> (1 <= nr i)%nat.
  Hypothesis RN0 : rn <> 0.
  Hypothesis KN : (k + 1 < n)%nat.
  Hypothesis HJ : 0 <= J.
  Hypothesis TH : forall x, 1 <= x <= 10000 -> 0 <= ic - cc * lg x.
  Notation t' := (fun i => Some (t i) : F RN). Notation tau' := (fun i => Some (tau i) : F RN).
  Notation run := (fit_jumps RN pow' lg' use_jump (Some ic) (Some cc) t' tau' nr n y dq (Some rn) buf).
  Let B := if use_jump then fill_pixel RN y t' tau' nr (Some rn) n buf else buf.
  Lemma step_place r : (fst r <= snd r)%nat -> (forall i, (fst r <= i <= snd r)%nat -> (i < n)%nat /\ dq i = 0%Z) ->
    forall j, detect RN lg' t' tau' nr use_jump (Some ic) (Some cc) B r (fit_ramp RN pow' y t' tau' nr (Some rn) r) = Some j -> (j + fst r = k \/ j + fst r + 1 = k)%nat.
  Proof.
    intros V O j. unfold detect, B. destruct use_jump; [|discriminate].
    destruct (Nat.eq_dec (fst r) (snd r)) as [Q|Q].
    { unfold fit_statistic. rewrite (proj2 (Nat.eqb_eq _ _) Q). destruct (threshold _ _ _ _ _); discriminate. }
    assert (L : (fst r < snd r)%nat) by lia. pose proof (proj1 (O (snd r) ltac:(lia))) as N.
    assert (Q3 : t (fst r) <> t (snd r)) by (pose proof (T (fst r) (snd r) ltac:(lia)); lra). assert (Q4 : forall i, (fst r <= i <= snd r)%nat -> (1 <= nr i)%nat) by (intros; apply K; lia).
    assert (Q2 : forall i, (fst r <= i <= snd r)%nat -> y i = (Some (one_step k a J i + b * t i) : RN)) by (intros i I; apply Y; apply (O i I)).
    rewrite (l_fit pow pow' HP HP' (fun i => one_step k a J i + b * t i) t tau y nr rn RN0 r L Q3 Q4 Q2). unfold lift_fit. cbn [f_slope].
    pose proof (step_slope pow HP t tau nr rn n k a J b r L N KN HJ T K) as SB. set (s := f_slope _) in *. change (F RF) with R in s.
    destruct (threshold_nonneg lg lg' ic cc s HL TH) as (h & H0 & H1). rewrite H1.
    set (b1 := fill_pixel _ _ _ _ _ _ _ _).
    assert (ST : forall d i c, (d = 1 \/ d = 2)%nat -> (fst r <= i)%nat -> (i + d <= snd r)%nat -> (k < i \/ i + d <= k)%nat -> low (statistic RN t' tau' nr b1 d i (Some s) c)).
    { intros d i c D A1 A2 A3. unfold statistic, b1. rewrite fill_pixel_spec by (auto; lia). unfold pixel_at. cbn [x_diff fixed_at].
      rewrite (Q2 (i + d)%nat), (Q2 i) by lia. assert (TT : t i < t (i + d)%nat) by (apply T; lia). cbn [fsub RN rn2]. rewrite l_div by lra.
      assert (E : one_step k a J (i + d)%nat = one_step k a J i) by (unfold one_step; destruct (Nat.leb_spec (i + d) k), (Nat.leb_spec i k); try reflexivity; lia). rewrite E.
      replace ((one_step k a J i + b * t (i + d)%nat - (one_step k a J i + b * t i)) / (t (i + d)%nat - t i)) with b by (field; lra). cbn [fsub RN rn2]. apply low_div. lra. }
    assert (S0 : let st := fit_statistic RN t' tau' nr b1 (Some s) r in low (snd st) \/ (fst st + fst r = k \/ fst st + fst r + 1 = k)%nat).
    { unfold fit_statistic. destruct (Nat.eqb_spec (fst r) (snd r)) as [Z|_]; [contradiction|]. cbv zeta.
      apply (fold_const _ (fun st => low (snd st) \/ (fst st + fst r = k \/ fst st + fst r + 1 = k)%nat)).
      - cbn [fst snd]. destruct (Nat.eq_dec (snd r - 1) k); [right; left; lia|left; apply ST; [auto|lia|lia|lia]].
      - intros [k0 s0] q Hq Hs. cbn [fst snd] in *. apply in_seq in Hq. destruct (flt RN s0 _); [|exact Hs]. cbn [fst snd].
        destruct (Nat.eq_dec (fst r + q) k); [right; left; lia|]. destruct (Nat.eq_dec (fst r + q + 1) k); [right; right; lia|]. left. apply low_fmax; apply ST; auto; lia. }
    cbv zeta in S0. destruct (fit_statistic RN t' tau' nr b1 (Some s) r) as [q st]. cbn [fst snd] in S0. intro X. destruct S0 as [S0|S0]; [|destruct (flt _ _ _); [injection X as <-; exact S0|discriminate]].
    destruct S0 as [->|(v & W & ->)]; [discriminate|]. cbn [flt RN rncmp] in X. destruct (Rltb h v) eqn:Z; [apply Rltb_spec in Z; lra|discriminate].
  Qed.
  (** Either nothing is flagged, or exactly one pair of neighbours is, the pair on either side of the step or the one before it; and then the rate is that of the line. *)
  Theorem C135_one_step : exists out buf', run = Some (out, buf') /\
    ((p_jumps RN out = [] /\ forall i, p_dq RN out i = dq i) \/
     exists j, (j = k \/ j + 1 = k)%nat /\ p_jumps RN out = [j; j + 1]%nat /\ (forall i, p_dq RN out i = if Nat.eqb i j || Nat.eqb i (j + 1) then JUMP_DET else dq i) /\
       ((exists i, (i + 1 < n)%nat /\ p_dq RN out i = 0%Z /\ p_dq RN out (i + 1)%nat = 0%Z) ->
        exists v p : R, 0 < v /\ p_avg RN out = {| f_slope := Some b : RN; f_read := Some v : RN; f_poisson := Some p : RN |})).
  Proof.
    destruct (C27_accounts RN ShProps3.RN_laws eq_refl pow' lg' use_jump (Some ic) (Some cc) t' tau' nr n y dq (Some rn) buf) as (out & b2 & E & A1 & A2 & A3 & _).
    exists out, b2. split; [exact E|].
    assert (PL : exists js, p_jumps RN out = flat_map (fun j => [j; j + 1]%nat) js /\ Forall (fun j => j = k \/ j + 1 = k)%nat js).
    { pose proof E as E0. unfold fit_jumps in E0. cbv zeta in E0. fold B in E0.
      match type of E0 with (do w <- ?s; _) = _ => destruct s as [w|] eqn:SP; [|discriminate E0] end. cbn [bind] in E0. injection E0 as E0 _. rewrite <- E0. cbn [p_jumps].
      unfold split_ramps in SP. eapply (loop_places _ _ _ (fun i => (i < n)%nat /\ dq i = 0%Z) (fun j => j = k \/ j + 1 = k)%nat); [| | | |exact SP].
      - apply detect_in_range; [apply ShProps3.RN_laws|reflexivity].
      - intros r V O j. apply step_place; assumption.
      - cbn [w_stack]. intros r I. apply in_rev in I. destruct (init_ramps_runs dq n) as [[SPP _] C]. split; [apply SPP; exact I|]. intros i Hi. apply (C i). exists r. auto.
      - exists []. split; [reflexivity|constructor]. }
    destruct PL as (js & P1 & P2). rewrite P1 in A3.
    assert (DQ : forall i, p_dq RN out i = if existsb (Nat.eqb i) (p_jumps RN out) then JUMP_DET else dq i).
    { intro i. destruct (existsb (Nat.eqb i) (p_jumps RN out)) eqn:X.
      - apply existsb_in in X. destruct (Nat.lt_ge_cases i n) as [N|N]; [|exfalso; apply (proj1 (proj2 (A2 i (or_introl N)))), X].
        destruct (Z.eq_dec (dq i) 0) as [Z0|Z0]; [|exfalso; apply (proj1 (proj2 (A2 i (or_intror Z0)))), X]. destruct (A1 i N Z0) as [(_ & W & _)|(W & _)]; [contradiction|exact W].
      - assert (NI : ~ In i (p_jumps RN out)) by (intro W; apply existsb_in in W; congruence). destruct (Nat.lt_ge_cases i n) as [N|N]; [|apply A2; auto].
        destruct (Z.eq_dec (dq i) 0) as [Z0|Z0]; [|apply A2; auto]. destruct (A1 i N Z0) as [(W & _)|(_ & W & _)]; [congruence|contradiction]. }
    destruct js as [|j [|j2 js]].
    - left. split; [exact P1|]. intro i. rewrite DQ, P1. reflexivity.
    - right. exists j. inversion_clear P2 as [|? ? Pj _]. split; [exact Pj|]. split; [exact P1|].
      assert (D2 : forall i, p_dq RN out i = if Nat.eqb i j || Nat.eqb i (j + 1) then JUMP_DET else dq i) by (intro i; rewrite DQ, P1; cbn [flat_map app existsb]; rewrite orb_false_r; reflexivity).
      split; [exact D2|]. intro AD. refine (C135_rate_when_found pow pow' HP HP' lg' use_jump ic cc t tau nr n y dq rn buf (one_step k a J) b Y T K RN0 out b2 E _ AD).
      intros i I Z1 Z2. unfold one_step. destruct (Nat.leb_spec i k), (Nat.leb_spec (i + 1) k); try reflexivity; [|lia]. exfalso. assert (i = k) by lia. subst i. rewrite D2 in Z1.
      replace (Nat.eqb k j || Nat.eqb k (j + 1)) with true in Z1; [discriminate Z1|]. symmetry. apply orb_true_iff. rewrite !Nat.eqb_eq. lia.
    - exfalso. inversion_clear P2 as [|? ? Pj P3]. inversion_clear P3 as [|? ? Pj2 _]. cbn [flat_map app] in A3. inversion_clear A3 as [|? ? N1 A4]. inversion_clear A4 as [|? ? N2 A5]. inversion_clear A5 as [|? ? N3 _].
      cbn [In] in *. destruct Pj, Pj2; subst; first [apply N1; left; lia|apply N1; right; left; lia|apply N2; left; lia|apply N1; right; right; left; lia|apply N2; right; left; lia].
  Qed.
End Step.
Print Assumptions C135_one_step.

(** resultants at times 1 .. 8 on a line of rate 3, with 100 more counts from the fifth on; the third is flagged and missing *)
Definition cf_t (i : nat) : R := 1 + INR i.
Definition cf_dq (i : nat) : Z := if Nat.eqb i 2 then 1%Z else 0%Z.
Definition cf_y (i : nat) : RN := if Nat.eqb i 2 then None else Some (one_step 3 10 100 i + 3 * cf_t i).
Lemma cf_times i j : (i < j < 8)%nat -> cf_t i < cf_t j.
Proof. intro H. unfold cf_t. assert (INR i < INR j) by (apply lt_INR; lia). lra. Qed.
Example C135_one_step_example : forall buf, exists out buf',
  fit_jumps RN cl_pow (fun _ => Some 1 : F RN) true (Some 4) (Some 1) (fun i => Some (cf_t i)) (fun i => Some (cf_t i)) (fun _ => 1%nat) 8 cf_y cf_dq (Some 10) buf = Some (out, buf') /\
  (p_jumps RN out = [] \/ f_slope (p_avg RN out) = (Some 3 : F RN)).
Proof.
  intro buf. destruct (C135_one_step c_pow cl_pow c_pow_ok (fun _ _ _ => eq_refl) (fun _ => 1) (fun _ => Some 1 : F RN) (fun _ _ => eq_refl) true 4 1 cf_t cf_t (fun _ => 1%nat) 8 cf_y cf_dq 10 buf 3 10 100 3) as (out & buf' & E & H).
  - intros i I D. unfold cf_dq in D. unfold cf_y. destruct (Nat.eqb i 2); [discriminate|reflexivity].
  - apply cf_times.
  - intros; lia.
  - lra.
  - lia.
  - lra.
  - intros; lra.
  - exists out, buf'. split; [exact E|]. destruct H as [[H _]|(j & Hj & _ & D & H)]; [left; exact H|right].
    destruct H as (v & p & _ & H); [|rewrite H; reflexivity]. exists 6%nat. rewrite !D. split; [lia|].
    destruct (Nat.eqb_spec 6 j), (Nat.eqb_spec 6 (j + 1)), (Nat.eqb_spec (6 + 1) j), (Nat.eqb_spec (6 + 1) (j + 1)); try lia; split; reflexivity.
Qed.
(** in doubles: with 100 counts the pair at the step is flagged, with 5 counts nothing is *)
Example C135_found_example : (exists rv pv, ex_out true [0; 3; 6; 9; 112; 115; 118; 121]%Z [0; 0; 0; 0; 0; 0; 0; 0]%Z 1 = Some (Si 3%Z, rv, pv, [0; 0; 0; 4; 4; 0; 0; 0]%Z, [3; 4]%nat, [(5, 7); (0, 2)]%nat)) /\
  exists s rv pv, ex_out true [0; 3; 6; 9; 17; 20; 23; 26]%Z [0; 0; 0; 0; 0; 0; 0; 0]%Z 1 = Some (s, rv, pv, [0; 0; 0; 0; 0; 0; 0; 0]%Z, [], [(0, 7)]%nat).
Proof. split; [eexists; eexists|eexists; eexists; eexists]; vm_compute; reflexivity. Qed.
(** A step downwards may be taken for a jump elsewhere: rate 100, 500 counts lost after the fourth resultant; the first two are flagged and the rate comes out negative. *)
Theorem C135_drop_refuted : exists ys : list Z,
  (forall i, (i < 8)%nat -> nth i ys 0%Z = (100 * Z.of_nat i + if Nat.leb i 3 then 0 else -500)%Z) /\
  exists s rv pv, ex_out true ys [0; 0; 0; 0; 0; 0; 0; 0]%Z 1 = Some (s, rv, pv, [4; 4; 0; 0; 0; 0; 0; 0]%Z, [0; 1]%nat, [(2, 7)]%nat) /\ flt B64 s (fzero B64) = true.
Proof.
  exists [0; 100; 200; 300; -100; 0; 100; 200]%Z. split; [|eexists; eexists; eexists; vm_compute; split; reflexivity].
  intros i H. do 8 (destruct i as [|i]; [reflexivity|]). lia.
Qed.
Print Assumptions C135_drop_refuted.
