(** C132: a cosmic ray in an otherwise steady ramp, from the data of the pixel alone.  Exact arithmetic with missing values (RN)
    and the written-out median (NmModel): the theorems are about what the method does, not about how its sums are rounded. *)
From Verif Require Import Base BaseLemmas FLaws RBase RNBase JumpModel JumpSpec JumpProofs JumpIter JumpStage JumpProps JsProps NmModel.
From Verif Require NmProps ShProps3.
From Coq Require Import ZifyBool ZifyNat ZifyN Lra Reals Permutation.
Open Scope R_scope.

(** ** Specification *)
(** the numbers of one pixel and of the thresholds *)
Record ramp := { a_rate : R; a_jump : R; a_rn : R; a_dt : nat -> R; a_nreads : nat -> R; a_t : R; a_t3 : R; a_t2 : R }.
(** one standard deviation of the rate between groups [j] and [j + 1]: Poisson noise and read noise *)
Definition sigma_of (a : ramp) (j : nat) : R := sqrt (a_rate a * a_dt a j + a_rn a * a_rn a / (1 / 2 * a_nreads a j)) / a_dt a j.
(** which threshold applies to a pixel with [n] differences *)
Definition threshold_for (a : ramp) (n : nat) : R := if Nat.eqb n 2 then a_t2 a else if Nat.eqb n 3 then a_t3 a else a_t a.
(** the pixel (r, c) collects light at a steady rate; between groups [j0] and [j0 + 1] of integration [i0] it gains the extra rate [a_jump] *)
Definition steady_with_jump (P : params RN) (kj kd ks : N) (nints ng : nat) (dat : arr4 RN) (gdq : arr4 N) (rn : img RN) (r c : nat) (a : ramp) (i0 j0 : nat) : Prop :=
  p_thresh P = Some (a_t a) /\ p_thresh3 P = Some (a_t3 a) /\ p_thresh2 P = Some (a_t2 a) /\ 0 <= a_t a /\ 0 <= a_t3 a /\ 0 <= a_t2 a /\
  (forall j, (j < ng - 1)%nat -> p_dt P j = Some (a_dt a j) /\ 0 < a_dt a j /\ p_nreads P j = Some (a_nreads a j) /\ 0 < a_nreads a j) /\
  rn r c = Some (a_rn a) /\ 0 <= a_rate a /\ 0 <= a_jump a /\ (0 < a_rate a \/ a_rn a <> 0) /\
  (forall i g, (i < nints)%nat -> (g < ng)%nat -> N.testbit (gdq i g r c) kj = false /\ N.testbit (gdq i g r c) kd = false /\ N.testbit (gdq i g r c) ks = false) /\
  exists x : nat -> nat -> R, (forall i g, (i < nints)%nat -> (g < ng)%nat -> dat i g r c = Some (x i g)) /\
    forall i j, (i < nints)%nat -> (j < ng - 1)%nat -> x i (j + 1)%nat - x i j = a_dt a j * (a_rate a + if Nat.eqb i i0 && Nat.eqb j j0 then a_jump a else 0).

(** ** Medians of nearly constant lists *)
Lemma med_real (l : list R) : np_median RN (map Some l : list RN) = NmProps.rmed l.
Proof.
  transitivity (np_nanmedian RN (map Some l : list RN)).
  - unfold np_nanmedian. f_equal. induction l as [|x l IH]; [reflexivity|]. exact (f_equal (cons (Some x)) IH).
  - rewrite NmProps.nanmedian_real. f_equal. induction l as [|x l IH]; [reflexivity|]. cbn. f_equal. exact IH.
Qed.
Lemma med_most (b : R) (l : list R) : (length l < 2 * NmProps.count (NmProps.within b b) l)%nat -> np_median RN (map Some l : list RN) = Some b.
Proof. intro H. rewrite med_real. destruct (NmProps.rmed_range l b b H) as (v & E & V). rewrite E. f_equal. lra. Qed.
Lemma within_self b : NmProps.within b b b = true.
Proof. unfold NmProps.within. rewrite andb_true_iff, !Rleb_spec. lra. Qed.
Lemma count_repeat b n : NmProps.count (NmProps.within b b) (repeat b n) = n.
Proof. rewrite NmProps.count_all; [apply repeat_length|]. intros x X. apply repeat_spec in X. subst x. apply within_self. Qed.
Lemma med_repeat b n : (0 < n)%nat -> np_median RN (map Some (repeat b n) : list RN) = Some b.
Proof. intro H. apply med_most. rewrite repeat_length, count_repeat. lia. Qed.
(** all equal but one *)
Definition one_odd (b v : R) (n1 n2 : nat) : list R := repeat b n1 ++ v :: repeat b n2.
Lemma one_odd_length b v n1 n2 : length (one_odd b v n1 n2) = S (n1 + n2).
Proof. unfold one_odd. rewrite app_length. cbn [length]. rewrite !repeat_length. lia. Qed.
Lemma med_one_odd b v n1 n2 : (2 <= n1 + n2)%nat -> np_median RN (map Some (one_odd b v n1 n2) : list RN) = Some b.
Proof.
  intro H. apply med_most. rewrite one_odd_length. unfold one_odd. rewrite NmProps.count_app, count_repeat.
  change (v :: repeat b n2) with ([v] ++ repeat b n2). rewrite NmProps.count_app, count_repeat. lia.
Qed.
Lemma typical_repeat b n : let u := map Some (repeat b n) : list RN in typical RN (np_median RN) u = None \/ typical RN (np_median RN) u = Some b.
Proof.
  cbv zeta. destruct n as [|[|[|[|n]]]]; [left; reflexivity|left; reflexivity| | |].
  - right. cbn. destruct (Rltb b b); reflexivity.
  - right. cbn [repeat map typical]. exact (med_repeat b 3 ltac:(lia)).
  - left. cbn [repeat map typical].
    match goal with |- match filter ?p ?u with [] => _ | _ => _ end = _ => assert (E : filter p u = []) end.
    { change (Some b :: Some b :: Some b :: Some b :: map Some (repeat b n)) with (map Some (repeat b (4 + n))). set (u := map Some (repeat b (4 + n))).
      assert (A : forall x, In x u -> x = Some b) by (intros x X; unfold u in X; apply in_map_iff in X; destruct X as (y & <- & Y); apply repeat_spec in Y; subst y; reflexivity).
      assert (F : forall l, (forall x, In x l -> x = Some b) -> filter (fun x => existsb (fun y => flt RN x y) u) l = []).
      { induction l as [|x l IH]; intro Hl; [reflexivity|]. cbn [filter]. rewrite (Hl x (or_introl eq_refl)).
        replace (existsb (fun y => flt RN (Some b) y) u) with false; [apply IH; intros; apply Hl; right; assumption|].
        symmetry. apply not_true_iff_false. intro X. apply existsb_exists in X. destruct X as (y & Y & YY). rewrite (A y Y) in YY. cbn in YY. apply Rltb_spec in YY. lra. }
      apply F, A. }
    rewrite E. reflexivity.
Qed.
Lemma typical_one_odd b J n1 n2 : 0 < J -> (1 <= n1 + n2)%nat -> typical RN (np_median RN) (map Some (one_odd b (b + J) n1 n2) : list RN) = Some b.
Proof.
  intros HJ HN. pose proof (one_odd_length b (b + J) n1 n2) as LN. set (u := map Some (one_odd b (b + J) n1 n2) : list RN).
  assert (LU : length u = S (n1 + n2)) by (unfold u; rewrite map_length; exact LN).
  destruct (Nat.eq_dec (n1 + n2) 1) as [E1|E1].
  - destruct n1 as [|[|n1]]; [assert (n2 = 1)%nat by lia|assert (n2 = 0)%nat by lia|lia]; subst; unfold u; cbn; destruct (Rltb _ _) eqn:EL; try reflexivity; exfalso.
    + apply not_true_iff_false in EL. apply EL, Rltb_spec. lra.
    + apply Rltb_spec in EL. lra.
  - destruct (Nat.eq_dec (n1 + n2) 2) as [E2|E2].
    + transitivity (np_median RN u); [|apply med_one_odd; lia]. destruct u as [|a [|a' [|a'' [|a3 u]]]]; cbn in LU; try lia. reflexivity.
    + assert (F : filter (fun x => existsb (fun y => flt RN x y) u) u = map Some (repeat b (n1 + n2))).
      { set (p := fun x => existsb (fun y => flt RN x y) u).
        assert (PB : p (Some b) = true).
        { unfold p. apply existsb_exists. exists (Some (b + J)). split; [|cbn; apply Rltb_spec; lra]. unfold u. apply in_map. unfold one_odd. apply in_or_app. right. left. reflexivity. }
        assert (PJ : p (Some (b + J)) = false).
        { unfold p. apply not_true_iff_false. intro X. apply existsb_exists in X. destruct X as (y & Y & YY). unfold u in Y. apply in_map_iff in Y. destruct Y as (z & <- & Z).
          cbn in YY. apply Rltb_spec in YY. unfold one_odd in Z. apply in_app_or in Z. destruct Z as [Z|[Z|Z]]; [apply repeat_spec in Z|subst z|apply repeat_spec in Z]; lra. }
        assert (FR : forall n, filter p (map Some (repeat b n)) = map Some (repeat b n)).
        { induction n as [|n IH]; [reflexivity|]. cbn [repeat map filter]. rewrite PB, IH. reflexivity. }
        unfold u at 1, one_odd. rewrite map_app, filter_app, FR. cbn [map filter]. rewrite PJ, FR, repeat_app, map_app. reflexivity. }
      transitivity (match filter (fun x => existsb (fun y => flt RN x y) u) u with [] => fnan RN | v => np_median RN v end).
      * destruct u as [|a [|a' [|a'' [|a3 u]]]]; cbn in LU; try lia. reflexivity.
      * rewrite F. transitivity (np_median RN (map Some (repeat b (n1 + n2)) : list RN)); [destruct (n1 + n2)%nat; [lia|reflexivity]|apply med_repeat; lia].
Qed.

(** ** The values of one pixel *)
Lemma NoDup_prod {A B} (la : list A) (lb : list B) : NoDup la -> NoDup lb -> NoDup (list_prod la lb).
Proof.
  intros HA HB. induction HA as [|a la H _ IH]; [constructor|]. cbn [list_prod].
  assert (G : forall l, NoDup l -> NoDup (map (fun y => (a, y)) l ++ list_prod la lb)).
  { induction l as [|y l IHl]; intro Hl; [exact IH|]. inversion_clear Hl. cbn [map app]. constructor; [|apply IHl; assumption].
    intro X. apply in_app_or in X. destruct X as [X|X]; [apply in_map_iff in X; destruct X as (z & E & Z); inversion E; subst; contradiction|].
    apply in_prod_iff in X. tauto. }
  apply G, HB.
Qed.
Lemma in_grid nints nd i j : In (i, j) (grid nints nd) <-> (i < nints /\ j < nd)%nat.
Proof. unfold grid. rewrite in_prod_iff, !in_seq. lia. Qed.
Lemma grid_length nints nd : length (grid nints nd) = (nints * nd)%nat.
Proof. unfold grid. rewrite prod_length, !seq_length. reflexivity. Qed.
Lemma values_steady (d : nat -> nat -> RN) b nints nd : (forall i j, (i < nints)%nat -> (j < nd)%nat -> d i j = None \/ d i j = Some b) ->
  exists m, in_use RN nints nd d = map Some (repeat b m).
Proof.
  intro H. unfold in_use.
  assert (G : forall l, (forall p, In p l -> In p (grid nints nd)) -> exists m, filter (fun x => negb (fisnan RN x)) (map (fun p => d (fst p) (snd p)) l) = map Some (repeat b m)).
  { induction l as [|[i j] l IH]; intro Hl; [exists 0%nat; reflexivity|]. destruct IH as (m & E); [intros; apply Hl; right; assumption|].
    pose proof (Hl (i, j) (or_introl eq_refl)) as HI. apply in_grid in HI. cbn [map filter fst snd]. destruct (H i j) as [K|K]; [tauto|tauto| |]; rewrite K.
    - exists m. exact E.
    - exists (S m). exact (f_equal (cons (Some b)) E). }
  apply G. trivial.
Qed.
Lemma values_odd (d : nat -> nat -> RN) b J nints nd i0 j0 : (i0 < nints)%nat -> (j0 < nd)%nat ->
  (forall i j, (i < nints)%nat -> (j < nd)%nat -> d i j = Some (b + if Nat.eqb i i0 && Nat.eqb j j0 then J else 0)) ->
  exists n1 n2, S (n1 + n2) = (nints * nd)%nat /\ in_use RN nints nd d = map Some (one_odd b (b + J) n1 n2).
Proof.
  intros HI HJ H. pose proof (proj2 (in_grid nints nd i0 j0) (conj HI HJ)) as IN. destruct (in_split _ _ IN) as (l1 & l2 & E).
  assert (ND : NoDup (grid nints nd)) by (apply NoDup_prod; apply seq_NoDup). rewrite E in ND. apply NoDup_remove_2 in ND.
  exists (length l1), (length l2). split.
  - rewrite <- grid_length, E, app_length. cbn [length]. lia.
  - unfold in_use. rewrite E.
    assert (G : forall l, (forall p, In p l -> In p (grid nints nd)) -> ~ In (i0, j0) l -> filter (fun x => negb (fisnan RN x)) (map (fun p => d (fst p) (snd p)) l) = map Some (repeat b (length l))).
    { induction l as [|[i j] l IH]; intros Hl Nl; [reflexivity|].
      pose proof (Hl (i, j) (or_introl eq_refl)) as HX. apply in_grid in HX. cbn [map filter fst snd length repeat]. rewrite (H i j) by tauto.
      replace (Nat.eqb i i0 && Nat.eqb j j0) with false.
      - rewrite Rplus_0_r. cbn [fisnan RN negb]. apply (f_equal (cons (Some b))). apply IH; [intros; apply Hl; right; assumption|intro X; apply Nl; right; exact X].
      - symmetry. apply not_true_iff_false. rewrite andb_true_iff, !Nat.eqb_eq. intros [-> ->]. apply Nl. left. reflexivity. }
    rewrite map_app, filter_app. cbn [map filter fst snd]. rewrite (H i0 j0) by assumption. rewrite !Nat.eqb_refl. cbn [andb].
    change (negb (fisnan RN (Some (b + J)))) with true. cbn iota. unfold one_odd. rewrite map_app. cbn [map].
    rewrite (G l1), (G l2); [reflexivity| | | |].
    + intros p Hp. rewrite E. apply in_or_app. right. right. exact Hp.
    + intro X. apply ND, in_or_app. right. exact X.
    + intros p Hp. rewrite E. apply in_or_app. left. exact Hp.
    + intro X. apply ND, in_or_app. left. exact X.
Qed.

(** ** The iteration *)
Section Rounds.
  Variable P : params RN.
  Variables nints nd : nat.
  Variable a : ramp.
  Hypothesis T : p_thresh P = Some (a_t a) /\ p_thresh3 P = Some (a_t3 a) /\ p_thresh2 P = Some (a_t2 a) /\ 0 <= a_t a /\ 0 <= a_t3 a /\ 0 <= a_t2 a.
  Hypothesis HP : forall j, (j < nd)%nat -> p_dt P j = Some (a_dt a j) /\ 0 < a_dt a j /\ p_nreads P j = Some (a_nreads a j) /\ 0 < a_nreads a j.
  Hypothesis HR : 0 <= a_rate a.
  Hypothesis HS : 0 < a_rate a \/ a_rn a <> 0.
  Let b := a_rate a.
  Let rr : RN := fmul RN (Some (a_rn a)) (Some (a_rn a)).
  Notation Clipped := (clipped RN (np_median RN) P nints nd rr).
  Notation After := (after RN (np_median RN) P nints nd rr).

  Lemma sigma_pos j : (j < nd)%nat -> 0 < sigma_of a j.
  Proof.
    intro H. destruct (HP j H) as (_ & D & _ & N). unfold sigma_of. apply Rdiv_lt_0_compat; [|exact D]. apply sqrt_lt_R0.
    assert (0 < 1 / 2 * a_nreads a j) by lra. assert (0 <= a_rate a * a_dt a j) by (apply Rmult_le_pos; lra).
    assert (0 <= a_rn a * a_rn a / (1 / 2 * a_nreads a j)) by (apply Rmult_le_pos; [nra|left; apply Rinv_0_lt_compat; assumption]).
    destruct HS as [S|S]; [assert (0 < a_rate a * a_dt a j) by (apply Rmult_lt_0_compat; lra); lra|].
    assert (0 < a_rn a * a_rn a / (1 / 2 * a_nreads a j)) by (apply Rdiv_lt_0_compat; [nra|assumption]). lra.
  Qed.
  Lemma noise_at j : (j < nd)%nat -> noise RN P rr (Some b : RN) j = Some (sigma_of a j).
  Proof.
    intro H. pose proof (sigma_pos j H) as SP. destruct (HP j H) as (E1 & D & E2 & N). unfold noise. cbv zeta. rewrite E1, E2. unfold rr.
    cbn [fdiv fsqrt fadd fmul fabs fofZ feq RN RNBase.rn2 option_map rncmp fzero].
    assert (Q : forall x, x <> 0 -> Reqb x 0 = false) by (intros x X; apply not_true_iff_false; rewrite Reqb_spec; exact X).
    rewrite (Q 2) by lra. cbn [RNBase.rn2]. rewrite (Q (1 / 2 * a_nreads a j)) by lra. cbn [RNBase.rn2].
    rewrite (Rabs_right b) by (unfold b; lra).
    assert (0 <= b * a_dt a j) by (apply Rmult_le_pos; unfold b; lra).
    assert (0 <= a_rn a * a_rn a / (1 / 2 * a_nreads a j)) by (apply Rmult_le_pos; [nra|left; apply Rinv_0_lt_compat; lra]).
    destruct (Rltb _ 0) eqn:EL; [apply Rltb_spec in EL; lra|]. rewrite (Q (a_dt a j)) by lra.
    change (sqrt (b * a_dt a j + a_rn a * a_rn a / (1 / 2 * a_nreads a j)) / a_dt a j) with (sigma_of a j). cbn [rncmp]. rewrite Q by lra. reflexivity.
  Qed.
  Lemma excess_same (t d : RN) (nz : RN) : (t = None \/ t = Some b) -> (d = None \/ d = Some b) ->
    fdiv RN (fabs RN (fsub RN d t)) nz = None \/ fdiv RN (fabs RN (fsub RN d t)) nz = Some 0.
  Proof.
    intros [->| ->] [->| ->]; try (left; reflexivity). cbn [fdiv fabs fsub RN RNBase.rn2 option_map]. change (F RN) with (option R) in nz. destruct nz as [z|]; [|left; reflexivity].
    destruct (Reqb z 0); [left; reflexivity|right]. f_equal. replace (b - b) with 0 by lra. rewrite Rabs_R0. unfold Rdiv. ring.
  Qed.
  Lemma limit_nonneg n t : limit RN P n = Some t -> exists x, t = Some x /\ 0 <= x.
  Proof.
    destruct T as (T1 & T2 & T3 & P1 & P2 & P3). destruct n as [|[|[|[|n]]]]; cbn; intro H; try discriminate; inversion H; subst t; eexists; split; try eassumption.
  Qed.
  Lemma steady_unclipped d : (forall i j, (i < nints)%nat -> (j < nd)%nat -> d i j = None \/ d i j = Some b) -> forall i j, Clipped d i j = false.
  Proof.
    intros H i j. apply not_true_iff_false. unfold clipped. rewrite !andb_true_iff, !Nat.ltb_lt. intros ((((I & J) & NN) & _) & LM).
    destruct (values_steady d b nints nd H) as (m & E). assert (TY := typical_repeat b m). cbv zeta in TY. rewrite <- E in TY.
    assert (X : excess RN (np_median RN) P nints nd rr d i j = None \/ excess RN (np_median RN) P nints nd rr d i j = Some 0) by (apply excess_same; [exact TY|apply H; assumption]).
    destruct X as [X|X]; rewrite X in NN, LM; [discriminate|]. destruct (limit RN P _) eqn:EL; [|discriminate]. destruct (limit_nonneg _ _ EL) as (x & -> & X0). cbn in LM. apply Rltb_spec in LM. lra.
  Qed.
  Lemma steady_forever d : (forall i j, (i < nints)%nat -> (j < nd)%nat -> d i j = None \/ d i j = Some b) -> forall k i j, After k d i j = d i j.
  Proof.
    intro H. induction k as [|k IH]; intros i j; [reflexivity|]. cbn [after]. rewrite steady_unclipped; [apply IH|]. intros i' j' I J. rewrite IH. apply H; assumption.
  Qed.
  Lemma steady_never d : (forall i j, (i < nints)%nat -> (j < nd)%nat -> d i j = None \/ d i j = Some b) -> forall k i j, Clipped (After k d) i j = false.
  Proof. intros H k i j. apply steady_unclipped. intros i' j' I J. rewrite steady_forever by exact H. apply H; assumption. Qed.

  Variables i0 j0 : nat.
  Hypothesis HI0 : (i0 < nints)%nat.
  Hypothesis HJ0 : (j0 < nd)%nat.
  Hypothesis HJ : 0 < a_jump a.
  Hypothesis H2 : (2 <= nints * nd)%nat.
  Definition special (i j : nat) : bool := Nat.eqb i i0 && Nat.eqb j j0.
  Definition with_jump (d : nat -> nat -> RN) := forall i j, (i < nints)%nat -> (j < nd)%nat -> d i j = Some (b + if special i j then a_jump a else 0).

  Lemma excess_jump d : with_jump d -> forall i j, (i < nints)%nat -> (j < nd)%nat ->
    excess RN (np_median RN) P nints nd rr d i j = Some (if special i j then a_jump a / sigma_of a j else 0).
  Proof.
    intros W i j I J. destruct (values_odd d b (a_jump a) nints nd i0 j0 HI0 HJ0 W) as (n1 & n2 & LN & E).
    unfold excess. rewrite E, typical_one_odd by (lra || lia). rewrite noise_at, (W i j) by assumption.
    pose proof (sigma_pos j J) as SP. cbn [fdiv fabs fsub RN RNBase.rn2 option_map].
    destruct (Reqb (sigma_of a j) 0) eqn:EQ; [apply Reqb_spec in EQ; lra|]. f_equal. destruct (special i j).
    - replace (b + a_jump a - b) with (a_jump a) by lra. rewrite Rabs_right by lra. reflexivity.
    - replace (b + 0 - b) with 0 by lra. rewrite Rabs_R0. unfold Rdiv. ring.
  Qed.
  Lemma clipped_jump d : with_jump d -> forall i j, (i < nints)%nat -> (j < nd)%nat ->
    Clipped d i j = special i j && Rltb (threshold_for a (nints * nd)) (a_jump a / sigma_of a j0).
  Proof.
    intros W i j I J. destruct (values_odd d b (a_jump a) nints nd i0 j0 HI0 HJ0 W) as (n1 & n2 & LN & E).
    assert (LU : length (in_use RN nints nd d) = (nints * nd)%nat) by (rewrite E, map_length, one_odd_length; exact LN).
    unfold clipped. rewrite LU, (excess_jump d W i j I J). rewrite !(proj2 (Nat.ltb_lt _ _)) by assumption. cbn [andb fisnan RN negb].
    assert (SP : 0 < a_jump a / sigma_of a j0) by (apply Rdiv_lt_0_compat; [exact HJ|apply sigma_pos, HJ0]).
    assert (LM : match limit RN P (nints * nd) with Some t => flt RN t (Some (a_jump a / sigma_of a j0)) | None => false end = Rltb (threshold_for a (nints * nd)) (a_jump a / sigma_of a j0)).
    { destruct T as (T1 & T2 & T3 & _). unfold threshold_for. destruct (nints * nd)%nat as [|[|[|[|n]]]] eqn:EN; [lia|lia| | |]; cbn [limit Nat.eqb]; rewrite ?T1, ?T2, ?T3; reflexivity. }
    destruct (special i j) eqn:ES.
    - assert (i = i0 /\ j = j0) as [-> ->] by (unfold special in ES; rewrite andb_true_iff, !Nat.eqb_eq in ES; exact ES). cbn [andb]. rewrite LM.
      match goal with |- ?f && _ = _ => replace f with true end; [reflexivity|]. symmetry. apply forallb_forall. intros [i' j'] IN. apply in_grid in IN. cbn [fst snd].
      rewrite (excess_jump d W i' j') by tauto. apply negb_true_iff, not_true_iff_false. cbn. rewrite Rltb_spec. destruct (special i' j') eqn:E'; [|lra].
      assert (i' = i0 /\ j' = j0) as [-> ->] by (unfold special in E'; rewrite andb_true_iff, !Nat.eqb_eq in E'; exact E'). lra.
    - cbn [andb]. apply andb_false_iff. left. apply not_true_iff_false. intro F. rewrite forallb_forall in F. specialize (F (i0, j0) (proj2 (in_grid _ _ _ _) (conj HI0 HJ0))). cbn [fst snd] in F.
      rewrite (excess_jump d W i0 j0) in F by assumption. unfold special in F. rewrite !Nat.eqb_refl in F. cbn in F. apply negb_true_iff, not_true_iff_false in F. apply F, Rltb_spec, SP.
  Qed.
  Lemma rounds d : with_jump d -> forall i j, (i < nints)%nat -> (j < nd)%nat ->
    (exists k, Clipped (After k d) i j = true) <-> (i = i0 /\ j = j0 /\ threshold_for a (nints * nd) < a_jump a / sigma_of a j0).
  Proof.
    intros W i j I J. pose proof (clipped_jump d W i j I J) as C0. unfold special in C0.
    assert (S0 : forall i j, special i j = true <-> i = i0 /\ j = j0) by (intros; unfold special; rewrite andb_true_iff, !Nat.eqb_eq; reflexivity).
    split.
    - intros (k & K). destruct (Rltb (threshold_for a (nints * nd)) (a_jump a / sigma_of a j0)) eqn:EL.
      + apply Rltb_spec in EL. destruct k as [|k]; [change (After 0%nat d) with d in K; rewrite K, andb_true_r in C0; symmetry in C0; apply S0 in C0; tauto|].
        assert (N1 : forall k i j, After (S k) d i j = After k (After 1 d) i j).
        { assert (Ext : forall d d' : nat -> nat -> RN, (forall i j, d i j = d' i j) -> forall i j, Clipped d i j = Clipped d' i j).
          { intros u u' H x y. assert (EU : in_use RN nints nd u = in_use RN nints nd u') by (unfold in_use; f_equal; apply map_ext; intros; apply H).
            assert (EX : forall x y, excess RN (np_median RN) P nints nd rr u x y = excess RN (np_median RN) P nints nd rr u' x y) by (intros; unfold excess; rewrite EU, H; reflexivity).
            unfold clipped. rewrite EU, EX. f_equal. f_equal. clear -EX. induction (grid nints nd) as [|p l IH]; [reflexivity|]. cbn [forallb]. rewrite EX, IH. reflexivity. }
          induction k0 as [|k0 IH]; intros x y; [reflexivity|]. change (After (S (S k0)) d x y) with (if Clipped (After (S k0) d) x y then None else After (S k0) d x y).
          change (After (S k0) (After 1 d) x y) with (if Clipped (After k0 (After 1 d)) x y then None else After k0 (After 1 d) x y). rewrite (Ext _ _ IH), IH. reflexivity. }
        assert (ST : forall x y, (x < nints)%nat -> (y < nd)%nat -> After 1 d x y = None \/ After 1 d x y = Some b).
        { intros x y X Y. cbn [after]. rewrite (clipped_jump d W x y X Y), (W x y X Y), (proj2 (Rltb_spec _ _) EL), andb_true_r. destruct (special x y); [left; reflexivity|right]. f_equal. lra. }
        exfalso. rewrite (steady_unclipped (After (S k) d)) in K; [discriminate|]. intros x y X Y. rewrite N1, (steady_forever _ ST). apply ST; assumption.
      + exfalso. assert (SM : forall k, with_jump (After k d)).
        { induction k0 as [|k0 IH]; [exact W|]. intros x y X Y. cbn [after]. rewrite (clipped_jump _ IH x y X Y), EL, andb_false_r. apply IH; assumption. }
        rewrite (clipped_jump _ (SM k) i j I J), EL, andb_false_r in K. discriminate.
    - intros (-> & -> & H). exists 0%nat. cbn [after]. rewrite C0, !Nat.eqb_refl. cbn [andb]. apply Rltb_spec, H.
  Qed.
End Rounds.

(** ** The theorems *)
Section Pixel.
  Variable sigclip : bool -> nat -> nat -> (nat -> nat -> RN) -> nat -> nat -> bool.
  Variable crowded : nat -> nat -> nat -> cube bool -> bool.
  Variable P : params RN.
  Variables kj kd ks : N.
  Variables nints ng nr nc : nat.
  Variable dat : arr4 RN.
  Variable gdq : arr4 N.
  Variable rn : img RN.
  Variables r c i0 j0 : nat.
  Variable a : ramp.
  Hypothesis HF : flag_bits P kj kd ks.
  Hypothesis HR : (r < nr)%nat.
  Hypothesis HC : (c < nc)%nat.
  Hypothesis HA : steady_with_jump P kj kd ks nints ng dat gdq rn r c a i0 j0.
  (** flags of neighbours and of later groups are off: C19 and C18 say what they add *)
  Hypothesis HN : p_neigh P = false.
  Hypothesis HL : (p_n1 P <= 0)%Z /\ (p_n2 P <= 0)%Z.
  Hypothesis ENOUGH : ~ too_few RN P kd nints ng nr nc gdq.
  Hypothesis NOCLIP : ~ by_clipping RN P kd nints ng nr nc gdq.
  Notation flagged i g := (N.testbit (res_gdq (find_crs RN (np_median RN) sigclip crowded P nints ng nr nc dat gdq rn) i g r c) kj = true).

  Lemma thr_ok : thresholds_ok RN P.
  Proof.
    destruct HA as (T1 & T2 & T3 & P1 & P2 & P3 & _). unfold thresholds_ok. rewrite T1, T2, T3. cbn.
    repeat split; apply not_true_iff_false; rewrite Rltb_spec; lra.
  Qed.
  Lemma step_at i j : (i < nints)%nat -> (j < ng - 1)%nat -> step RN P dat gdq i j r c = Some (a_rate a + if Nat.eqb i i0 && Nat.eqb j j0 then a_jump a else 0).
  Proof.
    intros I J. destruct HA as (_ & _ & _ & _ & _ & _ & HP & _ & _ & _ & _ & HB & x & HX & HD). destruct HF as (_ & Hd & Hs & _). destruct (HP j J) as (E & D & _ & _).
    unfold step, sample. rewrite Hd, Hs, !has_or. destruct (HB i j I ltac:(lia)) as (_ & B1 & B2). destruct (HB i (j + 1)%nat I ltac:(lia)) as (_ & B3 & B4).
    rewrite B1, B2, B3, B4. cbn [orb]. rewrite !HX by lia. rewrite E. cbn [fdiv fsub RN RNBase.rn2]. destruct (Reqb (a_dt a j) 0) eqn:EQ; [apply Reqb_spec in EQ; lra|].
    f_equal. rewrite HD by assumption. field. lra.
  Qed.
  Lemma abs_step i j : (i < nints)%nat -> (j < ng - 1)%nat -> fabs RN (step RN P dat gdq i j r c) = Some (a_rate a + if Nat.eqb i i0 && Nat.eqb j j0 then a_jump a else 0).
  Proof.
    intros I J. rewrite step_at by assumption. destruct HA as (_ & _ & _ & _ & _ & _ & _ & _ & H1 & H2 & _). cbn [fabs RN option_map]. rewrite Rabs_right; [reflexivity|]. destruct (_ && _); lra.
  Qed.
  Lemma flagged_iff i g : (i < nints)%nat -> (g < ng)%nat -> flagged i g <->
    by_single_pass RN P kd nints ng nr nc gdq /\ (1 <= g)%nat /\ flt RN (p_thresh P) (off_by RN (np_median RN) P nints ng dat gdq rn i (g - 1) r c) = true \/
    ~ by_single_pass RN P kd nints ng nr nc gdq /\ (1 <= g)%nat /\ exists k, clipped RN (np_median RN) P nints (ng - 1) (fmul RN (rn r c) (rn r c))
       (after RN (np_median RN) P nints (ng - 1) (fmul RN (rn r c) (rn r c)) k (fun x y => fabs RN (step RN P dat gdq x y r c))) i (g - 1) = true.
  Proof.
    intros I G. rewrite (proj1 (proj2 (C121_find_crs RN ShProps3.RN_laws eq_refl (np_median RN) sigclip crowded P kj kd ks nints ng nr nc dat gdq rn i g r c HF thr_ok I G HR HC)) ENOUGH).
    assert (NH : ~ had kj gdq i g r c) by (unfold had; destruct HA as (_ & _ & _ & _ & _ & _ & _ & _ & _ & _ & _ & HB & _); rewrite (proj1 (HB i g I G)); discriminate).
    transitivity (found RN (np_median RN) sigclip P kj kd ks nints ng nr nc dat gdq rn i g r c).
    - unfold jump, spread. rewrite HN. split; [|tauto]. intros [[H|(H & _)]|(_ & g' & G' & [(_ & H)|(_ & H)])]; [exact H|discriminate|lia|lia].
    - unfold found, pass_found, iter_found. split.
      + intros [(H & _)|[(_ & S & [H|(H1 & H2 & _)])|(_ & S & [H|(H1 & H2)])]]; [tauto|tauto|left; split; [exact S|split; [lia|exact H2]]|tauto|right; split; [exact S|split; [lia|exact H2]]].
      + intros [(S & G1 & H)|(S & G1 & H)].
        * right. left. split; [exact NOCLIP|]. split; [exact S|]. right. split; [lia|]. split; [exact H|]. rewrite step_at by lia. reflexivity.
        * right. right. split; [exact NOCLIP|]. split; [exact S|]. right. split; [lia|exact H].
  Qed.

  (** A steady ramp: nothing is flagged. *)
  Theorem C132_steady : a_jump a = 0 -> forall i g, (i < nints)%nat -> (g < ng)%nat -> ~ flagged i g.
  Proof.
    intros J0 i g I G. rewrite (flagged_iff i g I G). destruct HA as (T1 & T2 & T3 & P1 & P2 & P3 & HP & RN0 & HB & _ & HS & _).
    assert (Z : forall (q : bool), (a_rate a + if q then a_jump a else 0) = a_rate a) by (intros []; lra).
    intros [(_ & G1 & H)|(_ & G1 & k & H)].
    - unfold off_by in H. rewrite step_at, Z in H by lia.
      assert (M : middle RN (np_median RN) P nints ng dat gdq r c = None \/ middle RN (np_median RN) P nints ng dat gdq r c = Some (a_rate a)).
      { unfold middle. destruct (values_steady (fun i j => step RN P dat gdq i j r c) (a_rate a) nints (ng - 1)) as (m & E); [intros x y X Y; right; rewrite step_at, Z by assumption; reflexivity|].
        rewrite E. destruct m as [|m]; [left; reflexivity|right]. exact (med_repeat (a_rate a) (S m) ltac:(lia)). }
      assert (X := excess_same a _ (Some (a_rate a)) (noise RN P (fmul RN (rn r c) (rn r c)) (middle RN (np_median RN) P nints ng dat gdq r c) (g - 1)) M (or_intror eq_refl)).
      destruct X as [X|X]; rewrite X, T1 in H; [discriminate|]. cbn in H. apply Rltb_spec in H. lra.
    - rewrite RN0 in H. rewrite (steady_never P nints (ng - 1) a) in H; [discriminate|repeat split; assumption|].
      intros x y X Y. right. rewrite abs_step, Z by assumption. reflexivity.
  Qed.

  Hypothesis HI0 : (i0 < nints)%nat.
  Hypothesis HJ0 : (j0 < ng - 1)%nat.

  (** A cosmic ray in a steady ramp, found by the iteration: its group is flagged exactly when it is over the threshold, and no other is. *)
  Theorem C132_iterative : ~ by_single_pass RN P kd nints ng nr nc gdq -> (2 <= nints * (ng - 1))%nat -> forall i g, (i < nints)%nat -> (g < ng)%nat ->
    flagged i g <-> i = i0 /\ g = (j0 + 1)%nat /\ threshold_for a (nints * (ng - 1)) < a_jump a / sigma_of a j0.
  Proof.
    intros S N2 i g I G. pose proof (flagged_iff i g I G) as FI. pose proof (C132_steady) as ST. destruct HA as (T1 & T2 & T3 & P1 & P2 & P3 & HP & RN0 & HB & HJ & HS & _).
    destruct (Rle_lt_or_eq_dec _ _ HJ) as [HJ'|HJ'].
    - rewrite FI, RN0. set (d := fun x y => fabs RN (step RN P dat gdq x y r c)).
      assert (W : with_jump nints (ng - 1) a i0 j0 d) by (intros x y X Y; apply abs_step; assumption).
      pose proof (fun Y => rounds P nints (ng - 1) a (conj T1 (conj T2 (conj T3 (conj P1 (conj P2 P3))))) HP HB HS i0 j0 HI0 HJ0 HJ' N2 d W i (g - 1) I Y) as RO.
      split.
      + intros [(H & _)|(_ & G1 & H)]; [contradiction|]. apply RO in H; [|lia]. intuition lia.
      + intros (-> & -> & H). right. split; [exact S|]. split; [lia|]. apply RO; [lia|]. repeat split; [lia|exact H].
    - split; [intro H; exfalso; apply (ST (eq_sym HJ') i g I G H)|]. intros (_ & _ & H). exfalso. rewrite <- HJ' in H. unfold threshold_for, Rdiv in H. rewrite Rmult_0_l in H.
      destruct (Nat.eqb _ 2); [lra|]. destruct (Nat.eqb _ 3); lra.
  Qed.

  (** The same in one pass over many groups: the threshold is the ordinary one. *)
  Theorem C132_single_pass : by_single_pass RN P kd nints ng nr nc gdq -> (3 <= nints * (ng - 1))%nat -> forall i g, (i < nints)%nat -> (g < ng)%nat ->
    flagged i g <-> i = i0 /\ g = (j0 + 1)%nat /\ a_t a < a_jump a / sigma_of a j0.
  Proof.
    intros S N2 i g I G. pose proof (flagged_iff i g I G) as FI. destruct HA as (T1 & T2 & T3 & P1 & P2 & P3 & HP & RN0 & HB & HJ & HS & _).
    assert (M : middle RN (np_median RN) P nints ng dat gdq r c = Some (a_rate a)).
    { unfold middle. destruct (values_odd (fun i j => step RN P dat gdq i j r c) (a_rate a) (a_jump a) nints (ng - 1) i0 j0 HI0 HJ0) as (n1 & n2 & LN & E); [intros x y X Y; apply step_at; assumption|].
      pose proof (med_one_odd (a_rate a) (a_rate a + a_jump a) n1 n2 ltac:(lia)) as ME. rewrite E. destruct (map Some (one_odd (a_rate a) (a_rate a + a_jump a) n1 n2)); [discriminate ME|exact ME]. }
    assert (OF : forall j, (j < ng - 1)%nat -> off_by RN (np_median RN) P nints ng dat gdq rn i j r c = Some (if Nat.eqb i i0 && Nat.eqb j j0 then a_jump a / sigma_of a j else 0)).
    { intros j Y. unfold off_by. rewrite M, RN0, step_at by assumption. rewrite (noise_at P (ng - 1) a HP HB HS j Y). pose proof (sigma_pos P (ng - 1) a HP HB HS j Y) as SP.
      cbn [fdiv fabs fsub RN RNBase.rn2 option_map]. destruct (Reqb (sigma_of a j) 0) eqn:EQ; [apply Reqb_spec in EQ; lra|]. f_equal. destruct (Nat.eqb i i0 && Nat.eqb j j0).
      - replace (a_rate a + a_jump a - a_rate a) with (a_jump a) by lra. rewrite Rabs_right by lra. reflexivity.
      - replace (a_rate a + 0 - a_rate a) with 0 by lra. rewrite Rabs_R0. unfold Rdiv. ring. }
    rewrite FI. split.
    - intros [(_ & G1 & H)|(H & _)]; [|contradiction]. rewrite OF, T1 in H by lia. cbn in H. destruct (Nat.eqb i i0 && Nat.eqb (g - 1) j0) eqn:EQ; apply Rltb_spec in H; [|lra].
      rewrite andb_true_iff, !Nat.eqb_eq in EQ. destruct EQ as [-> E2]. rewrite E2 in H. split; [reflexivity|]. split; [lia|exact H].
    - intros (-> & -> & H). left. split; [exact S|]. split; [lia|]. replace (j0 + 1 - 1)%nat with j0 by lia. rewrite OF, T1, !Nat.eqb_refl by assumption. cbn. apply Rltb_spec, H.
  Qed.
End Pixel.
Print Assumptions C132_steady.
Print Assumptions C132_iterative.
Print Assumptions C132_single_pass.

(** ** Examples *)
Definition jr_P (single : Z) : params RN := {| p_dnu := 1; p_sat := 2; p_jump := 4; p_thresh := Some 4 : RN; p_thresh3 := Some 5 : RN; p_thresh2 := Some 6 : RN;
  p_neigh := false; p_maxneigh := Some 200 : RN; p_minneigh := Some 10 : RN; p_n1 := 0; p_n2 := 0; p_e1 := Some 1000 : RN; p_e2 := Some 3000 : RN;
  p_mingroups := 3; p_minsigclip := 100; p_onlyints := true; p_singlepass := single; p_dt := fun _ => Some 2 : RN; p_nreads := fun _ => Some 8 : RN; p_uniform := true |}.
(** two integrations of four groups two seconds apart, 12 per second, read noise 10; 60 more per second before group 2 of the second integration *)
Definition jr_a : ramp := {| a_rate := 12; a_jump := 60; a_rn := 10; a_dt := fun _ => 2; a_nreads := fun _ => 8; a_t := 4; a_t3 := 5; a_t2 := 6 |}.
Definition jr_x (i g : nat) : R := 24 * INR g + (if Nat.eqb i 1 && Nat.leb 2 g then 120 else 0).
Definition jr_dat : arr4 RN := fun i g _ _ => Some (jr_x i g).
Definition jr_gdq : arr4 N := fun _ _ _ _ => 0%N.
Lemma jr_steady s : steady_with_jump (jr_P s) 2 0 1 2 4 jr_dat jr_gdq (fun _ _ => Some 10 : RN) 0 0 jr_a 1 1.
Proof.
  unfold steady_with_jump. do 3 (split; [reflexivity|]). cbn [a_t a_t3 a_t2 a_dt a_nreads a_rn a_rate a_jump jr_a]. do 3 (split; [lra|]).
  split; [intros j _; repeat split; lra|]. split; [reflexivity|]. do 2 (split; [lra|]). split; [left; lra|]. split; [intros; repeat split|].
  exists jr_x. split; [reflexivity|]. intros i j I J. unfold jr_x. rewrite plus_INR. cbn [INR].
  destruct i as [|[|i]]; [| |lia]; destruct j as [|[|[|j]]]; try lia; cbn [Nat.eqb Nat.leb andb Nat.add INR]; lra.
Qed.
Example C132_example : forall sg cr s, (s = 1%Z \/ s = 9%Z) ->
  flag_bits (jr_P s) 2 0 1 /\ ~ too_few RN (jr_P s) 0 2 4 1 1 jr_gdq /\ ~ by_clipping RN (jr_P s) 0 2 4 1 1 jr_gdq /\
  (by_single_pass RN (jr_P s) 0 2 4 1 1 jr_gdq <-> s = 1%Z) /\ sigma_of jr_a 1 = 7 / 2 /\
  forall i g, (i < 2)%nat -> (g < 4)%nat ->
    N.testbit (res_gdq (find_crs RN (np_median RN) sg cr (jr_P s) 2 4 1 1 jr_dat jr_gdq (fun _ _ => Some 10 : RN)) i g 0%nat 0%nat) 2 = true <-> i = 1%nat /\ g = 2%nat.
Proof.
  intros sg cr s HS. assert (FB : flag_bits (jr_P s) 2 0 1) by (repeat split; discriminate || reflexivity).
  assert (TF : ~ too_few RN (jr_P s) 0 2 4 1 1 jr_gdq) by (intros [(i & I & E) _]; vm_compute in E; discriminate).
  assert (BC : ~ by_clipping RN (jr_P s) 0 2 4 1 1 jr_gdq) by (intros [_ H]; vm_compute in H; apply H; reflexivity).
  assert (BS : by_single_pass RN (jr_P s) 0 2 4 1 1 jr_gdq <-> s = 1%Z).
  { split.
    - intro H. specialize (H 0%nat ltac:(lia)). destruct HS as [->| ->]; [reflexivity|vm_compute in H; discriminate].
    - intros -> i I. vm_compute. reflexivity. }
  assert (SG : sigma_of jr_a 1 = 7 / 2).
  { unfold sigma_of. cbn [a_rate a_dt a_rn a_nreads jr_a]. replace (12 * 2 + 10 * 10 / (1 / 2 * 8)) with (7 * 7) by field. rewrite sqrt_square by lra. reflexivity. }
  assert (HL : (p_n1 (jr_P s) <= 0)%Z /\ (p_n2 (jr_P s) <= 0)%Z) by (cbn; lia).
  do 4 (split; [assumption|]). split; [exact SG|]. intros i g I G. destruct HS as [E|E].
  - rewrite (C132_single_pass sg cr (jr_P s) 2 0 1 2 4 1 1 jr_dat jr_gdq _ 0 0 1 1 jr_a FB ltac:(lia) ltac:(lia) (jr_steady s) eq_refl HL TF BC ltac:(lia) ltac:(lia) (proj2 BS E) ltac:(lia) i g I G).
    rewrite SG. cbn [a_jump a_t jr_a]. split; [intros (-> & -> & _); split; reflexivity|]. intros (-> & ->). repeat split. lra.
  - rewrite (C132_iterative sg cr (jr_P s) 2 0 1 2 4 1 1 jr_dat jr_gdq _ 0 0 1 1 jr_a FB ltac:(lia) ltac:(lia) (jr_steady s) eq_refl HL TF BC ltac:(lia) ltac:(lia) ltac:(intro H; apply BS in H; lia) ltac:(cbn; lia) i g I G).
    rewrite SG. cbn [a_jump a_t threshold_for Nat.mul Nat.add Nat.sub Nat.eqb jr_a]. split; [intros (-> & -> & _); split; reflexivity|]. intros (-> & ->). repeat split. lra.
Qed.

(** ** A dip *)
(** Four or more differences: the iteration leaves out every difference equal to the largest.  In a steady ramp with one low difference these are all the
    ordinary ones, so the low one becomes the typical one: the ordinary groups are flagged and the odd one is not.  In one pass only the odd one is. *)
Definition dip : arr4 B64 := fun _ g _ _ => z64 (nth g [0; 100; 200; 300; 400; 420]%Z 0%Z).
Definition dip_flags (single : Z) : list N :=
  map (fun g => res_gdq (find_crs B64 (np_median B64) nosig nocrowd (js_P single 100) 1 6 1 1 dip (fun _ _ _ _ => 0%N) (fun _ _ => z64 5)) 0%nat g 0%nat 0%nat) (seq 0 6).
Theorem C132_dip_refuted : exists (P : params B64) dat rn, flag_bits P 2 0 1 /\ thresholds_ok B64 P /\
  ~ too_few B64 P 0 1 6 1 1 (fun _ _ _ _ => 0%N) /\ ~ by_clipping B64 P 0 1 6 1 1 (fun _ _ _ _ => 0%N) /\ ~ by_single_pass B64 P 0 1 6 1 1 (fun _ _ _ _ => 0%N) /\
  map (fun g => feq B64 (fsub B64 (dat 0%nat (g + 1)%nat 0%nat 0%nat) (dat 0%nat g 0%nat 0%nat)) (z64 100)) (seq 0 5) = [true; true; true; true; false] /\
  map (fun g => N.testbit (res_gdq (find_crs B64 (np_median B64) nosig nocrowd P 1 6 1 1 dat (fun _ _ _ _ => 0%N) rn) 0%nat g 0%nat 0%nat) 2) (seq 1 5) = [true; true; true; true; false].
Proof.
  exists (js_P 9 100), dip, (fun _ _ => z64 5). destruct exP_flags as (H1 & H2 & _ & _). split; [exact H1|]. split; [exact H2|].
  split; [intros [(i & I & E) _]; vm_compute in E; discriminate|]. split; [intros [_ H]; vm_compute in H; apply H; reflexivity|].
  split; [intro H; specialize (H 0%nat ltac:(lia)); vm_compute in H; discriminate|]. split; vm_compute; reflexivity.
Qed.
Print Assumptions C132_dip_refuted.
Example C132_dip_one_pass : dip_flags 1 = [0; 0; 0; 0; 0; 4]%N. Proof. vm_compute. reflexivity. Qed.
