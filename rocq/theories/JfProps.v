(** C133: a cosmic ray that jump detection finds does not change the fitted rate.  Jump detection (JumpModel.find_crs) and the
    least-squares ramp fit (OlsModel.ols_pixel) one after the other, in exact arithmetic with missing values. *)
From Coq Require Import Reals Lra.
From Verif Require Import Base BaseLemmas RBase RNBase JumpModel JumpSpec JsProps NmModel.
From Verif Require JrProps ShProps3.
From Verif Require Import Cas22Model Cas22Spec Cas22Proofs Cas22Fit OlsModel OlsSpec OlsProofs OlsFit OlsProps OlProps.
Local Open Scope R_scope.

(** the cosmic ray is found: its extra rate is over the threshold that applies, in units of the noise *)
Definition detected (P : params RN) (kd : N) (nints ng nr nc : nat) (gdq : arr4 N) (a : JrProps.ramp) (j0 : nat) : Prop :=
  (by_single_pass RN P kd nints ng nr nc gdq /\ (3 <= nints * (ng - 1))%nat /\ JrProps.a_t a < JrProps.a_jump a / JrProps.sigma_of a j0) \/
  (~ by_single_pass RN P kd nints ng nr nc gdq /\ JrProps.threshold_for a (nints * (ng - 1)) < JrProps.a_jump a / JrProps.sigma_of a j0).

(** ** Segments of an integration with at most one jump *)
Section Segments.
  Variable f : oflags.
  Variables kj pers : N.
  Hypothesis Hj : o_jump f = bit kj.
  Hypothesis Hp : o_pers f = bit pers.
  Hypothesis Hd : kj <> pers.
  Variable ng : nat.
  Hypothesis HG : (3 <= ng)%nat.
  Variable d : nat -> N.

  Lemma ldiff_jump : N.ldiff (bit kj) (bit pers) = bit kj.
  Proof.
    apply N.bits_inj. intro n. rewrite N.ldiff_spec. unfold bit. rewrite !N.shiftl_1_l, !N.pow2_bits_eqb by lia. destruct (N.eqb_spec kj n); [|reflexivity].
    subst n. destruct (N.eqb_spec pers kj); [congruence|reflexivity].
  Qed.
  Lemma jump_nonzero : bit kj <> 0%N.
  Proof. unfold bit. rewrite ?N.shiftl_1_l. apply N.pow_nonzero. discriminate. Qed.

  (** the runs of unflagged groups *)
  Definition runs (g0 : option nat) : list (nat * nat) :=
    match g0 with
    | None => [(0, ng - 1)%nat]
    | Some g => if Nat.eqb g (ng - 1) then [(0, ng - 2)%nat] else [(0, g - 1)%nat; (g + 1, ng - 1)%nat]
    end.
  Lemma runs_are g0 : match g0 with Some g => (1 <= g <= ng - 1)%nat | None => True end ->
    (forall j, (j < ng)%nat -> d j = match g0 with Some g => if Nat.eqb j g then bit kj else 0%N | None => 0%N end) ->
    is_runs (flags_of f d) ng (runs g0) /\ existsb long (map (extend f d) (runs g0)) = true.
  Proof.
    intros G D.
    assert (FL : forall k, (k < ng)%nat -> (flags_of f d k = 0%Z <-> match g0 with Some g => k <> g | None => True end)).
    { intros k K. unfold flags_of. rewrite Hp, (D k K). destruct g0 as [g|]; [|rewrite N.ldiff_0_l; intuition].
      destruct (Nat.eqb_spec k g) as [E|E]; [rewrite ldiff_jump; pose proof jump_nonzero; split; [lia|congruence]|rewrite N.ldiff_0_l; intuition]. }
    split.
    - split; [split|].
      + destruct g0 as [g|]; cbn [runs]; [destruct (Nat.eqb_spec g (ng - 1))|]; cbn [In]; intros x X; destruct X as [<-|X]; cbn [fst snd]; try lia; try contradiction. destruct X as [<-|[]]. cbn [fst snd]. lia.
      + destruct g0 as [g|]; cbn [runs]; [destruct (Nat.eqb_spec g (ng - 1))|]; repeat constructor. cbn [fst snd]. lia.
      + intro k. destruct g0 as [g|]; cbn [runs]; [destruct (Nat.eqb_spec g (ng - 1)) as [E|E]|]; (split;
        [intros (x & X & K); cbn [In] in X
        |intros (K & Z); apply FL in Z; [|exact K]]).
        * destruct X as [<-|[]]. cbn [fst snd] in K. split; [lia|]. apply FL; lia.
        * exists (0, ng - 2)%nat. split; [left; reflexivity|cbn [fst snd]; lia].
        * destruct X as [<-|[<-|[]]]; cbn [fst snd] in K; (split; [lia|]; apply FL; lia).
        * destruct (Nat.lt_ge_cases k g); [exists (0, g - 1)%nat; split; [left; reflexivity|cbn [fst snd]; lia]|exists (g + 1, ng - 1)%nat; split; [right; left; reflexivity|cbn [fst snd]; lia]].
        * destruct X as [<-|[]]. cbn [fst snd] in K. split; [lia|]. apply FL; [lia|exact I].
        * exists (0, ng - 1)%nat. split; [left; reflexivity|cbn [fst snd]; lia].
    - apply existsb_exists. destruct g0 as [g|]; cbn [runs].
      + destruct (Nat.eqb_spec g (ng - 1)) as [E|E].
        * exists (extend f d (0, ng - 2)%nat). split; [left; reflexivity|]. unfold long, extend. cbn [fst snd]. replace (Nat.ltb 0 0) with false by reflexivity. cbn [andb]. apply Nat.ltb_lt. lia.
        * exists (extend f d (g + 1, ng - 1)%nat). split; [right; left; reflexivity|]. unfold long, extend. cbn [fst snd]. replace (g + 1 - 1)%nat with g by lia.
          rewrite (D g) by lia. rewrite Nat.eqb_refl, Hp, Hj, ldiff_jump, N.eqb_refl. replace (Nat.ltb 0 (g + 1)) with true by (symmetry; apply Nat.ltb_lt; lia). cbn [andb]. apply Nat.ltb_lt. lia.
      + exists (extend f d (0, ng - 1)%nat). split; [left; reflexivity|]. unfold long, extend. cbn [fst snd]. replace (Nat.ltb 0 0) with false by reflexivity. cbn [andb]. apply Nat.ltb_lt. lia.
  Qed.
  Lemma segs_found g0 ks : o_sat f = bit ks -> ks <> kj -> match g0 with Some g => (1 <= g <= ng - 1)%nat | None => True end ->
    (forall j, (j < ng)%nat -> d j = match g0 with Some g => if Nat.eqb j g then bit kj else 0%N | None => 0%N end) ->
    segments f d ng <> [] /\ forall s, In s (segments f d ng) -> (2 <= snd s - fst s)%nat /\
      forall k, (fst s <= k < snd s)%nat -> (k < ng)%nat /\ (match g0 with Some g => k = g -> k = fst s | None => True end).
  Proof.
    intros Hs HN G D. destruct (runs_are g0 G D) as [R X].
    assert (E : segments f d ng = kept (map (extend f d) (runs g0))).
    { unfold segments. rewrite Hs, has_bit.
      replace (N.testbit (d 0%nat) ks) with false; [rewrite <- (C30_segments f d ng _ (init_ramps_runs _ _)); apply C30_segments, R|].
      rewrite (D 0%nat) by lia. destruct g0 as [g|]; [destruct (Nat.eqb_spec 0 g); [lia|]|]; reflexivity. }
    assert (M : forall s k, In s (segments f d ng) -> (fst s <= k < snd s)%nat -> (k < ng)%nat /\ (N.ldiff (d k) (o_pers f) = 0%N \/ (k = fst s /\ N.ldiff (d k) (o_pers f) = o_jump f))).
    { intros s k I K. rewrite E, <- (C30_segments f d ng _ R) in I. exact (C30_members f d ng s k I K). }
    unfold kept in E. rewrite X in E. split.
    - rewrite E. apply existsb_exists in X. destruct X as (x & I & L). intro Z. assert (I' : In x (filter long (map (extend f d) (runs g0)))) by (apply filter_In; split; assumption). rewrite Z in I'. destruct I'.
    - intros s I. split; [rewrite E in I; apply filter_In in I; destruct I as [_ L]; apply Nat.ltb_lt in L; lia|].
      intros k K. destruct (M s k I K) as [K1 K2]. split; [exact K1|]. destruct g0 as [g|]; [|exact Logic.I]. intros ->. rewrite (D g K1), Nat.eqb_refl, Hp, ldiff_jump in K2. pose proof jump_nonzero. destruct K2 as [K2|[K2 _]]; [contradiction|exact K2].
  Qed.
End Segments.

(** ** The read-noise variance *)
Section Variance.
  Variables tg rn gn : R.
  Hypothesis Ht : 0 < tg.
  Hypothesis Hr : rn <> 0.
  Hypothesis Hg : 0 < gn.
  Definition w0 : R := gn * gn / (2 * ((rn / tg) * (rn / tg))).
  Lemma rt_pos : 0 < (rn / tg) * (rn / tg).
  Proof. assert (rn / tg <> 0) by (unfold Rdiv; apply Rmult_integral_contrapositive_currified; [exact Hr|apply Rinv_neq_0_compat; lra]). nra. Qed.
  Lemma w0_pos : 0 < w0.
  Proof. pose proof rt_pos. apply Rdiv_lt_0_compat; nra. Qed.
  Lemma weight_ge n : (2 <= n)%nat -> w0 <= 1 / seg_rvar tg rn gn n.
  Proof.
    intro H. pose proof rt_pos as RP. assert (N2 : 2 <= INR n) by (change 2 with (INR 2); apply le_INR; exact H). set (x := INR n) in *.
    assert (X6 : 6 <= x * x * x - x) by nra.
    assert (E : 1 / seg_rvar tg rn gn n = (x * x * x - x) * (gn * gn) / (12 * ((rn / tg) * (rn / tg)))).
    { unfold seg_rvar. fold x. field. repeat split; first [assumption|lra|nra]. }
    rewrite E. set (q := gn * gn / (12 * (rn / tg * (rn / tg)))).
    assert (Q : 0 < q) by (apply Rdiv_lt_0_compat; nra).
    replace w0 with (6 * q) by (unfold w0, q; field; repeat split; first [assumption|lra]).
    replace ((x * x * x - x) * (gn * gn) / (12 * (rn / tg * (rn / tg)))) with ((x * x * x - x) * q) by (unfold q, Rdiv; ring).
    apply Rmult_le_compat_r; lra.
  Qed.
  Lemma sum_ge {A} (w : A -> R) l : (forall x, In x l -> w0 <= w x) -> l <> [] -> w0 <= Rsum (map w l).
  Proof.
    intros H NE. pose proof w0_pos. destruct l as [|x l]; [contradiction|]. cbn [map]. rewrite Rsum_cons. pose proof (H x (or_introl eq_refl)).
    assert (0 <= Rsum (map w l)); [|lra]. assert (G : forall y, In y l -> 0 <= w y) by (intros y Y; pose proof (H y (or_intror Y)); lra). clear -G.
    induction l as [|y l IH]; [cbn [map]; rewrite Rsum_nil; lra|]. cbn [map]. rewrite Rsum_cons. pose proof (G y (or_introl eq_refl)). assert (0 <= Rsum (map w l)) by (apply IH; intros z Z; apply G; right; exact Z). lra.
  Qed.
  Lemma small_var W : 2 * ((rn / tg) * (rn / tg)) / (gn * gn) < 1000000 -> w0 <= W -> 1 / W < 1000000.
  Proof.
    intros B H. pose proof w0_pos as P0. pose proof rt_pos as RP. apply Rle_lt_trans with (1 / w0).
    - unfold Rdiv. rewrite !Rmult_1_l. apply Rinv_le_contravar; assumption.
    - unfold w0. replace (1 / (gn * gn / (2 * (rn / tg * (rn / tg))))) with (2 * ((rn / tg) * (rn / tg)) / (gn * gn)); [exact B|]. field. repeat split; first [assumption|lra].
  Qed.
End Variance.

(** ** Detection, then the fit *)
Section Both.
  Variable sigclip : bool -> nat -> nat -> (nat -> nat -> RN) -> nat -> nat -> bool.
  Variable crowded : nat -> nat -> nat -> cube bool -> bool.
  Variable P : params RN.
  Variables kj kd ks : N.
  Variables nints ng nr nc : nat.
  Variable dat : arr4 RN.
  Variable gdq : arr4 N.
  Variable rn : img RN.
  Variables r c i0 j0 : nat.
  Variable a : JrProps.ramp.
  Hypothesis HF : flag_bits P kj kd ks.
  Hypothesis HR : (r < nr)%nat.
  Hypothesis HC : (c < nc)%nat.
  Hypothesis HA : JrProps.steady_with_jump P kj kd ks nints ng dat gdq rn r c a i0 j0.
  Hypothesis HN : p_neigh P = false.
  Hypothesis HL : (p_n1 P <= 0)%Z /\ (p_n2 P <= 0)%Z.
  Hypothesis ENOUGH : ~ too_few RN P kd nints ng nr nc gdq.
  Hypothesis NOCLIP : ~ by_clipping RN P kd nints ng nr nc gdq.
  Hypothesis HI0 : (i0 < nints)%nat.
  Hypothesis HJ0 : (j0 < ng - 1)%nat.
  Hypothesis HG : (3 <= ng)%nat.
  (** found, or no cosmic ray at all *)
  Hypothesis DET : detected P kd nints ng nr nc gdq a j0 \/ JrProps.a_jump a = 0.
  (** the pixel has no flags before *)
  Hypothesis CLEAN : forall i g, (i < nints)%nat -> (g < ng)%nat -> gdq i g r c = 0%N.

  (** the fit: same flags, evenly spaced groups, counts instead of electrons *)
  Variable m : ometa RN.
  Variable p : opix RN.
  Variables tg rnp gn : R.
  Variables pers ngval chg : N.
  Hypothesis MF : m_f RN m = flags_at kd kj ks pers ngval chg.
  Hypothesis MD : NoDup [kd; kj; ks; pers; ngval].
  Hypothesis MI : m_nints RN m = nints.
  Hypothesis MG : m_ng RN m = ng.
  Hypothesis MT : m_tgroup RN m = (Some tg : RN).
  Hypothesis XR : x_rn RN p = (Some rnp : RN).
  Hypothesis XG : x_gain RN p = (Some gn : RN).
  Hypothesis Ht : 0 < tg.
  Hypothesis Hr : rnp <> 0.
  Hypothesis Hg : 0 < gn.
  Hypothesis DT : forall j, (j < ng - 1)%nat -> JrProps.a_dt a j = tg.
  Hypothesis XD : forall i g, (i < nints)%nat -> (g < ng)%nat -> dat i g r c = fmul RN (x_gain RN p) (x_data RN p i g).
  Hypothesis XQ : N.testbit (x_dq RN p) kd = false /\ N.testbit (x_dq RN p) ks = false.
  Hypothesis XF : forall i g, (i < nints)%nat -> (g < ng)%nat ->
    x_gdq RN p i g = res_gdq (find_crs RN (np_median RN) sigclip crowded P nints ng nr nc dat gdq rn) i g r c.
  Hypothesis NZ : x_zf RN p = None.
  (** the variance the code takes for infinite is not reached *)
  Hypothesis VB : 2 * ((rnp / tg) * (rnp / tg)) / (gn * gn) < 1000000.

  Lemma flags_out i g : (i < nints)%nat -> (g < ng)%nat ->
    x_gdq RN p i g = (if Nat.eqb i i0 && Nat.eqb g (j0 + 1) && negb (Reqb (JrProps.a_jump a) 0) then bit kj else 0%N).
  Proof.
    intros I G. rewrite XF by assumption. set (out := res_gdq _).
    assert (C : N.testbit (out i g r c) kj = Nat.eqb i i0 && Nat.eqb g (j0 + 1) && negb (Reqb (JrProps.a_jump a) 0)).
    { apply eq_iff_eq_true. rewrite !andb_true_iff, !Nat.eqb_eq, negb_true_iff, <- not_true_iff_false, Reqb_spec.
      destruct (Req_dec (JrProps.a_jump a) 0) as [Z|Z].
      - split; [|tauto]. intro H. exfalso. exact (JrProps.C132_steady sigclip crowded P kj kd ks nints ng nr nc dat gdq rn r c i0 j0 a HF HR HC HA HN HL ENOUGH NOCLIP Z i g I G H).
      - destruct DET as [[(S & N3 & T)|(S & T)]|]; [| |contradiction].
        + unfold out. rewrite (JrProps.C132_single_pass sigclip crowded P kj kd ks nints ng nr nc dat gdq rn r c i0 j0 a HF HR HC HA HN HL ENOUGH NOCLIP HI0 HJ0 S N3 i g I G). tauto.
        + unfold out. rewrite (JrProps.C132_iterative sigclip crowded P kj kd ks nints ng nr nc dat gdq rn r c i0 j0 a HF HR HC HA HN HL ENOUGH NOCLIP HI0 HJ0 S ltac:(nia) i g I G). tauto. }
    assert (O : forall k, k <> kj -> N.testbit (out i g r c) k = false).
    { intros k K. unfold out. rewrite (proj2 (proj2 (C121_find_crs RN ShProps3.RN_laws eq_refl (np_median RN) sigclip crowded P kj kd ks nints ng nr nc dat gdq rn i g r c HF (JrProps.thr_ok _ _ _ _ _ _ _ _ _ _ _ _ _ _ HA) I G HR HC)) k K).
      rewrite CLEAN by assumption. reflexivity. }
    apply N.bits_inj. intro k. destruct (N.eq_dec k kj) as [->|K].
    - rewrite C. destruct (_ && _ && _); [rewrite bit_testbit, N.eqb_refl; reflexivity|reflexivity].
    - rewrite (O k K). destruct (_ && _ && _); [rewrite bit_testbit; symmetry; apply N.eqb_neq; congruence|reflexivity].
  Qed.

  (** Every integration, and the exposure, give the rate without the cosmic ray. *)
  Theorem C133_rate_unchanged : forall pow (pow' : RN -> RN -> RN) dflt,
    pow_ok pow -> (forall x q, 0 <= x -> pow' (Some x) (Some q) = (Some (pow x q) : RN)) ->
    q_slope RN (fst (ols_pixel RN pow' m p)) = (Some (JrProps.a_rate a / gn) : RN) /\
    forall k, (k < nints)%nat -> q_slope RN (nth k (snd (ols_pixel RN pow' m p)) dflt) = (Some (JrProps.a_rate a / gn) : RN).
  Proof.
    intros pow pow' dflt PO PO'.
    destruct (C31_nan pow pow' m p tg rnp gn kd kj ks pers ngval chg (JrProps.a_rate a * tg / gn) PO PO' MT XR XG ltac:(lra) Hr Hg MF MD ltac:(lia) (proj1 XQ) (proj2 XQ)) as [CI CE].
    assert (NE : kj <> pers /\ ks <> kj).
    { inversion_clear MD as [|? ? N1 MD1]. inversion_clear MD1 as [|? ? N2 MD2]. cbn [In] in N2. split; intro; apply N2; subst; tauto. }
    set (g0 := fun k => if Nat.eqb k i0 && negb (Reqb (JrProps.a_jump a) 0) then Some (j0 + 1)%nat else None).
    assert (G0 : forall k, match g0 k with Some g => (1 <= g <= ng - 1)%nat | None => True end) by (intro k; unfold g0; destruct (_ && _); [lia|exact I]).
    assert (D0 : forall k, (k < nints)%nat -> forall j, (j < ng)%nat -> x_gdq RN p k j = match g0 k with Some g => if Nat.eqb j g then bit kj else 0%N | None => 0%N end).
    { intros k K j J. rewrite flags_out by assumption. unfold g0. destruct (Nat.eqb k i0), (negb (Reqb (JrProps.a_jump a) 0)); cbn [andb]; destruct (Nat.eqb j (j0 + 1)); reflexivity. }
    assert (SG : forall k, (k < nints)%nat -> segments (m_f RN m) (x_gdq RN p k) (m_ng RN m) <> [] /\ forall s, In s (segments (m_f RN m) (x_gdq RN p k) (m_ng RN m)) -> (2 <= snd s - fst s)%nat /\
      forall j, (fst s <= j < snd s)%nat -> (j < ng)%nat /\ (match g0 k with Some g => j = g -> j = fst s | None => True end)).
    { intros k K. rewrite MG, MF. apply (segs_found (flags_at kd kj ks pers ngval chg) kj pers eq_refl eq_refl (proj1 NE) ng HG (x_gdq RN p k) (g0 k) ks eq_refl (proj2 NE) (G0 k)). apply D0, K. }
    destruct HA as (_ & _ & _ & _ & _ & _ & _ & _ & _ & _ & _ & _ & x & HX & HD).
    assert (Y : forall k j, (k < nints)%nat -> (j < ng)%nat -> x_data RN p k j = (Some (x k j / gn) : RN)).
    { intros k j K J. pose proof (XD k j K J) as E. rewrite HX, XG in E by assumption. change (F RN) with (option R) in *. destruct (x_data RN p k j) as [v|]; [|discriminate]. injection E as E. f_equal. rewrite E. field. lra. }
    assert (LN : forall k, (k < nints)%nat -> on_line m p (JrProps.a_rate a * tg / gn) k).
    { intros k K s IS. destruct (SG k K) as [_ SX]. destruct (SX s IS) as [L M]. split; [exact L|]. exists (x k (fst s) / gn - JrProps.a_rate a * tg / gn * INR (fst s)).
      assert (X : forall n, (fst s + n < snd s)%nat -> x k (fst s + n)%nat = x k (fst s) + JrProps.a_rate a * tg * INR n).
      { induction n as [|n IH]; intro B; [rewrite Nat.add_0_r; cbn [INR]; ring|]. rewrite S_INR. specialize (IH ltac:(lia)).
        destruct (M (fst s + S n)%nat ltac:(lia)) as [B1 B2]. pose proof (HD k (fst s + n)%nat K ltac:(lia)) as E. rewrite DT in E by lia. replace (fst s + n + 1)%nat with (fst s + S n)%nat in E by lia.
        assert (Z : (if Nat.eqb k i0 && Nat.eqb (fst s + n) j0 then JrProps.a_jump a else 0) = 0).
        { destruct (Nat.eqb k i0 && Nat.eqb (fst s + n) j0) eqn:Q; [|reflexivity]. apply andb_true_iff in Q. destruct Q as [Q1 Q2]. apply Nat.eqb_eq in Q2. unfold g0 in B2. rewrite Q1 in B2. cbn [andb] in B2.
          destruct (Reqb (JrProps.a_jump a) 0) eqn:R0; [apply Reqb_spec in R0; exact R0|]. cbn [negb] in B2. specialize (B2 ltac:(lia)). lia. }
        rewrite Z in E. lra. }
      intros j J. rewrite Y by (try assumption; apply (M j J)). f_equal. pose proof (X (j - fst s)%nat ltac:(lia)) as E. replace (fst s + (j - fst s))%nat with j in E by lia. rewrite E, minus_INR by lia. field. lra. }
    assert (WK : forall k, (k < nints)%nat -> w0 tg rnp gn <= Rsum (map (fun g => 1 / seg_rvar tg rnp gn (snd g - fst g)) (segments (m_f RN m) (x_gdq RN p k) (m_ng RN m)))).
    { intros k K. destruct (SG k K) as [S0 S]. apply sum_ge; try assumption. intros s IS. apply weight_ge; try assumption. apply (S s IS). }
    assert (RT : JrProps.a_rate a * tg / gn / tg = JrProps.a_rate a / gn) by (field; lra). rewrite RT in CI, CE.
    assert (NZ' : forall k, no_zeroframe m p k) by (intro k; left; exact NZ). split.
    - apply CE.
      + intros k K. rewrite MI in K. split; [apply NZ'|apply LN, K].
      + exists i0. rewrite MI. split; [exact HI0|apply (SG i0 HI0)].
      + apply (small_var tg rnp gn); try assumption. rewrite MI. apply sum_ge; try assumption; [intros k IK; apply in_seq in IK; apply WK; lia|]. destruct nints; [lia|discriminate].
    - intros k K. apply CI; [rewrite MI; exact K|apply NZ'|apply LN, K|apply (SG k K)|]. apply (small_var tg rnp gn); try assumption. apply WK, K.
  Qed.
End Both.
Print Assumptions C133_rate_unchanged.

(** two integrations of four groups, two seconds and 24 electrons apart, gain 2; 120 electrons more before group 2 of the second
    integration: 6 counts per second all the same, with either method of detection *)
Definition jf_m : ometa RN := {| m_f := flags_at 0 2 1 3 4 7; m_nints := 2; m_ng := 4; m_tgroup := Some 2 : RN; m_tframe := Some 2 : RN; m_nframes := 1; m_sup := false |}.
Definition jf_p sg cr (s : Z) : opix RN := {| x_data := fun i g => Some (JrProps.jr_x i g / 2) : RN;
  x_gdq := fun i g => res_gdq (find_crs RN (np_median RN) sg cr (JrProps.jr_P s) 2 4 1 1 JrProps.jr_dat JrProps.jr_gdq (fun _ _ => Some 10 : RN)) i g 0%nat 0%nat;
  x_dq := 0%N; x_gain := Some 2 : RN; x_rn := Some 10 : RN; x_dark := None : RN; x_zf := None; x_orig := None |}.
Example C133_example : forall sg cr s, (s = 1%Z \/ s = 9%Z) ->
  detected (JrProps.jr_P s) 0 2 4 1 1 JrProps.jr_gdq JrProps.jr_a 1 /\ q_slope RN (fst (ols_pixel RN on_pow jf_m (jf_p sg cr s))) = (Some 6 : RN).
Proof.
  intros sg cr s HS. destruct (JrProps.C132_example sg cr s HS) as (FB & TF & BC & BS & SG & _).
  assert (D : detected (JrProps.jr_P s) 0 2 4 1 1 JrProps.jr_gdq JrProps.jr_a 1).
  { unfold detected. rewrite SG. cbn [JrProps.a_t JrProps.a_jump JrProps.jr_a JrProps.threshold_for Nat.mul Nat.add Nat.sub Nat.eqb].
    destruct HS as [E|E]; [left|right]; (split; [|try (split; [lia|]); lra]); [apply BS, E|intro H; apply BS in H; lia]. }
  split; [exact D|].
  pose proof (C133_rate_unchanged sg cr (JrProps.jr_P s) 2 0 1 2 4 1 1 JrProps.jr_dat JrProps.jr_gdq (fun _ _ => Some 10 : RN) 0 0 1 1 JrProps.jr_a FB ltac:(lia) ltac:(lia) (JrProps.jr_steady s) eq_refl ltac:(cbn; lia) TF BC ltac:(lia) ltac:(lia) ltac:(lia)
    (or_introl D) (fun _ _ _ _ => eq_refl) jf_m (jf_p sg cr s) 2 10 2 3 4 7 eq_refl ltac:(repeat constructor; cbn; intuition discriminate) eq_refl eq_refl eq_refl eq_refl eq_refl ltac:(lra) ltac:(lra) ltac:(lra) (fun _ _ => eq_refl)) as T.
  destruct (T ltac:(intros i g _ _; unfold JrProps.jr_dat, jf_p; cbn [x_gain x_data fmul RN RNBase.rn2]; f_equal; field) (conj eq_refl eq_refl) (fun _ _ _ _ => eq_refl) eq_refl ltac:(lra) c_pow on_pow
    (nth 0 (snd (ols_pixel RN on_pow jf_m (jf_p sg cr s))) (fst (ols_pixel RN on_pow jf_m (jf_p sg cr s)))) c_pow_ok (fun _ _ _ => eq_refl)) as [E _].
  rewrite E. f_equal. cbn [JrProps.a_rate JrProps.jr_a]. lra.
Qed.
