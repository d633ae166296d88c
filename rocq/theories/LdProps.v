(** C124: the whole likelihood ramp fit (likely_ramp_fit). *)
From Verif Require Import Base BaseLemmas JumpModel SnowModel LikelyModel LikelySpec LikelyProofs LikelyMask LikelyNoise LikelyFit LikelyProps OlsModel OlsPyModel DrvModel LdModel RBase.
From Verif Require FLaws JdProps LkzProps.
From Coq Require Import FunctionalExtensionality Reals Lra.
Local Open Scope nat_scope.

(** A property of single words that setting JUMP_DET keeps and that the word SATURATED has survives the snowball search. *)
Section Words.
  Variable fo : FOps. Variable P : snow fo.
  Variables (rnd : fo -> Z) (disk : Z -> Z -> fo -> Z -> Z -> bool) (sr jr : img bool -> list (ellipse fo)) (inside : fo * fo -> ellipse fo -> bool).
  Variable Q : nat -> nat -> nat -> nat -> N -> Prop.
  Hypothesis QJ : forall i k r c w f, Q i k r c w -> Q i k r c (N.lor w (flag_if f (s_jump P))).
  Hypothesis QS : forall i k r c, Q i k r c (s_sat P).
  Definition ok (g : arr4 N) : Prop := forall i k r c, Q i k r c (g i k r c).
  Lemma extend_one_ok ng i grp n m g : ok g -> ok (extend_one fo P ng i grp n m g).
  Proof.
    unfold extend_one. generalize (seq grp (Nat.min (grp + n + 1) ng - grp)). intro l. revert m g. induction l as [|k l IH]; intros m g H; [exact H|].
    cbn [fold_left]. apply IH. intros i' k' r c. destruct (Nat.eqb i' i && Nat.eqb k' k); [apply QJ|]; apply H.
  Qed.
  Lemma extend_ellipses_ok ng nr nc i grp es x n : forall g, ok g -> ok (extend_ellipses fo P rnd disk ng nr nc i grp es x n g).
  Proof. unfold extend_ellipses. induction es as [|e es IH]; intros g H; [exact H|]. cbn [fold_left]. apply IH, extend_one_ok, H. Qed.
  Lemma extend_saturation_ok ng nr nc i grp es : forall st, ok (fst st) -> ok (fst (extend_saturation fo P rnd disk ng nr nc i grp es st)).
  Proof.
    unfold extend_saturation. induction es as [|e es IH]; intros [g p] H; [exact H|]. cbn [fold_left]. apply IH. destruct (big_core fo P e); [|exact H].
    intros i' k r c. cbn [fst]. destruct (Nat.eqb i' i && Nat.leb grp k && Nat.ltb k ng && drawn fo rnd disk nr nc e (sat_axes fo P rnd e) r c); [apply QS|apply H].
  Qed.
  Lemma step_ok ng nr nc i st g st' : ok (fst (fst (fst st))) -> step fo P rnd disk sr jr inside ng nr nc i st g = Some st' -> ok (fst (fst (fst st'))).
  Proof.
    destruct st as [[[q per] nxt] tot]. cbn [fst]. intros H E. unfold step in E.
    match type of E with match ?X with Some nx => _ | None => None end = _ => destruct X as [nx|] end; [|discriminate].
    destruct (s_required P).
    - pose proof (extend_saturation_ok ng nr nc i g (sr (new_sat fo P (q i (g - 1)) (q i g))) (q, per) H) as H'.
      destruct (extend_saturation fo P rnd disk ng nr nc i g (sr (new_sat fo P (q i (g - 1)) (q i g))) (q, per)) as [q' per']. injection E as <-. cbn [fst]. apply extend_ellipses_ok, H'.
    - injection E as <-. cbn [fst]. apply extend_ellipses_ok, H.
  Qed.
  Lemma large_ok ng nr nc g out t : ok g -> flag_large_events fo P rnd disk sr jr inside 1 ng nr nc g = Some (out, t) -> ok out.
  Proof.
    intros H E. unfold flag_large_events, events in E. cbn [seq foldM] in E.
    assert (M : forall l st st', ok (fst (fst (fst st))) -> foldM (step fo P rnd disk sr jr inside ng nr nc 0) l st = Some st' -> ok (fst (fst (fst st')))).
    { induction l as [|x l IH]; intros st st' A B; [injection B as <-; exact A|]. cbn [foldM] in B.
      destruct (step fo P rnd disk sr jr inside ng nr nc 0 st x) as [s1|] eqn:S1; [|discriminate]. cbn [bind] in B. exact (IH s1 st' (step_ok _ _ _ _ _ _ _ A S1) B). }
    match type of E with context [foldM ?f ?l ?s] => destruct (foldM f l s) as [[[[q' p'] nxt'] tot']|] eqn:F end; [|discriminate].
    cbn [bind] in E. injection E as <- _. apply (M _ (g, _, _, _) _ H) in F. cbn [fst] in F.
    intros i k r c. unfold persist_phase.
    destruct (Nat.leb_spec 1 i); [destruct (Nat.ltb_spec i 1); [lia|]|]; rewrite ?andb_false_r; cbn [andb]; apply F.
  Qed.
End Words.

Section Rows.
  Variable fo : FOps.
  (** ** Rows and groups *)
  (** the ZEROFRAME is used if it is given and the first group has two or more reads; it is then one more row in front *)
  Definition zf_used (L : likely_in fo) : bool := match l_zf L, l_times L with Some _, (_ :: _ :: _) :: _ => true | _, _ => false end.
  Definition front (L : likely_in fo) : nat := if zf_used L then 1 else 0.
  Lemma rows_front L : length (l_times L) = l_ng L -> 1 <= l_ng L -> S (ndiffs fo L) = l_ng L + front L /\ S (ndiffs fo L) - l_ng L = front L.
  Proof.
    intros E G. unfold ndiffs, times_used, likely_input, front, zf_used. destruct (l_zf L) as [z|]; cbn [option_map snd]; [|lia].
    destruct (l_times L) as [|[|t0 [|t1 ts]] gs]; cbn [snd length] in *; lia.
  Qed.
  Lemma words_front L i r c k : 1 <= l_ng L -> k < l_ng L -> pix_words fo L i r c (k + front L) = l_gdq L i k r c.
  Proof.
    intros G H. unfold pix_words, pix_input, likely_input, front, zf_used.
    assert (E : nth k (map (fun g => l_gdq L i g r c) (seq 0 (l_ng L))) 0%N = l_gdq L i k r c).
    { rewrite (nth_indep _ _ (l_gdq L i 0 r c)) by (rewrite map_length, seq_length; exact H). rewrite (map_nth (fun g => l_gdq L i g r c)), seq_nth by exact H. reflexivity. }
    destruct (l_zf L) as [z|]; cbn [option_map snd fst]; [|rewrite Nat.add_0_r; exact E].
    destruct (l_times L) as [|[|t0 [|t1 ts]] gs]; cbn [snd fst]; rewrite ?Nat.add_0_r; try exact E.
    rewrite Nat.add_1_r. destruct (l_ng L) as [|n]; [lia|]. cbn [seq map zf_words nth]. exact E.
  Qed.

  (** ** Flags *)
  Definition clean (w : N) : Prop := (w mod 256 = 0)%N.
  Lemma clean_bits w : clean w <-> forall b, (b < 8)%N -> N.testbit w b = false.
  Proof.
    unfold clean. change 256%N with (2 ^ 8)%N. split.
    - intros H b B. rewrite <- (N.mod_pow2_bits_low w 8 b B), H. apply N.bits_0.
    - intro H. apply N.bits_inj. intro b. rewrite N.bits_0. destruct (N.lt_ge_cases b 8) as [B|B]; [rewrite N.mod_pow2_bits_low by exact B; apply H, B|apply N.mod_pow2_bits_high, B].
  Qed.
  Lemma clean_lor a b : clean (N.lor a b) <-> clean a /\ clean b.
  Proof.
    rewrite !clean_bits. split.
    - intro H. split; intros k K; specialize (H k K); rewrite N.lor_spec in H; apply orb_false_iff in H; apply H.
    - intros [A B] k K. rewrite N.lor_spec, A, B by exact K. reflexivity.
  Qed.
  Lemma bit_dirty k : (k < 8)%N -> ~ clean (bit k).
  Proof. intros K H. rewrite clean_bits in H. specialize (H k K). rewrite bit_testbit, N.eqb_refl in H. discriminate. Qed.
  (** the flag values, also those the snowball search is given *)
  Definition flagged (L : likely_in fo) (kj ks : N) : Prop :=
    o_jump (l_flags L) = bit kj /\ o_sat (l_flags L) = bit ks /\ match l_snow L with Some P => s_jump P = bit kj /\ s_sat P = bit ks | None => True end.
  Lemma before_words L i r c k : use_before fo L i r c k = true <-> clean (pix_words fo L i r c k) /\ clean (pix_words fo L i r c (S k)).
  Proof. unfold use_before, diffs2use, clean. rewrite andb_true_iff, !N.eqb_eq. tauto. Qed.
End Rows.

Section Whole.
  Variable fo : FOps.
  Variables (root : fo -> nat -> fo) (median nanmed : list fo -> fo) (sqrt2 : fo) (narrow : fo -> fo) (rnd : fo -> Z) (disk : Z -> Z -> fo -> Z -> Z -> bool).
  Variables (sr jr : img bool -> list (ellipse fo)) (inside : fo * fo -> ellipse fo -> bool).
  Notation run := (likely_ramp_fit fo root median nanmed sqrt2 narrow rnd disk sr jr inside).
  Notation work := (gdq_work fo root median sqrt2 rnd disk sr jr inside).
  Notation result := (pix_result fo root median sqrt2 narrow).

  Lemma mapM_nth {A B} (f : A -> option B) : forall l o, DarkModel.mapM f l = Some o -> length o = length l /\ forall i d e, i < length l -> f (nth i l d) = Some (nth i o e).
  Proof.
    induction l as [|x l IH]; intros o H; cbn [DarkModel.mapM] in H.
    - injection H as <-. split; [reflexivity|]. intros i d e Hi. cbn in Hi. lia.
    - destruct (f x) as [y|] eqn:Fx; [|discriminate]. cbn [bind] in H. destruct (DarkModel.mapM f l) as [o'|]; [|discriminate]. cbn [bind] in H. injection H as <-.
      destruct (IH o' eq_refl) as [L N]. split; [cbn; rewrite L; reflexivity|]. intros [|i] d e Hi; [exact Fx|]. cbn [nth]. apply N. cbn in Hi. lia.
  Qed.
  (** the parts of a run *)
  Lemma run_parts L out : run L = Some out -> 4 <= l_ng L /\ length (l_times L) = l_ng L /\
    forall i, i < l_nints L -> exists g, work L i = Some g /\
      (forall k r c, fst (fst out) i k r c = gdq_back fo L i g k r c) /\ (forall r c, snd (fst out) i r c = result L i g r c).
  Proof.
    unfold likely_ramp_fit. destruct (Nat.ltb_spec (l_ng L) 4) as [|G4]; [discriminate|]. cbn [orb]. destruct (Nat.eqb_spec (length (l_times L)) (l_ng L)) as [EL|]; [|discriminate]. cbn [negb].
    destruct (DarkModel.mapM (work L) (seq 0 (l_nints L))) as [gs|] eqn:M; [|discriminate]. cbn [bind]. intro E. injection E as <-. cbn [fst snd].
    split; [exact G4|]. split; [exact EL|]. intros i Hi. destruct (mapM_nth _ _ _ M) as [_ N]. rewrite seq_length in N. specialize (N i 0 (gdq_search fo root median sqrt2 L i) Hi).
    rewrite seq_nth in N by exact Hi. eexists. split; [exact N|]. split; [|reflexivity]. intros k r c. destruct (Nat.ltb_spec i (l_nints L)); [reflexivity|lia].
  Qed.
  Lemma after_before L i r c k : use_after fo root median sqrt2 L i r c k = true -> use_before fo L i r c k = true.
  Proof. unfold use_after, searched, mask_jumps. rewrite andb_true_iff. intros [_ H]. exact (loop_use _ _ _ _ _ _ _ _ _ _ H). Qed.
  Lemma kept_by_words L kj ks i g r c k : flagged fo L kj ks -> (kj < 8)%N -> (ks < 8)%N -> length (l_times L) = l_ng L -> S k < l_ng L -> work L i = Some g ->
    clean (l_gdq L i k r c) -> clean (gdq_back fo L i g (S k) r c) -> use_final fo root median sqrt2 L i g r c (k + front fo L) = true.
  Proof.
    intros [F1 [F2 F3]] J8 S8 EL Hk W C1 C2. destruct (rows_front fo L EL ltac:(lia)) as [R1 R2].
    unfold gdq_back in C2. rewrite R2 in C2. apply clean_lor in C2. destruct C2 as [C2 C3].
    rewrite <- (words_front fo L i r c k) in C1 by lia. rewrite <- (words_front fo L i r c (S k)) in C2 by lia. cbn [plus] in C2, C3.
    assert (B : use_before fo L i r c (k + front fo L) = true) by (apply before_words; auto).
    assert (A : use_after fo root median sqrt2 L i r c (k + front fo L) = true).
    { destruct (use_after fo root median sqrt2 L i r c (k + front fo L)) eqn:U; [reflexivity|]. exfalso.
      assert (D : ~ clean (gdq_search fo root median sqrt2 L i (S (k + front fo L)) r c)).
      { unfold gdq_search, jump_dq. rewrite B, U. destruct (Nat.ltb_spec (k + front fo L) (ndiffs fo L)); [|lia]. cbn [xorb andb flag_if]. rewrite F1. intro X. apply clean_lor in X. exact (bit_dirty kj J8 (proj2 X)). }
      unfold gdq_work in W. destruct (l_snow L) as [P|]; [|injection W as <-; contradiction].
      destruct (flag_large_events fo P rnd disk sr jr inside 1 (S (ndiffs fo L)) (l_nr L) (l_nc L) (fun _ => gdq_search fo root median sqrt2 L i)) as [[o t]|] eqn:E; [|discriminate]. cbn [bind fst] in W. injection W as <-.
      pose proof (large_ok fo P rnd disk sr jr inside (fun _ k' r' c' w => k' = S (k + front fo L) -> r' = r -> c' = c -> ~ clean w)) as LO.
      refine (LO _ _ _ _ _ _ _ _ _ E 0 (S (k + front fo L)) r c eq_refl eq_refl eq_refl C3).
      - intros i' k' r' c' w f H E1 E2 E3 X. apply clean_lor in X. exact (H E1 E2 E3 (proj1 X)).
      - intros _ _ _ _ _ _ _. rewrite (proj2 F3). apply bit_dirty, S8.
      - intros i' k' r' c' -> -> ->. exact D. }
    unfold use_final. destruct (l_snow L); [|exact A]. unfold after_snowballs. rewrite A, F1. cbn [andb]. apply N.eqb_eq.
    apply N.bits_inj. intro b. rewrite N.land_spec, N.bits_0, bit_testbit. destruct (N.eqb_spec kj b) as [<-|]; [|apply andb_false_r].
    rewrite clean_bits in C3. rewrite (C3 kj J8). reflexivity.
  Qed.

  (** The caller's group DQ only gains flags: JUMP_DET and, from the snowball search, SATURATED. *)
  Theorem C124_only_adds : forall L kj ks out i k r c b, flagged fo L kj ks -> run L = Some out -> i < l_nints L -> k < l_ng L ->
    (N.testbit (l_gdq L i k r c) b = true -> N.testbit (fst (fst out) i k r c) b = true) /\
    (N.testbit (fst (fst out) i k r c) b = true -> N.testbit (l_gdq L i k r c) b = true \/ b = kj \/ (b = ks /\ l_snow L <> None)).
  Proof.
    intros L kj ks out i k r c b [F1 [F2 F3]] H Hi Hk. destruct (run_parts L out H) as (G4 & EL & N). destruct (N i Hi) as (g & W & O & _). rewrite O. clear O N.
    unfold gdq_back. rewrite N.lor_spec, (proj2 (rows_front fo L EL ltac:(lia))). split; [intros ->; reflexivity|]. intro T. apply orb_true_iff in T. destruct T as [T|T]; [auto|].
    assert (SE : forall k r c, N.testbit (gdq_search fo root median sqrt2 L i k r c) b = true -> N.testbit (pix_words fo L i r c k) b = true \/ b = kj).
    { intros k' r' c'. unfold gdq_search, jump_dq. destruct k' as [|k']; [auto|]. rewrite N.lor_spec. intro X. apply orb_true_iff in X. destruct X as [X|X]; [auto|]. right.
      unfold flag_if in X. rewrite F1 in X. destruct (Nat.ltb k' (ndiffs fo L) && _); [|rewrite N.bits_0 in X; discriminate]. rewrite bit_testbit in X. apply N.eqb_eq in X. auto. }
    rewrite <- (words_front fo L i r c k) by lia. unfold gdq_work in W. destruct (l_snow L) as [P|]; [|injection W as <-; apply SE in T; tauto].
    destruct (flag_large_events fo P rnd disk sr jr inside 1 (S (ndiffs fo L)) (l_nr L) (l_nc L) (fun _ => gdq_search fo root median sqrt2 L i)) as [[o t]|] eqn:E; [|discriminate]. cbn [bind fst] in W. injection W as <-.
    pose proof (large_ok fo P rnd disk sr jr inside (fun _ k' r' c' w => N.testbit w b = true -> N.testbit (pix_words fo L i r' c' k') b = true \/ b = kj \/ (b = ks /\ Some P <> None))) as LO.
    refine (LO _ _ _ _ _ _ _ _ _ E 0 (k + front fo L) r c T).
    - intros i' k' r' c' w f Q X. rewrite N.lor_spec in X. apply orb_true_iff in X. destruct X as [X|X]; [auto|]. right. left. unfold flag_if in X. rewrite (proj1 F3) in X. destruct f; [|rewrite N.bits_0 in X; discriminate].
      rewrite bit_testbit in X. apply N.eqb_eq in X. auto.
    - intros _ k' r' c' X. right. right. rewrite (proj2 F3), bit_testbit in X. apply N.eqb_eq in X. split; [auto|discriminate].
    - intros _ k' r' c' X. apply SE in X. tauto.
  Qed.

  (** Without the snowball search and the ZEROFRAME, each integration is the fit of the differences between groups without flags (in the low
      eight bits) whose closing group has still none afterwards: the group words returned tell which differences were fitted. *)
  Definition isclean (w : N) : bool := N.eqb (w mod 256) 0.
  Theorem C124_fitted : forall L kj ks out i r c, flagged fo L kj ks -> (kj < 8)%N -> l_snow L = None -> l_zf L = None -> run L = Some out -> i < l_nints L ->
    let group k := l_data L i k r c in let before k := l_gdq L i k r c in let after k := fst (fst out) i k r c in let n := l_ng L in
    exists guess f, fit_ramps fo (n - 1) (mk_covar fo (l_times L)) root (l_gain L r c) (fdiv fo (l_rn L r c) sqrt2) (Some guess)
        (diffs fo (map group (seq 0 n)) (l_times L)) (fun k => Nat.ltb (S k) n && isclean (before k) && isclean (after (S k))) = Some f /\
      snd (fst out) i r c = Some {| n_rate := narrow (f_rate fo f); n_dq := dq_compress_sect (l_flags L) (map after (seq 0 n)) (l_pdq L r c);
        n_vp := narrow (f_vp fo f); n_vr := narrow (f_vr fo f); n_err := narrow (f_uncert fo f); n_chisq := narrow (f_chisq fo f) |}.
  Proof.
    intros L kj ks out i r c F J8 SN ZN H Hi group before after n. destruct (run_parts L out H) as (G4 & EL & N0). destruct (N0 i Hi) as (g & W & O & RR). clear N0.
    assert (FR : front fo L = 0) by (unfold front, zf_used; rewrite ZN; reflexivity). destruct (rows_front fo L EL ltac:(lia)) as [R1 R2]. rewrite FR in R1, R2.
    assert (TU : times_used fo L = l_times L) by (unfold times_used; rewrite ZN; reflexivity).
    assert (NE : ndiffs fo L = n - 1) by (unfold n; lia).
    assert (PD : pix_diff fo L i r c = diffs fo (map group (seq 0 n)) (l_times L)) by (unfold pix_diff, pix_input; rewrite ZN, TU; reflexivity).
    assert (EG : g = gdq_search fo root median sqrt2 L i) by (unfold gdq_work in W; rewrite SN in W; injection W as <-; reflexivity).
    assert (GB : forall k, k < n -> gdq_search fo root median sqrt2 L i k r c = after k).
    { intros k Hk. unfold after. rewrite O. unfold gdq_back. rewrite R2, Nat.add_0_r, EG. rewrite <- (words_front fo L i r c k) by (unfold n in *; lia). rewrite FR, Nat.add_0_r.
      unfold gdq_search, jump_dq. destruct k as [|k]; [rewrite N.lor_diag; reflexivity|]. rewrite N.lor_assoc, N.lor_diag. reflexivity. }
    assert (MK : use_final fo root median sqrt2 L i g r c = fun k => Nat.ltb (S k) n && isclean (before k) && isclean (after (S k))).
    { apply functional_extensionality. intro k. apply eq_true_iff_eq. rewrite !andb_true_iff. split.
      - intro U. unfold use_final in U. rewrite SN in U. pose proof (after_before L i r c k U) as B. apply before_words in B. destruct B as [B1 B2].
        assert (K : k < ndiffs fo L) by (unfold use_after in U; apply andb_true_iff in U; destruct U as [U _]; apply Nat.ltb_lt in U; exact U).
        pose proof (words_front fo L i r c k ltac:(lia) ltac:(lia)) as W1. rewrite FR, Nat.add_0_r in W1. rewrite W1 in B1.
        split; [split; [apply Nat.ltb_lt; unfold n; lia|apply N.eqb_eq, B1]|]. rewrite <- GB by (unfold n; lia). apply N.eqb_eq. unfold gdq_search, jump_dq. rewrite U.
        rewrite (proj2 (before_words fo L i r c k)) by (rewrite W1; auto). cbn [xorb]. rewrite andb_false_r. cbn [flag_if]. rewrite N.lor_0_r. exact B2.
      - intros [[K A] B]. apply Nat.ltb_lt in K. apply N.eqb_eq in A, B. unfold use_final. rewrite SN.
        destruct (use_after fo root median sqrt2 L i r c k) eqn:U; [reflexivity|]. exfalso. rewrite <- GB in B by exact K. change (clean (gdq_search fo root median sqrt2 L i (S k) r c)) in B.
        unfold gdq_search, jump_dq in B. apply clean_lor in B. destruct B as [B1 B2].
        pose proof (words_front fo L i r c k ltac:(lia) ltac:(unfold n in K; lia)) as W1. rewrite FR, Nat.add_0_r in W1.
        rewrite U, (proj2 (before_words fo L i r c k)) in B2 by (rewrite W1; auto). destruct (Nat.ltb_spec k (ndiffs fo L)); [|lia]. cbn [xorb andb flag_if] in B2. rewrite (proj1 F) in B2. exact (bit_dirty kj J8 B2). }
    exists (rate_guess fo root median sqrt2 L i r c). rewrite RR. unfold pix_result. rewrite MK. clear MK. unfold rnoise, cov. rewrite PD, TU, NE.
    unfold fit_ramps. cbn [bind]. eexists. split; [reflexivity|]. f_equal. f_equal. f_equal. replace (S (n - 1)) with n by (unfold n; lia). apply map_ext_in. intros k Ik. apply in_seq in Ik. rewrite EG. apply GB. lia.
  Qed.

  (** With the snowball search: a difference is in the fit if its groups are clean, the second also afterwards; it is not in it if one of
      its groups was flagged before or if the second is a JUMP afterwards, be it the search's or a snowball's. *)
  Theorem C124_snowballs_left_out : forall L kj ks out i r c, flagged fo L kj ks -> (kj < 8)%N -> (ks < 8)%N -> l_zf L = None -> run L = Some out -> i < l_nints L ->
    let group k := l_data L i k r c in let before k := l_gdq L i k r c in let after k := fst (fst out) i k r c in let n := l_ng L in
    exists use guess f dq, fit_ramps fo (n - 1) (mk_covar fo (l_times L)) root (l_gain L r c) (fdiv fo (l_rn L r c) sqrt2) (Some guess)
        (diffs fo (map group (seq 0 n)) (l_times L)) use = Some f /\
      snd (fst out) i r c = Some {| n_rate := narrow (f_rate fo f); n_dq := dq;
        n_vp := narrow (f_vp fo f); n_vr := narrow (f_vr fo f); n_err := narrow (f_uncert fo f); n_chisq := narrow (f_chisq fo f) |} /\
      forall k, S k < n -> (clean (before k) -> clean (after (S k)) -> use k = true) /\
        (use k = true -> clean (before k) /\ clean (before (S k)) /\ N.testbit (after (S k)) kj = false).
  Proof.
    intros L kj ks out i r c F J8 S8 ZN H Hi group before after n. destruct (run_parts L out H) as (G4 & EL & N0). destruct (N0 i Hi) as (g & W & O & RR). clear N0.
    assert (FR : front fo L = 0) by (unfold front, zf_used; rewrite ZN; reflexivity). destruct (rows_front fo L EL ltac:(lia)) as [R1 R2]. rewrite FR in R1, R2.
    assert (TU : times_used fo L = l_times L) by (unfold times_used; rewrite ZN; reflexivity).
    assert (NE : ndiffs fo L = n - 1) by (unfold n; lia).
    assert (PD : pix_diff fo L i r c = diffs fo (map group (seq 0 n)) (l_times L)) by (unfold pix_diff, pix_input; rewrite ZN, TU; reflexivity).
    exists (use_final fo root median sqrt2 L i g r c), (rate_guess fo root median sqrt2 L i r c). rewrite RR. unfold pix_result, rnoise, cov. rewrite PD, TU, NE.
    unfold fit_ramps. cbn [bind]. do 2 eexists. split; [reflexivity|]. split; [reflexivity|].
    intros k Hk. split.
    - intros C1 C2. unfold after in C2. rewrite O in C2. pose proof (kept_by_words L kj ks i g r c k F J8 S8 EL Hk W C1 C2) as K. rewrite FR, Nat.add_0_r in K. exact K.
    - intro U. assert (A : use_after fo root median sqrt2 L i r c k = true).
      { unfold use_final in U. destruct (l_snow L); [|exact U]. unfold after_snowballs in U. apply andb_true_iff in U. apply U. }
      pose proof (after_before L i r c k A) as B. apply before_words in B. destruct B as [B1 B2].
      pose proof (words_front fo L i r c k ltac:(lia) ltac:(unfold n in Hk; lia)) as W1. pose proof (words_front fo L i r c (S k) ltac:(lia) Hk) as W2. rewrite FR, Nat.add_0_r in W1, W2.
      split; [unfold before; rewrite <- W1; exact B1|]. assert (B3 : clean (before (S k))) by (unfold before; rewrite <- W2; exact B2). split; [exact B3|].
      unfold after. rewrite O. unfold gdq_back. rewrite R2, Nat.add_0_r, N.lor_spec. rewrite clean_bits in B3. unfold before in B3. rewrite (B3 kj J8). cbn [orb].
      unfold use_final in U. unfold gdq_work in W. destruct (l_snow L) as [P|].
      + unfold after_snowballs in U. apply andb_true_iff in U. destruct U as [_ U]. apply N.eqb_eq in U. rewrite (proj1 F) in U.
        assert (X : N.testbit (N.land (g (S k) r c) (bit kj)) kj = false) by (rewrite U; apply N.bits_0). rewrite N.land_spec, bit_testbit, N.eqb_refl, andb_true_r in X. exact X.
      + injection W as <-. unfold gdq_search, jump_dq. rewrite A, (proj2 (before_words fo L i r c k)) by auto. cbn [xorb]. rewrite andb_false_r. cbn [flag_if]. rewrite N.lor_0_r.
        rewrite clean_bits in B2. apply B2, J8.
  Qed.

  (** Integrations are fitted one by one: what happens in the others does not matter, with or without the snowball search (so saturated
      cores of snowballs are never carried over to the next integration, whatever was asked for). *)
  Definition only_integration (L : likely_in fo) (i : nat) : likely_in fo :=
    {| l_nints := 1; l_ng := l_ng L; l_nr := l_nr L; l_nc := l_nc L; l_data := fun _ => l_data L i; l_gdq := fun _ => l_gdq L i; l_pdq := l_pdq L;
       l_zf := option_map (fun z _ => z i) (l_zf L); l_nframes := l_nframes L; l_times := l_times L; l_rn := l_rn L; l_gain := l_gain L; l_dark := l_dark L;
       l_h := l_h L; l_flags := l_flags L; l_snow := l_snow L |}.
  Lemma only_work L i : work (only_integration L i) 0 = work L i.
  Proof. destruct L as [? ? ? ? ? ? ? [z|] ? ? ? ? ? ? ? ?]; reflexivity. Qed.
  Lemma only_result L i g r c : result (only_integration L i) 0 g r c = result L i g r c.
  Proof. destruct L as [? ? ? ? ? ? ? [z|] ? ? ? ? ? ? ? ?]; reflexivity. Qed.
  Theorem C124_integrations_alone : forall L out i, run L = Some out -> i < l_nints L ->
    exists one, run (only_integration L i) = Some one /\
      (forall k r c, fst (fst one) 0 k r c = fst (fst out) i k r c) /\ (forall r c, snd (fst one) 0 r c = snd (fst out) i r c).
  Proof.
    intros L out i H Hi. destruct (run_parts L out H) as (G4 & EL & N). destruct (N i Hi) as (g & W & O & RR).
    unfold likely_ramp_fit at 1. change (l_ng (only_integration L i)) with (l_ng L). change (l_times (only_integration L i)) with (l_times L). change (l_nints (only_integration L i)) with 1.
    rewrite EL, Nat.eqb_refl. destruct (Nat.ltb_spec (l_ng L) 4); [lia|]. cbn [orb negb seq DarkModel.mapM]. rewrite only_work, W. cbn [bind]. eexists. split; [reflexivity|]. cbn [fst snd nth]. split.
    - intros k r c. rewrite O. cbn [Nat.ltb Nat.leb]. unfold gdq_back. change (l_ng (only_integration L i)) with (l_ng L). 
      assert (ND : ndiffs fo (only_integration L i) = ndiffs fo L) by (unfold ndiffs, times_used, only_integration; cbn [l_zf l_times l_nframes]; destruct (l_zf L); reflexivity). rewrite ND. reflexivity.
    - intros r c. rewrite RR. apply only_result.
  Qed.

  (** Without the snowball search the same holds for pixels, in arithmetic where [x * 1 + 0] is [x] (exact; in floating point only for a rate
      of exactly -0): other pixels do not matter. *)
  Definition only_pixel (L : likely_in fo) (r c : nat) : likely_in fo :=
    {| l_nints := l_nints L; l_ng := l_ng L; l_nr := 1; l_nc := 1; l_data := fun i g _ _ => l_data L i g r c; l_gdq := fun i g _ _ => l_gdq L i g r c; l_pdq := fun _ _ => l_pdq L r c;
       l_zf := option_map (fun z i _ _ => z i r c) (l_zf L); l_nframes := l_nframes L; l_times := l_times L; l_rn := fun _ _ => l_rn L r c; l_gain := fun _ _ => l_gain L r c; l_dark := fun _ _ => l_dark L r c;
       l_h := l_h L; l_flags := l_flags L; l_snow := l_snow L |}.
  Lemma loop_rate n nc nreads h fit (U : forall x : fo, fadd fo (fmul fo x (fone fo)) (fzero fo) = x) k : forall s c, c < nc ->
    m_rate fo (mask_loop fo n nc nreads h fit k s c) = m_rate fo (pix_loop fo n nreads h fit c k (s c)).
  Proof.
    induction k as [|k IH]; intros s c Hc; [reflexivity|]. rewrite loop_S. cbn [pix_loop].
    destruct (dropping fo n nreads h (fit c) (s c)) eqn:D.
    - assert (AT : anyb (fun c => dropping fo n nreads h (fit c) (s c)) nc = true) by (apply existsb_exists; exists c; split; [apply in_seq; lia|exact D]). rewrite AT. rewrite (IH (fun c => round_pixel fo n nreads h (fit c) (s c)) c Hc). reflexivity.
    - destruct (anyb (fun c => dropping fo n nreads h (fit c) (s c)) nc); [|reflexivity].
      unfold dropping in D. destruct (m_re fo (s c)) eqn:R.
      + cbn [andb] in D. rewrite off_stays.
        * unfold round_pixel. rewrite R. cbn [m_rate]. rewrite D. cbn [negb b2f].
          unfold drop_any in D. apply orb_false_iff in D. destruct D as [D1 D2]. unfold new_rate. rewrite D1, D2. apply U.
        * unfold round_pixel. rewrite R. cbn [m_re]. rewrite D. reflexivity.
      + rewrite off_stays; rewrite round_off by exact R; [reflexivity|exact R].
  Qed.
  Lemma pix_same n nreads h (f1 f2 : nat -> (nat -> bool) -> jfit fo) c1 c2 k : f1 c1 = f2 c2 -> forall s, pix_loop fo n nreads h f1 c1 k s = pix_loop fo n nreads h f2 c2 k s.
  Proof. intro E. induction k as [|k IH]; intro s; [reflexivity|]. cbn [pix_loop]. rewrite E, IH. reflexivity. Qed.
  Lemma row_alone n nc nreads h f1 f2 (u1 u2 : nat -> nat -> bool) c : c < nc -> f1 c = f2 0 -> u1 c = u2 0 -> (forall x : fo, fadd fo (fmul fo x (fone fo)) (fzero fo) = x) ->
    (forall k, Nat.ltb k n && m_use fo (mask_jumps fo n nc nreads h f1 u1 c) k = Nat.ltb k n && m_use fo (mask_jumps fo n 1 nreads h f2 u2 0) k) /\
    m_rate fo (mask_jumps fo n nc nreads h f1 u1 c) = m_rate fo (mask_jumps fo n 1 nreads h f2 u2 0).
  Proof.
    intros Hc EF EU U. unfold mask_jumps. split.
    - intro k. destruct (Nat.ltb_spec k n) as [K|]; [|reflexivity]. cbn [andb]. rewrite !loop_pix by lia. cbn beta. rewrite (pix_same _ _ _ f1 f2 c 0) by exact EF. rewrite EF, EU. reflexivity.
    - rewrite !loop_rate by (exact U || lia). rewrite (pix_same _ _ _ f1 f2 c 0) by exact EF. rewrite EF, EU. reflexivity.
  Qed.
  Lemma pixel_parts L r c : c < l_nc L -> l_snow L = None -> (forall x : fo, fadd fo (fmul fo x (fone fo)) (fzero fo) = x) -> forall i,
    use_after fo root median sqrt2 (only_pixel L r c) i 0 0 = use_after fo root median sqrt2 L i r c /\ rate_guess fo root median sqrt2 (only_pixel L r c) i 0 0 = rate_guess fo root median sqrt2 L i r c.
  Proof.
    intros Hc SN U i.
    assert (ND : ndiffs fo (only_pixel L r c) = ndiffs fo L) by (destruct L as [? ? ? ? ? ? ? [z|] ? ? ? ? ? ? ? ?]; reflexivity).
    assert (CV : cov fo (only_pixel L r c) = cov fo L) by (destruct L as [? ? ? ? ? ? ? [z|] ? ? ? ? ? ? ? ?]; reflexivity).
    assert (SF : search_fit fo root median sqrt2 L i r c = search_fit fo root median sqrt2 (only_pixel L r c) i 0 0) by (destruct L as [? ? ? ? ? ? ? [z|] ? ? ? ? ? ? ? ?]; reflexivity).
    assert (UB : use_before fo L i r c = use_before fo (only_pixel L r c) i 0 0) by (destruct L as [? ? ? ? ? ? ? [z|] ? ? ? ? ? ? ? ?]; reflexivity).
    destruct (row_alone (ndiffs fo L) (l_nc L) (c_n fo (cov fo L)) (l_h L) _ _ _ _ c Hc SF UB U) as [A B].
    unfold use_after, rate_guess, searched. rewrite ND, CV. change (l_h (only_pixel L r c)) with (l_h L). change (l_nc (only_pixel L r c)) with 1. change (l_dark (only_pixel L r c) 0 0) with (l_dark L r c). rewrite B. split; [|reflexivity].
    apply functional_extensionality. intro k. symmetry. apply A.
  Qed.
  Theorem C124_pixels_alone : forall L out r c, (forall x : fo, fadd fo (fmul fo x (fone fo)) (fzero fo) = x) -> l_snow L = None -> run L = Some out -> r < l_nr L -> c < l_nc L ->
    exists one, run (only_pixel L r c) = Some one /\ (forall i k, fst (fst one) i k 0 0 = fst (fst out) i k r c) /\
      (forall i, snd (fst one) i 0 0 = snd (fst out) i r c) /\ snd one 0 0 = snd out r c.
  Proof.
    intros L out r c U SN H _ Hc. pose proof (pixel_parts L r c Hc SN U) as PP.
    assert (SW : forall i k, gdq_search fo root median sqrt2 (only_pixel L r c) i k 0 0 = gdq_search fo root median sqrt2 L i k r c).
    { intros i k. unfold gdq_search. rewrite (proj1 (PP i)). destruct L as [? ? ? ? ? ? ? [z|] ? ? ? ? ? ? ? ?]; reflexivity. }
    assert (ND : ndiffs fo (only_pixel L r c) = ndiffs fo L) by (destruct L as [? ? ? ? ? ? ? [z|] ? ? ? ? ? ? ? ?]; reflexivity).
    assert (PR : forall i g g', (forall k, g' k 0 0 = g k r c) -> result (only_pixel L r c) i g' 0 0 = result L i g r c).
    { intros i g g' E. unfold pix_result, use_final. rewrite (proj1 (PP i)), (proj2 (PP i)), ND. change (l_snow (only_pixel L r c)) with (l_snow L). rewrite SN. rewrite (map_ext _ (fun k => g k r c) E).
      destruct L as [? ? ? ? ? ? ? [z|] ? ? ? ? ? ? ? ?]; reflexivity. }
    unfold likely_ramp_fit in H |- *. change (l_ng (only_pixel L r c)) with (l_ng L). change (l_times (only_pixel L r c)) with (l_times L). change (l_nints (only_pixel L r c)) with (l_nints L).
    destruct (Nat.ltb (l_ng L) 4 || negb (Nat.eqb (length (l_times L)) (l_ng L))); [discriminate|].
    assert (WM : forall M l, l_snow M = None -> DarkModel.mapM (work M) l = Some (map (fun i => gdq_search fo root median sqrt2 M i) l)).
    { intros M l E. induction l as [|x l IH]; [reflexivity|]. cbn [DarkModel.mapM map]. unfold gdq_work at 1. rewrite E. cbn [bind]. rewrite IH. reflexivity. }
    assert (NN : forall M i, nth i (map (fun i => gdq_search fo root median sqrt2 M i) (seq 0 (l_nints L))) (gdq_search fo root median sqrt2 M i) = gdq_search fo root median sqrt2 M i).
    { intros M i. destruct (Nat.lt_ge_cases i (l_nints L)) as [Hi|Hi].
      - rewrite (nth_indep _ _ (gdq_search fo root median sqrt2 M 0)) by (rewrite map_length, seq_length; exact Hi). rewrite (map_nth (fun i => gdq_search fo root median sqrt2 M i)), seq_nth by exact Hi. reflexivity.
      - apply nth_overflow. rewrite map_length, seq_length. exact Hi. }
    rewrite WM in H by exact SN. rewrite WM by exact SN. cbn [bind] in H |- *. injection H as <-. eexists. split; [reflexivity|]. cbn [fst snd].
    split; [|split].
    - intros i k. destruct (Nat.ltb i (l_nints L)); [|reflexivity]. rewrite !NN. unfold gdq_back. rewrite ND, SW. reflexivity.
    - intro i. rewrite !NN. apply PR, SW.
    - assert (E : forall l, DarkModel.mapM (fun i => result (only_pixel L r c) i (nth i (map (fun i0 => gdq_search fo root median sqrt2 (only_pixel L r c) i0) (seq 0 (l_nints L))) (gdq_search fo root median sqrt2 (only_pixel L r c) i)) 0 0) l
          = DarkModel.mapM (fun i => result L i (nth i (map (fun i0 => gdq_search fo root median sqrt2 L i0) (seq 0 (l_nints L))) (gdq_search fo root median sqrt2 L i)) r c) l).
      { induction l as [|x l IH]; [reflexivity|]. cbn [DarkModel.mapM]. rewrite IH, !NN, (PR x _ _ (SW x)). reflexivity. }
      rewrite E. reflexivity.
  Qed.

  (** ** When there is a result *)
  Theorem C124_defined : forall L, length (l_times L) = l_ng L -> (run L <> None <-> 4 <= l_ng L).
  Proof.
    intros L EL. unfold likely_ramp_fit. rewrite EL, Nat.eqb_refl. destruct (Nat.ltb_spec (l_ng L) 4) as [|G]; cbn [orb negb]; [split; [congruence|lia]|].
    split; [intros _; exact G|]. intros _.
    assert (D : forall i, work L i <> None).
    { intro i. unfold gdq_work. destruct (l_snow L) as [P|]; [|discriminate].
      pose proof (JdProps.events_defined fo P rnd disk sr jr inside 1 (S (ndiffs fo L)) (l_nr L) (l_nc L) (fun _ => gdq_search fo root median sqrt2 L i)) as E.
      destruct (flag_large_events _ _ _ _ _ _ _ _ _ _ _ _) as [e|]; [discriminate|]. exfalso. apply E; [|reflexivity]. pose proof (rows_front fo L EL ltac:(lia)). lia. }
    assert (M : forall l, DarkModel.mapM (work L) l <> None).
    { induction l as [|x l IH]; [discriminate|]. cbn [DarkModel.mapM]. specialize (D x). destruct (work L x); [|congruence]. cbn [bind]. destruct (DarkModel.mapM (work L) l); [discriminate|congruence]. }
    specialize (M (seq 0 (l_nints L))). destruct (DarkModel.mapM _ _); [discriminate|congruence].
  Qed.
End Whole.
Print Assumptions C124_only_adds. Print Assumptions C124_fitted. Print Assumptions C124_integrations_alone. Print Assumptions C124_defined. Print Assumptions C124_pixels_alone.

Print Assumptions C124_only_adds. Print Assumptions C124_fitted. Print Assumptions C124_snowballs_left_out.
Print Assumptions C124_integrations_alone. Print Assumptions C124_pixels_alone. Print Assumptions C124_defined.

(** ** An infinite threshold: no jump is found *)
Definition infinite {prec emax} : ieee prec emax := SpecFloat.S754_infinity false.
Lemma inf_lt prec emax (x : ieee prec emax) : flt (ieee prec emax) infinite x = false.
Proof. destruct x as [[]|[]| |[] m e]; reflexivity. Qed.
Section Infinite.
  Variables prec emax : Z.
  Notation fo := (ieee prec emax).
  Variables (m : positive) (e : Z).
  Hypothesis O : fone fo = SpecFloat.S754_finite false m e.
  Lemma no_drop n nreads (r : jfit fo) : drop_any n (drops fo n nreads {| h_one := infinite; h_two := infinite |} r) = false.
  Proof.
    assert (ZM : forall x (b : bool), LkzProps.szn (fmul fo (fmul fo x (fzero fo)) (b2f fo b))).
    { intros x b. unfold b2f. destruct b; [rewrite O|]; destruct x as [[]|[]| |[] mx ex]; exact I. }
    assert (ZP : forall x y, LkzProps.szn x -> LkzProps.szn y -> LkzProps.szn (fadd fo x y)).
    { intros [[]|[]| |[] mx ex] [[]|[]| |[] my ey]; cbn; tauto. }
    assert (ZN : forall x, LkzProps.szn x -> (if feq fo x (fzero fo) then fnan fo else x) = SpecFloat.S754_nan).
    { intros [[]|[]| |[] mx ex]; cbn; tauto. }
    assert (EN : forall x, feq fo x (SpecFloat.S754_nan : fo) = false) by (intros [[]|[]| |[] mx ex]; reflexivity).
    assert (NONE : forall k l (p : nat -> bool), (forall i, p i = false) -> existsb p (seq k l) = false).
    { intros k l p H. revert k. induction l as [|l IH]; intro k; [reflexivity|]. cbn [seq existsb]. rewrite H, IH. reflexivity. }
    unfold drop_any, drops, anyb. cbv zeta. cbn [h_one h_two fst snd]. rewrite !inf_lt. cbn [b2f].
    apply orb_false_iff. split; apply NONE; intro i; apply andb_false_iff; left; rewrite ZN; try apply EN; apply ZP; apply ZM.
  Qed.
  Lemma search_off n nc nreads fit use c : mask_jumps fo n nc nreads {| h_one := infinite; h_two := infinite |} fit use c = {| m_use := use c; m_rate := j_rate fo (fit c (use c)); m_re := true |}.
  Proof.
    unfold mask_jumps. destruct n as [|n]; [reflexivity|]. rewrite loop_S.
    match goal with |- (if ?b then _ else _) _ = _ => assert (D : b = false) end.
    { unfold anyb. apply not_true_is_false. intro E. apply existsb_exists in E. destruct E as (c' & _ & E). unfold dropping in E. rewrite no_drop, andb_false_r in E. discriminate. }
    rewrite D. reflexivity.
  Qed.
End Infinite.
Lemma search_off64 n nc nreads fit use c : mask_jumps B64 n nc nreads {| h_one := infinite; h_two := infinite |} fit use c = {| m_use := use c; m_rate := j_rate B64 (fit c (use c)); m_re := true |}.
Proof. eapply search_off. vm_compute. reflexivity. Qed.
(** With an infinite rejection threshold and no snowball search the group DQ is left as it is. *)
Theorem C124_threshold_off : forall root median nanmed sqrt2 narrow rnd disk sr jr inside (L : likely_in B64) out i k r c,
  l_h L = {| h_one := infinite; h_two := infinite |} -> l_snow L = None ->
  likely_ramp_fit B64 root median nanmed sqrt2 narrow rnd disk sr jr inside L = Some out -> i < l_nints L -> k < l_ng L ->
  fst (fst out) i k r c = l_gdq L i k r c.
Proof.
  intros root median nanmed sqrt2 narrow rnd disk sr jr inside L out i k r c HL SN H Hi Hk.
  destruct (run_parts _ _ _ _ _ _ _ _ _ _ _ L out H) as (G4 & EL & N0). destruct (N0 i Hi) as (g & W & E & _). rewrite E. unfold gdq_work in W. rewrite SN in W. injection W as <-.
  destruct (rows_front B64 L EL ltac:(lia)) as [R1 R2]. unfold gdq_back. rewrite R2. rewrite <- (words_front B64 L i r c k) at 1 by lia.
  assert (S0 : gdq_search B64 root median sqrt2 L i (k + front B64 L) r c = pix_words B64 L i r c (k + front B64 L)).
  { unfold gdq_search, jump_dq. generalize (k + front B64 L). intros [|j]; [reflexivity|]. unfold use_after, searched. rewrite HL, search_off64. cbn [m_use].
    destruct (Nat.ltb j (ndiffs B64 L)); cbn [andb]; [rewrite Bool.xorb_nilpotent|]; cbn [flag_if]; apply N.lor_0_r. }
  rewrite S0, N.lor_diag. apply words_front; lia.
Qed.
Print Assumptions C124_threshold_off.

(** ** Saturated cores of snowballs *)
(** The snowball search marks its cores SATURATED from the group of the event on, also pixels that did not saturate.  Their differences
    stay in the fit: its rate depends on groups that are SATURATED in the group DQ it returns.  Image of 1 x 2 pixels, four groups; the
    first pixel saturates in the third group and its core, drawn by the oracle, covers the second pixel, whose ramp is clean. *)
Definition q (z : Z) : B64 := fofZ B64 z.
Definition exP : snow B64 :=
  {| s_jump := 4; s_sat := 2; s_dnu := 1; s_ref := 128; s_required := true; s_minrad := q 0; s_satexpand := q 2; s_maxwidth := q 10; s_expand := q 2; s_edge := 0;
     s_mask_next := true; s_persist := 5; s_shower_expand := q 1; s_shower_grps := 0; s_maxamp := q 10 |}%N.
Definition excore : ellipse B64 := {| e_col := q 0; e_row := q 0; e_h := q 1; e_w := q 1; e_angle := q 0 |}.
Definition exrnd (x : B64) : Z := match x with SpecFloat.S754_finite false m e => match e with Z0 => Zpos m | Zpos p => Z.shiftl (Zpos m) (Zpos p) | Zneg p => Z.shiftr (Zpos m) (Zpos p) end | _ => 0%Z end.
Definition exL (last : Z) (sn : option (snow B64)) : likely_in B64 :=
  {| l_nints := 1; l_ng := 4; l_nr := 1; l_nc := 2; l_data := fun _ g _ c => q (if Nat.eqb g 3 && Nat.eqb c 1 then last else 10 * Z.of_nat g);
     l_gdq := fun _ g _ c => if Nat.leb 2 g && Nat.eqb c 0 then 2%N else 0%N; l_pdq := fun _ _ => 0%N; l_zf := None; l_nframes := 1;
     l_times := map (fun k => [q k]) [1; 2; 3; 4]%Z; l_rn := fun _ _ => q 3; l_gain := fun _ _ => q 1; l_dark := fun _ _ => q 0;
     l_h := {| h_one := infinite; h_two := infinite |}; l_flags := {| o_dnu := 1; o_jump := 4; o_sat := 2; o_pers := 8; o_ngval := 16; o_chg := 32 |}%N; l_snow := sn |}.
Definition exrun (last : Z) (sn : option (snow B64)) :=
  likely_ramp_fit B64 (fun _ _ => q 1) (fun l => nth 1 l (q 0)) (fun l => nth 0 l (q 0)) (q 1) (fun x => x) exrnd (fun _ _ _ _ _ => true)
    (fun m => if m 0 0 then [excore] else []) (fun _ => []) (fun _ _ => false) (exL last sn).
Notation exroot := (fun (_ : B64) (_ : nat) => q 1).
Notation exmed := (fun l : list B64 => nth 1 l (q 0)).
Notation exsr := (fun m : img bool => if m 0 0 then [excore] else []).
Lemma exsearched v sn i r : searched B64 exroot exmed (q 1) (exL v sn) i r
  = fun c => {| m_use := use_before B64 (exL v sn) i r c; m_rate := j_rate B64 (search_fit B64 exroot exmed (q 1) (exL v sn) i r c (use_before B64 (exL v sn) i r c)); m_re := true |}.
Proof. apply functional_extensionality. intro c. unfold searched. apply search_off64. Qed.
Lemma exwords v sn : gdq_search B64 exroot exmed (q 1) (exL v sn) 0 = fun g _ c => if Nat.ltb g 4 && Nat.leb 2 g && Nat.eqb c 0 then 2%N else 0%N.
Proof.
  apply functional_extensionality. intro g. apply functional_extensionality. intro r. apply functional_extensionality. intro c.
  unfold gdq_search, jump_dq, use_after. rewrite exsearched. cbn [m_use]. change (ndiffs B64 (exL v sn)) with 3.
  do 4 (destruct g as [|g]; [rewrite ?Bool.xorb_nilpotent, ?N.lor_0_r; destruct c as [|c]; reflexivity|]). destruct g; reflexivity.
Qed.
(** the snowball search marks the second pixel SATURATED from the third group on *)
Lemma exwork v : exists g, gdq_work B64 exroot exmed (q 1) exrnd (fun _ _ _ _ _ => true) exsr (fun _ => []) (fun _ _ => false) (exL v (Some exP)) 0 = Some g /\
  (forall k, k < 4 -> g k 0 1 = if Nat.leb 2 k then 2%N else 0%N).
Proof.
  unfold gdq_work. change (l_snow (exL v (Some exP))) with (Some exP). cbv iota beta. rewrite exwords. 
  change (S (ndiffs B64 (exL v (Some exP)))) with 4. change (l_nr (exL v (Some exP))) with 1. change (l_nc (exL v (Some exP))) with 2.
  match goal with |- context [flag_large_events ?a ?b ?c ?d ?e ?f ?g ?h ?i ?j ?k ?l] => destruct (flag_large_events a b c d e f g h i j k l) as [e0|] eqn:E end.
  - cbn [bind]. eexists. split; [reflexivity|]. intros k Hk.
    assert (X : option_map (fun e => fst e 0 k 0 1) (flag_large_events B64 exP exrnd (fun _ _ _ _ _ => true) exsr (fun _ => []) (fun _ _ => false) 1 4 1 2 (fun _ g _ c => if Nat.ltb g 4 && Nat.leb 2 g && Nat.eqb c 0 then 2%N else 0%N)) = Some (if Nat.leb 2 k then 2%N else 0%N)).
    { do 4 (destruct k as [|k]; [vm_compute; reflexivity|]). lia. }
    rewrite E in X. injection X as X. exact X.
  - exfalso. assert (X : option_map (fun _ => tt) (flag_large_events B64 exP exrnd (fun _ _ _ _ _ => true) exsr (fun _ => []) (fun _ _ => false) 1 4 1 2 (fun _ g _ c => if Nat.ltb g 4 && Nat.leb 2 g && Nat.eqb c 0 then 2%N else 0%N)) = Some tt) by (vm_compute; reflexivity).
    rewrite E in X. discriminate.
Qed.
Lemma exfinal v g : (forall k, k < 4 -> g k 0 1 = if Nat.leb 2 k then 2%N else 0%N) -> use_final B64 exroot exmed (q 1) (exL v (Some exP)) 0 g 0 1 = fun k => Nat.ltb k 3.
Proof.
  intro G. apply functional_extensionality. intro k. unfold use_final. change (l_snow (exL v (Some exP))) with (Some exP). cbv iota beta. unfold after_snowballs, use_after. rewrite exsearched. cbn [m_use].
  change (ndiffs B64 (exL v (Some exP))) with 3. do 3 (destruct k as [|k]; [rewrite G by lia; reflexivity|]). destruct k; reflexivity.
Qed.
Definition exguess (v : Z) : B64 :=
  fadd B64 (LdModel.positive B64 (j_rate B64 (search_fit B64 exroot exmed (q 1) (exL v (Some exP)) 0 0 1 (use_before B64 (exL v (Some exP)) 0 0 1)))) (q 0).
Definition exfit (v : Z) : option B64 :=
  do f <- fit_ramps B64 3 (cov B64 (exL v (Some exP))) exroot (q 1) (fdiv B64 (q 3) (q 1)) (Some (exguess v)) (pix_diff B64 (exL v (Some exP)) 0 0 1) (fun k => Nat.ltb k 3); Some (f_rate B64 f).
Lemma exrate v : exists out x, exrun v (Some exP) = Some out /\ (forall k, k < 4 -> fst (fst out) 0 k 0 1 = if Nat.leb 2 k then 2%N else 0%N) /\
  snd (fst out) 0 0 1 = Some x /\ exfit v = Some (n_rate B64 x).
Proof.
  unfold exrun. pose proof (proj2 (C124_defined B64 exroot exmed (fun l => nth 0 l (q 0)) (q 1) (fun x => x) exrnd (fun _ _ _ _ _ => true) exsr (fun _ => []) (fun _ _ => false) (exL v (Some exP)) eq_refl) (le_n 4)) as D.
  destruct (likely_ramp_fit B64 exroot exmed (fun l => nth 0 l (q 0)) (q 1) (fun x => x) exrnd (fun _ _ _ _ _ => true) exsr (fun _ => []) (fun _ _ => false) (exL v (Some exP))) as [out|] eqn:R; [|congruence]. clear D.
  destruct (run_parts _ _ _ _ _ _ _ _ _ _ _ _ _ R) as (_ & _ & N0). destruct (N0 0 (le_n 1)) as (g & W & O & RR). destruct (exwork v) as (g' & W' & G). rewrite W in W'. injection W' as <-.
  exists out. eexists. split; [reflexivity|]. split.
  - intros k Hk. rewrite O. unfold gdq_back. change (S (ndiffs B64 (exL v (Some exP))) - l_ng (exL v (Some exP))) with 0. rewrite Nat.add_0_r, G by exact Hk. do 4 (destruct k as [|k]; [reflexivity|]). lia.
  - rewrite RR. unfold pix_result. rewrite (exfinal v g G). unfold fit_ramps. cbn [bind]. split; [reflexivity|]. unfold exfit, fit_ramps. cbn [bind n_rate]. change (ndiffs B64 (exL v (Some exP))) with 3.
    unfold rate_guess, exguess. rewrite exsearched. cbn [m_rate]. reflexivity.
Qed.
(** Not so: groups that are SATURATED in the group DQ returned are never in the fit. *)
Theorem C124_saturated_fitted_refuted : exists out out' x x', exrun 30 (Some exP) = Some out /\ exrun 50 (Some exP) = Some out' /\
  (forall k, k <> 3 -> l_data (exL 30 (Some exP)) 0 k 0 1 = l_data (exL 50 (Some exP)) 0 k 0 1) /\
  fst (fst out) 0 3 0 1 = 2%N /\ fst (fst out') 0 3 0 1 = 2%N /\
  snd (fst out) 0 0 1 = Some x /\ snd (fst out') 0 0 1 = Some x' /\ n_rate B64 x <> n_rate B64 x'.
Proof.
  destruct (exrate 30) as (o & x & R & O & X & E), (exrate 50) as (o' & x' & R' & O' & X' & E'). exists o, o', x, x'.
  split; [exact R|]. split; [exact R'|]. split; [intros [|[|[|[|k]]]] K; try reflexivity; lia|]. split; [exact (O 3 (le_n 4))|]. split; [exact (O' 3 (le_n 4))|]. split; [exact X|]. split; [exact X'|].
  intro Q. rewrite <- Q, <- E in E'.
  assert (Y : option_map (fun a => match a with SpecFloat.S754_finite _ m _ => m | _ => 1%positive end) (exfit 30) <> option_map (fun a => match a with SpecFloat.S754_finite _ m _ => m | _ => 1%positive end) (exfit 50)) by (vm_compute; discriminate).
  apply Y. rewrite E'. reflexivity.
Qed.
Print Assumptions C124_saturated_fitted_refuted.

(** ** Examples *)
(** the hypotheses of C124_defined, C124_only_adds, C124_fitted, C124_integrations_alone and C124_threshold_off: without the snowball search *)
Example C124_plain : exists out, exrun 50 None = Some out /\ flagged B64 (exL 50 None) 2 1 /\ l_snow (exL 50 None) = None /\ l_zf (exL 50 None) = None /\ 0 < l_nints (exL 50 None) /\
  (forall k, k < 4 -> fst (fst out) 0 k 0 0 = if Nat.leb 2 k then 2%N else 0%N) /\ (forall k, k < 4 -> fst (fst out) 0 k 0 1 = 0%N).
Proof.
  pose proof (proj2 (C124_defined B64 exroot exmed (fun l => nth 0 l (q 0)) (q 1) (fun x => x) exrnd (fun _ _ _ _ _ => true) exsr (fun _ => []) (fun _ _ => false) (exL 50 None) eq_refl) (le_n 4)) as D.
  unfold exrun. destruct (likely_ramp_fit B64 exroot exmed (fun l => nth 0 l (q 0)) (q 1) (fun x => x) exrnd (fun _ _ _ _ _ => true) exsr (fun _ => []) (fun _ _ => false) (exL 50 None)) as [out|] eqn:R; [|congruence].
  exists out. split; [reflexivity|]. split; [repeat split; reflexivity|]. do 2 (split; [reflexivity|]). split; [apply le_n|].
  split; intros k Hk; rewrite (C124_threshold_off _ _ _ _ _ _ _ _ _ _ (exL 50 None) out 0 k 0 _ eq_refl eq_refl R (le_n 1) Hk); do 4 (destruct k as [|k]; [reflexivity|]); lia.
Qed.
(** with it: the search's flags are added to the second pixel, whose first difference is fitted *)
Example C124_snow : exists out, exrun 50 (Some exP) = Some out /\ flagged B64 (exL 50 (Some exP)) 2 1 /\ l_gdq (exL 50 (Some exP)) 0 2 0 1 = 0%N /\ fst (fst out) 0 2 0 1 = 2%N /\
  clean (l_gdq (exL 50 (Some exP)) 0 0 0 1) /\ clean (fst (fst out) 0 1 0 1).
Proof.
  destruct (exrate 50) as (out & x & R & O & _). exists out. split; [exact R|]. split; [repeat split; reflexivity|]. split; [reflexivity|].
  rewrite (O 2), (O 1) by lia. repeat split; reflexivity.
Qed.
