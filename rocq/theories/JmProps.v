(** C111: raising the rejection thresholds never adds a jump. *)
From Verif Require Import Base BaseLemmas FLaws JumpModel JumpSpec JumpProofs JumpIter JumpStage JumpProps.
From Coq Require Import ZifyBool ZifyNat ZifyN.

(** the same settings with other rejection thresholds (jump/twopoint_difference_class.py lines 1-77: normal_rej_thresh,
    three_diff_rej_thresh, two_diff_rej_thresh) *)
Definition with_thresholds {fo} (P : params fo) (t t3 t2 : fo) : params fo :=
  {| p_dnu := p_dnu P; p_sat := p_sat P; p_jump := p_jump P; p_thresh := t; p_thresh3 := t3; p_thresh2 := t2;
     p_neigh := p_neigh P; p_maxneigh := p_maxneigh P; p_minneigh := p_minneigh P; p_n1 := p_n1 P; p_n2 := p_n2 P; p_e1 := p_e1 P;
     p_e2 := p_e2 P; p_mingroups := p_mingroups P; p_minsigclip := p_minsigclip P; p_onlyints := p_onlyints P;
     p_singlepass := p_singlepass P; p_dt := p_dt P; p_nreads := p_nreads P; p_uniform := p_uniform P |}.
(** no threshold is lowered *)
Definition raised {fo} (P : params fo) (t t3 t2 : fo) : Prop :=
  fle fo (p_thresh P) t = true /\ fle fo (p_thresh3 P) t3 = true /\ fle fo (p_thresh2 P) t2 = true.

Section Mono.
  Variable fo : FOps.
  Variable L : FLaws fo.
  Hypothesis HN : fisnan fo (fnan fo) = true.
  Variable med : list fo -> fo.
  Variable P : params fo.
  Variables t t3 t2 : fo.
  Hypothesis R : raised P t t3 t2.
  Let P' := with_thresholds P t t3 t2.

  Lemma over a b x : fle fo a b = true -> flt fo b x = true -> flt fo a x = true.
  Proof.
    intros H1 H2. destruct (flt fo a x) eqn:E; [reflexivity|]. rewrite (fle_spec fo L), !andb_true_iff, !negb_true_iff in H1.
    destruct H1 as ((H & _) & H1). rewrite (nflt_trans fo L b a x H H1 E) in H2. discriminate.
  Qed.
  Lemma raised_ok : thresholds_ok fo P -> thresholds_ok fo P'.
  Proof.
    intros (A & B & C). destruct R as (RA & RB & RC). unfold P', thresholds_ok. cbn.
    repeat match goal with |- _ /\ _ => split end; match goal with |- flt fo ?x _ = false => destruct (flt fo x (fzero fo)) eqn:E; [|reflexivity] end;
    exfalso; [rewrite (over _ _ _ RA E) in A|rewrite (over _ _ _ RB E) in B|rewrite (over _ _ _ RC E) in C]; discriminate.
  Qed.
  Section Pix.
    Variables nints nd : nat.
    Variable rn2 : fo.
    Notation cl := (clipped fo med P nints nd rn2). Notation cl' := (clipped fo med P' nints nd rn2).
    Notation af := (after fo med P nints nd rn2). Notation af' := (after fo med P' nints nd rn2).
    Notation ex := (excess fo med P nints nd rn2).
    Lemma clip_parts Q d i j : clipped fo med Q nints nd rn2 d i j = true <->
      i < nints /\ j < nd /\ fisnan fo (excess fo med Q nints nd rn2 d i j) = false /\
      (forall a b, a < nints -> b < nd -> flt fo (excess fo med Q nints nd rn2 d i j) (excess fo med Q nints nd rn2 d a b) = false) /\
      exists m, limit fo Q (length (in_use fo nints nd d)) = Some m /\ flt fo m (excess fo med Q nints nd rn2 d i j) = true.
    Proof.
      unfold clipped. rewrite !andb_true_iff, !Nat.ltb_lt, negb_true_iff, forallb_forall.
      assert (G : (forall x, In x (grid nints nd) -> negb (flt fo (excess fo med Q nints nd rn2 d i j) (excess fo med Q nints nd rn2 d (fst x) (snd x))) = true) <->
        (forall a b, a < nints -> b < nd -> flt fo (excess fo med Q nints nd rn2 d i j) (excess fo med Q nints nd rn2 d a b) = false)).
      { split.
        - intros H a b Ha Hb. apply negb_true_iff. apply (H (a, b)). apply in_grid. auto.
        - intros H (a, b) Hx. apply in_grid in Hx. apply negb_true_iff. cbn [fst snd]. apply H; apply Hx. }
      rewrite G. destruct (limit fo Q _) as [m|]; split; intros H; repeat match goal with H : _ /\ _ |- _ => destruct H end; repeat split; auto.
      - exists m. auto.
      - match goal with H : exists _, _ |- _ => destruct H as (m' & E & Hm) end. injection E as <-. exact Hm.
      - discriminate.
      - match goal with H : exists _, _ |- _ => destruct H as (m' & E & Hm) end. discriminate.
    Qed.
    Lemma clip_mono d i j : cl' d i j = true -> cl d i j = true.
    Proof.
      rewrite !clip_parts. intros (H1 & H2 & H3 & H4 & m & H5 & H6). do 4 (split; [assumption|]).
      destruct R as (RA & RB & RC). unfold limit in *. cbn [P' with_thresholds p_thresh p_thresh2 p_thresh3] in H5.
      destruct (length (in_use fo nints nd d)) as [|[|[|[|n]]]]; try discriminate; injection H5 as <-; eexists; (split; [reflexivity|]);
        (eapply over; [|exact H6]); assumption.
    Qed.
    Lemma clip_same d a b i j : cl' d a b = true -> cl d i j = cl' d i j.
    Proof.
      intro H. apply eq_true_iff_eq. split; [|apply clip_mono]. intro G. apply clip_parts in H, G. apply clip_parts.
      destruct H as (H1 & H2 & H3 & H4 & m & H5 & H6). destruct G as (G1 & G2 & G3 & G4 & _). do 4 (split; [assumption|]).
      exists m. split; [exact H5|]. change (excess fo med P' nints nd rn2) with ex in *.
      destruct (flt fo m (ex d i j)) eqn:E; [reflexivity|]. rewrite (nflt_trans fo L _ _ _ G3 E (G4 a b H1 H2)) in H6. discriminate.
    Qed.
    Lemma dec_clip d : (exists a b, cl' d a b = true) \/ (forall a b, cl' d a b = false).
    Proof.
      destruct (any2 nints nd (cl' d)) eqn:E; [left; apply any2_spec in E; destruct E as (a & b & _ & _ & E); exists a, b; exact E|].
      right. intros a b. destruct (cl' d a b) eqn:F; [|reflexivity]. assert (any2 nints nd (cl' d) = true); [|congruence].
      apply any2_spec. pose proof (clipped_range fo med P' nints nd rn2 d a b F). exists a, b. tauto.
    Qed.
    Lemma after_same k d : (exists a b, cl' (af' k d) a b = true) -> eqd fo nints nd (af' k d) (af k d).
    Proof.
      induction k as [|k IH]; intros (a & b & H); [intros i j _ _; reflexivity|].
      destruct (dec_clip (af' k d)) as [(a' & b' & G)|G].
      - specialize (IH (ex_intro _ a' (ex_intro _ b' G))). intros i j Hi Hj. cbn [after].
        rewrite <- (clip_same _ _ _ i j G), (clipped_ext fo med P nints nd rn2 _ _ i j IH), (IH i j Hi Hj). reflexivity.
      - rewrite (proj2 (no_clip_stays fo med P' nints nd rn2 k d G (S k) (le_S _ _ (le_n _))) a b) in H. discriminate.
    Qed.
    Lemma found_mono k d i j : cl' (af' k d) i j = true -> cl (af k d) i j = true.
    Proof.
      intro H. rewrite <- (clipped_ext fo med P nints nd rn2 _ _ i j (after_same k d (ex_intro _ i (ex_intro _ j H)))).
      apply clip_mono. exact H.
    Qed.
  End Pix.
  Variables kj kd ks : N.
  Hypothesis HP : flag_bits P kj kd ks.
  Hypothesis T : thresholds_ok fo P.
  (** at the pixels of the frame the second array has the first one's JUMP_DET flags and perhaps more, and the same other bits *)
  Definition more (nints nr nc : nat) (g1 g2 : arr4 N) : Prop := forall i g r c, i < nints -> r < nr -> c < nc ->
    (N.testbit (g1 i g r c) kj = true -> N.testbit (g2 i g r c) kj = true) /\ (forall k, k <> kj -> N.testbit (g1 i g r c) k = N.testbit (g2 i g r c) k).
  Lemma flags' : flag_bits P' kj kd ks. Proof. exact HP. Qed.
  Lemma iterative_mono nints nd nr nc gdq fd rn2 :
    more nints nr nc (iterative_jump fo med P' nints nd nr nc gdq fd rn2) (iterative_jump fo med P nints nd nr nc gdq fd rn2).
  Proof.
    intros i g r c Hi Hr Hc.
    destruct (C23_iterative_search fo L HN med P' kj kd ks nints nd nr nc gdq fd rn2 i g r c flags' (raised_ok T) Hi Hr Hc) as [A1 A2].
    destruct (C23_iterative_search fo L HN med P kj kd ks nints nd nr nc gdq fd rn2 i g r c HP T Hi Hr Hc) as [B1 B2].
    split; [|intros k Hk; rewrite A2, B2 by assumption; reflexivity].
    rewrite A1, B1. intros [H|(H & k & Hk)]; [left; exact H|]. right. split; [exact H|]. exists k. apply found_mono. exact Hk.
  Qed.
  Lemma single_mono nints nd nr nc gdq fd md sig : more nints nr nc (single_pass fo P' nd gdq fd md sig) (single_pass fo P nd gdq fd md sig).
  Proof.
    intros i g r c _ _ _. destruct HP as (Hj & _). unfold single_pass. change (p_jump P') with (p_jump P). rewrite Hj. split.
    - rewrite !lor_flag_testbit, N.eqb_refl, !andb_true_r, !orb_true_iff, !andb_true_iff. intros [H|((H1 & H2) & H3)]; [left; exact H|].
      right. repeat split; try tauto. destruct R as (RA & _). unfold fgt in *. eapply over; [exact RA|exact H2].
    - intros k Hk. rewrite !lor_flag_testbit. destruct (N.eqb_spec kj k); [congruence|]. rewrite !andb_false_r. reflexivity.
  Qed.
  Lemma neighbours_mono nints nd nr nc fd md sig g1 g2 : more nints nr nc g1 g2 ->
    more nints nr nc (fst (fst (four_neighbors fo P' nd nr nc g1 fd md sig))) (fst (fst (four_neighbors fo P nd nr nc g2 fd md sig))).
  Proof.
    intros M i g r c Hi Hr Hc.
    destruct (C19_four_neighbours fo P' kj kd ks nd nr nc g1 fd md sig i g r c flags' Hr Hc) as [A1 A2].
    destruct (C19_four_neighbours fo P kj kd ks nd nr nc g2 fd md sig i g r c HP Hr Hc) as [B1 B2].
    assert (D : kd <> kj /\ ks <> kj) by (destruct HP as (_ & _ & _ & ? & ? & _); split; congruence).
    split; [|intros k Hk; rewrite A2, B2 by assumption; apply (M i g r c Hi Hr Hc); exact Hk].
    rewrite A1, B1. destruct (M i g r c Hi Hr Hc) as [M1 M2]. intros [H|(H1 & H2 & H3 & r' & c' & H4 & H5 & H6 & H7)]; [left; auto|].
    right. rewrite <- !M2 by tauto. do 3 (split; [assumption|]). exists r', c'. split; [exact H4|]. split; [|split; [exact H6|exact H7]].
    destruct H4 as (Hr' & Hc' & _). apply (M i g r' c' Hi Hr' Hc'). exact H5.
  Qed.
  Lemma transient_mono crowded nints ng nr nc fd md g1 g2 : more nints nr nc g1 g2 ->
    forall i g r c, g < ng -> i < nints -> r < nr -> c < nc ->
    (N.testbit (transient_jumps fo crowded P' ng nr nc g1 fd md i g r c) kj = true -> N.testbit (transient_jumps fo crowded P ng nr nc g2 fd md i g r c) kj = true) /\
    (forall k, k <> kj -> N.testbit (transient_jumps fo crowded P' ng nr nc g1 fd md i g r c) k = N.testbit (transient_jumps fo crowded P ng nr nc g2 fd md i g r c) k).
  Proof.
    intros M i g r c Hg Hi Hr Hc.
    destruct (C18_after_jump fo crowded P' kj kd ks ng nr nc g1 fd md i g r c flags' Hg Hr Hc) as [A1 A2].
    destruct (C18_after_jump fo crowded P kj kd ks ng nr nc g2 fd md i g r c HP Hg Hr Hc) as [B1 B2].
    assert (D : kd <> kj /\ ks <> kj) by (destruct HP as (_ & _ & _ & ? & ? & _); split; congruence).
    split; [|intros k Hk; rewrite A2, B2 by assumption; apply (M i g r c Hi Hr Hc); exact Hk].
    rewrite A1, B1. destruct (M i g r c Hi Hr Hc) as [M1 M2]. intros [H|(H1 & H2 & g' & H3 & H4)]; [left; auto|].
    right. rewrite <- !M2 by tauto. split; [exact H1|]. split; [exact H2|]. exists g'. split; [exact H3|].
    destruct (M i g' r c Hi Hr Hc) as [N1 _].
    destruct H4 as [((X1 & X2 & X3) & X4)|((X1 & X2 & X3) & X4)]; [left|right]; (split; [|exact X4]); split; auto.
  Qed.
End Mono.

(** The whole detection stage on one process, when sigma clipping is not used: with higher thresholds JUMP_DET is
    set on a subset of the groups, and nothing else differs. *)
Theorem C111_fewer_jumps : forall fo, FLaws fo -> fisnan fo (fnan fo) = true ->
  forall med sigclip crowded (P : params fo) kj kd ks t t3 t2 nints ng nr nc dat gdq rn i g r c,
  flag_bits P kj kd ks -> thresholds_ok fo P -> raised P t t3 t2 ->
  (Z.of_nat nints < p_minsigclip P)%Z -> (Z.of_nat (nints * ng) < p_minsigclip P)%Z ->
  i < nints -> g < ng -> r < nr -> c < nc ->
  let low := detection_stage fo med sigclip crowded P nints ng nr nc dat gdq rn 1 in
  let high := detection_stage fo med sigclip crowded (with_thresholds P t t3 t2) nints ng nr nc dat gdq rn 1 in
  (N.testbit (high i g r c) kj = true -> N.testbit (low i g r c) kj = true) /\
  (forall k, k <> kj -> N.testbit (high i g r c) k = N.testbit (low i g r c) k).
Proof.
  intros fo L HN med sigclip crowded P kj kd ks t t3 t2 nints ng nr nc dat gdq rn i g r c HP T R S1 S2 Hi Hg Hr Hc. cbv zeta.
  assert (D : kd <> kj /\ ks <> kj) by (destruct HP as (_ & _ & _ & ? & ? & _); split; congruence).
  set (P' := with_thresholds P t t3 t2).
  unfold detection_stage. rewrite Nat.eqb_refl. change (with_mingroups fo P' 3) with (with_thresholds (with_mingroups fo P 3) t t3 t2).
  set (Q := with_mingroups fo P 3). set (Q' := with_thresholds Q t t3 t2).
  assert (HQ : flag_bits Q kj kd ks) by exact HP.
  assert (TQ : thresholds_ok fo Q) by exact T. assert (RQ : raised Q t t3 t2) by exact R.
  set (hi := res_gdq (find_crs fo med sigclip crowded Q' nints ng nr nc dat gdq rn)). set (lo := res_gdq (find_crs fo med sigclip crowded Q nints ng nr nc dat gdq rn)).
  assert (M : (N.testbit (hi i g r c) kj = true -> N.testbit (lo i g r c) kj = true) /\ (forall k, k <> kj -> N.testbit (hi i g r c) k = N.testbit (lo i g r c) k)).
  { unfold hi, lo, find_crs. change (skip fo Q' nints ng nr nc gdq) with (skip fo Q nints ng nr nc gdq).
    destruct (skip fo Q nints ng nr nc gdq); [cbn; tauto|]. cbv zeta. unfold res_gdq. cbn [fst].
    change (groups_all_set_dnu fo Q' nints ng nr nc gdq) with (groups_all_set_dnu fo Q nints ng nr nc gdq).
    set (K := groups_all_set_dnu fo Q nints ng nr nc gdq). set (rn2 := fun r c => fmul fo (rn r c) (rn r c)).
    assert (SC : check_sigma_clip_groups fo Q nints (c_total K) = false).
    { unfold check_sigma_clip_groups. change (p_minsigclip Q) with (p_minsigclip P).
      destruct (Z.leb_spec (p_minsigclip P) (Z.of_nat nints)); [lia|]. rewrite andb_false_r. cbn [orb].
      assert (c_total K <= Z.of_nat (nints * ng))%Z by (unfold K, groups_all_set_dnu; cbn [c_total]; lia).
      destruct (Z.leb_spec (p_minsigclip P) (c_total K)); [lia|]. rewrite !andb_false_r. reflexivity. }
    set (fd := first_diffs fo Q (mask_data fo Q dat gdq)). set (md := median_diffs fo med nints (ng - 1) fd).
    set (sig := fun j r c => sigma1 fo Q (md r c) (rn2 r c) j).
    assert (M0 : more kj nints nr nc (dt_gdq fo (run_jump_detection fo med sigclip Q' nints (ng - 1) nr nc dat gdq rn2 K))
                                     (dt_gdq fo (run_jump_detection fo med sigclip Q nints (ng - 1) nr nc dat gdq rn2 K))).
    { unfold run_jump_detection. cbn [dt_gdq]. change (check_sigma_clip_groups fo Q' nints (c_total K)) with (check_sigma_clip_groups fo Q nints (c_total K)).
      rewrite SC. change (p_singlepass Q') with (p_singlepass Q). destruct (Z.leb (p_singlepass Q) (c_min_diffs K)).
      - apply (single_mono fo L Q t t3 t2 RQ kj kd ks HQ).
      - apply (iterative_mono fo L HN med Q t t3 t2 RQ kj kd ks HQ TQ). }
    revert M0. set (d1 := run_jump_detection fo med sigclip Q' _ _ _ _ _ _ _ _). set (d2 := run_jump_detection fo med sigclip Q _ _ _ _ _ _ _ _). intro M0.
    assert (E1 : dt_fd fo d1 = dt_fd fo d2) by reflexivity. assert (E2 : dt_md fo d1 = dt_md fo d2) by reflexivity.
    assert (E3 : dt_sigma fo d1 = dt_sigma fo d2) by reflexivity.
    unfold post_processing. rewrite E1, E2, E3. change (p_neigh Q') with (p_neigh Q). change (p_n1 Q') with (p_n1 Q). change (p_n2 Q') with (p_n2 Q).
    assert (M1 : more kj nints nr nc
       (fst (fst (if p_neigh Q then four_neighbors fo Q' (ng - 1) nr nc (dt_gdq fo d1) (dt_fd fo d2) (dt_md fo d2) (dt_sigma fo d2) else (dt_gdq fo d1, fun _ _ _ => 0%N, fun _ _ _ => 0%N))))
       (fst (fst (if p_neigh Q then four_neighbors fo Q (ng - 1) nr nc (dt_gdq fo d2) (dt_fd fo d2) (dt_md fo d2) (dt_sigma fo d2) else (dt_gdq fo d2, fun _ _ _ => 0%N, fun _ _ _ => 0%N))))).
    { destruct (p_neigh Q); [|exact M0]. apply (neighbours_mono fo Q t t3 t2 kj kd ks HQ). exact M0. }
    destruct (if p_neigh Q then four_neighbors fo Q' _ _ _ _ _ _ _ else _) as [[g1 b1] a1].
    destruct (if p_neigh Q then four_neighbors fo Q _ _ _ _ _ _ _ else _) as [[g2 b2] a2]. cbn [fst] in M1 |- *.
    destruct (Z.ltb 0 (p_n1 Q) || Z.ltb 0 (p_n2 Q)); [|apply M1; assumption].
    apply (transient_mono fo Q t t3 t2 kj kd ks HQ crowded nints (ng - 1 + 1) nr nc _ _ g1 g2 M1); auto. lia. }
  destruct HP as (Hj & Hd & Hs & Hjd & Hjs & Hds). destruct M as [M1 M2]. split.
  - rewrite (strip_testbit fo P' kj kd ks), (strip_testbit fo P kj kd ks) by assumption. rewrite !(M2 kd), !(M2 ks) by tauto.
    rewrite !andb_true_iff. intuition.
  - intros k Hk. rewrite (strip_testbit fo P' kj kd ks), (strip_testbit fo P kj kd ks) by assumption. rewrite (M2 k Hk).
    destruct (N.eqb_spec kj k); [congruence|]. reflexivity.
Qed.
Print Assumptions C111_fewer_jumps.

(** two jumps of different size: thresholds 4, 5, 6 find both, 100, 100, 100 only the larger one; in the whole stage (all
    differences judged at once) and in the rounds of the iterative search *)
Definition m_dat : arr4 B64 := fun i g r c => nth g (map z64 [0; 10; 21; 531; 541; 581; 592]%Z) (z64 0).
Definition m_diff : nat -> nat -> B64 := fun i j => nth j (map z64 [10; 11; 510; 40]%Z) (z64 0).
Example C111_example : let P := exP 3 100 true in let P' := with_thresholds P (z64 100) (z64 100) (z64 100) in
  let f P := map (fun g => detection_stage B64 med64 nosig nocrowd P 1 7 1 1 m_dat (fun _ _ _ _ => 0%N) (fun _ _ => z64 1) 1 0 g 0 0) (seq 0 7) in
  let cl P k := map (fun j => clipped B64 med64 P 1 4 (z64 1) (after B64 med64 P 1 4 (z64 1) k m_diff) 0 j) (seq 0 4) in
  flag_bits P 2 0 1 /\ thresholds_ok B64 P /\ raised P (z64 100) (z64 100) (z64 100) /\ (p_minsigclip P = 100)%Z /\
  f P = [0; 0; 0; 4; 0; 4; 0]%N /\ f P' = [0; 0; 0; 4; 0; 0; 0]%N /\
  cl P 0 = [false; false; true; false] /\ cl P 1 = [false; false; false; true] /\ cl P' 0 = [false; false; true; false] /\ cl P' 1 = [false; false; false; false].
Proof.
  cbv zeta. split; [repeat split; discriminate || reflexivity|]. split; [repeat split|]. split; [repeat split|]. split; [reflexivity|].
  repeat match goal with |- _ /\ _ => split end; vm_compute; reflexivity.
Qed.
