(** C138: running jump detection on its own result. *)
From Verif Require Import Base BaseLemmas FLaws JumpModel JumpSpec JumpProofs JumpIter JumpStage JumpProps JsProps.
From Coq Require Import ZifyBool ZifyNat ZifyN FunctionalExtensionality.

Lemma has_two w a b : has w (N.lor (bit a) (bit b)) = N.testbit w a || N.testbit w b.
Proof.
  apply eq_iff_eq_true. rewrite orb_true_iff. unfold has. rewrite negb_true_iff, N.eqb_neq. split.
  - intro H. destruct (N.testbit w a) eqn:A; [tauto|]. destruct (N.testbit w b) eqn:B; [tauto|]. exfalso. apply H, N.bits_inj_0. intro k. rewrite N.land_spec, N.lor_spec, !bit_testbit.
    destruct (N.eqb_spec a k) as [<-|_]; [rewrite A; reflexivity|]. destruct (N.eqb_spec b k) as [<-|_]; [rewrite B; reflexivity|apply andb_false_r].
  - intros H E. apply (f_equal (fun x => (N.testbit x a, N.testbit x b))) in E. rewrite !N.land_spec, !N.lor_spec, !bit_testbit, !N.bits_0, !N.eqb_refl, orb_true_r in E. cbn [orb] in E. rewrite !andb_true_r in E. injection E as E1 E2. destruct H; congruence.
Qed.
(** ** the search reads nothing but DO_NOT_USE and SATURATED of the flags it is given, apart from the jumps already there *)
Section Again.
  Variable fo : FOps.
  Variable L : FLaws fo.
  Hypothesis HN : fisnan fo (fnan fo) = true.
  Variable med : list fo -> fo.
  Variable sigclip : bool -> nat -> nat -> (nat -> nat -> fo) -> nat -> nat -> bool.
  Variable crowded : nat -> nat -> nat -> cube bool -> bool.
  Variable P : params fo.
  Variables kj kd ks : N.
  Hypothesis HF : flag_bits P kj kd ks.
  Hypothesis HT : thresholds_ok fo P.
  Variables nints ng nr nc : nat.
  Variable dat : arr4 fo.
  Variable rn : img fo.
  Variables g1 g2 : arr4 N.
  Hypothesis same : forall i g r c k, k <> kj -> N.testbit (g2 i g r c) k = N.testbit (g1 i g r c) k.

  Lemma bars i g r c : N.testbit (g2 i g r c) kd = N.testbit (g1 i g r c) kd /\ N.testbit (g2 i g r c) ks = N.testbit (g1 i g r c) ks.
  Proof. destruct HF as (_ & _ & _ & H1 & H2 & _). split; apply same; congruence. Qed.
  Lemma barred_eq i g r c : barred kd ks g2 i g r c <-> barred kd ks g1 i g r c.
  Proof. unfold barred. destruct (bars i g r c) as [-> ->]. reflexivity. Qed.
  Lemma step_eq : step fo P dat g2 = step fo P dat g1.
  Proof.
    assert (S : sample fo P dat g2 = sample fo P dat g1).
    { extensionality i. extensionality g. extensionality r. extensionality c. unfold sample. destruct HF as (_ & Hd & Hs & _). rewrite Hd, Hs. destruct (bars i g r c) as [B1 B2].
      assert (E : has (g2 i g r c) (N.lor (bit kd) (bit ks)) = has (g1 i g r c) (N.lor (bit kd) (bit ks))) by (rewrite !has_two, B1, B2; reflexivity). rewrite E. reflexivity. }
    unfold step. rewrite S. reflexivity.
  Qed.
  Lemma off_by_eq : off_by fo med P nints ng dat g2 rn = off_by fo med P nints ng dat g1 rn.
  Proof. unfold off_by, middle. rewrite step_eq. reflexivity. Qed.
  Lemma usable_eq i : n_usable kd ng nr nc (g2 i) = n_usable kd ng nr nc (g1 i).
  Proof.
    unfold n_usable. f_equal. assert (E : (fun k r c => negb (N.testbit (g2 i k r c) kd)) = (fun k r c => negb (N.testbit (g1 i k r c) kd))).
    { extensionality k. extensionality r. extensionality c. destruct (bars i k r c) as [-> _]. reflexivity. }
    apply filter_ext. intro k. pose proof (f_equal (fun f => existsb (fun r => existsb (fun c => f k r c) (seq 0 nc)) (seq 0 nr)) E) as E'. exact E'.
  Qed.
  Lemma clipping_eq : by_clipping fo P kd nints ng nr nc g2 <-> by_clipping fo P kd nints ng nr nc g1.
  Proof.
    unfold by_clipping. assert (E : map (fun i => n_usable kd ng nr nc (g2 i)) (seq 0 nints) = map (fun i => n_usable kd ng nr nc (g1 i)) (seq 0 nints)) by (apply map_ext; intro i; apply usable_eq). rewrite E. reflexivity.
  Qed.
  Lemma single_eq : by_single_pass fo P kd nints ng nr nc g2 <-> by_single_pass fo P kd nints ng nr nc g1.
  Proof. unfold by_single_pass. split; intros H i I; specialize (H i I); rewrite usable_eq in *; exact H. Qed.
  Lemma few_eq : too_few fo P kd nints ng nr nc g2 <-> too_few fo P kd nints ng nr nc g1.
  Proof.
    unfold too_few. rewrite usable_eq. split; intros [(i & I & E) H]; (split; [exists i; split; [exact I|]; rewrite usable_eq in *; exact E|exact H]).
  Qed.
  (** what is found anew does not depend on the jumps already there *)
  Lemma found_again i g r c : ~ by_clipping fo P kd nints ng nr nc g1 -> i < nints -> r < nr -> c < nc ->
    found fo med sigclip P kj kd ks nints ng nr nc dat g2 rn i g r c -> had kj g2 i g r c \/ found fo med sigclip P kj kd ks nints ng nr nc dat g1 rn i g r c.
  Proof.
    intros NC I R C [[B _]|[(_ & S & F)|(_ & S & F)]]; [exfalso; apply NC, clipping_eq, B| |].
    - destruct F as [F|F]; [left; exact F|right]. right. left. split; [exact NC|]. split; [apply single_eq, S|]. right. rewrite off_by_eq, step_eq in F. exact F.
    - destruct F as [F|F]; [left; exact F|right]. right. right. split; [exact NC|]. split; [intro H; apply S, single_eq, H|]. right. rewrite step_eq in F. exact F.
  Qed.
  Lemma had_found i g r c : ~ by_clipping fo P kd nints ng nr nc g2 -> 0 < nints -> had kj g2 i g r c -> found fo med sigclip P kj kd ks nints ng nr nc dat g2 rn i g r c.
  Proof.
    intros NC I H. pose proof (single_iff fo HN P kj kd ks HF nints ng nr nc g2 I) as S. destruct (Z.leb (p_singlepass P) (c_min_diffs (groups_all_set_dnu fo P nints ng nr nc g2))).
    - right. left. split; [exact NC|]. split; [apply S; reflexivity|left; exact H].
    - right. right. split; [exact NC|]. split; [intro Q; apply S in Q; discriminate|left; exact H].
  Qed.
End Again.

(** ** the jump step's detection in one process, run on its own result *)
Section Twice.
  Variable fo : FOps.
  Variable L : FLaws fo.
  Hypothesis HN : fisnan fo (fnan fo) = true.
  Variable med : list fo -> fo.
  Variable sigclip : bool -> nat -> nat -> (nat -> nat -> fo) -> nat -> nat -> bool.
  Variable crowded : nat -> nat -> nat -> cube bool -> bool.
  Variable P : params fo.
  Variables kj kd ks : N.
  Hypothesis HF : flag_bits P kj kd ks.
  Hypothesis HT : thresholds_ok fo P.
  Variables nints ng nr nc : nat.
  Variable dat : arr4 fo.
  Variable rn : img fo.
  Let Q := with_mingroups fo P 3.
  Let stage (g : arr4 N) := detection_stage fo med sigclip crowded P nints ng nr nc dat g rn 1.
  Lemma HFQ : flag_bits Q kj kd ks. Proof. exact HF. Qed.
  Lemma HTQ : thresholds_ok fo Q. Proof. exact HT. Qed.
  Lemma few_dec gdq : 0 < nints -> too_few fo Q kd nints ng nr nc gdq \/ ~ too_few fo Q kd nints ng nr nc gdq.
  Proof.
    intro I. assert (Hd : p_dnu Q = bit kd) by apply HF. pose proof (C22_skip_iff fo Q kd nints ng nr nc gdq Hd I) as S. fold (too_few fo Q kd nints ng nr nc gdq) in S. destruct (skip fo Q nints ng nr nc gdq); [left; apply S; reflexivity|right; intro H; apply S in H; discriminate].
  Qed.
  Lemma stage_other gdq i g r c k : k <> kj -> N.testbit (stage gdq i g r c) k = N.testbit (gdq i g r c) k.
  Proof.
    intro K. unfold stage, detection_stage. cbn [Nat.eqb]. destruct HF as (H1 & H2 & H3 & H4 & H5 & H6). rewrite (strip_testbit fo P kj kd ks) by assumption. destruct (N.eqb_spec kj k); [congruence|]. cbn [andb negb]. rewrite andb_true_r. apply find_crs_other with (kj := kj); assumption.
  Qed.
  Lemma stage_flag gdq i g r c : i < nints -> g < ng -> r < nr -> c < nc ->
    N.testbit (stage gdq i g r c) kj = true <-> ~ barred kd ks gdq i g r c /\
      (too_few fo Q kd nints ng nr nc gdq /\ had kj gdq i g r c \/ ~ too_few fo Q kd nints ng nr nc gdq /\ jump fo med sigclip Q kj kd ks nints ng nr nc dat gdq rn i g r c).
  Proof.
    intros I G R C. destruct (C121_find_crs fo L HN med sigclip crowded Q kj kd ks nints ng nr nc dat gdq rn i g r c HFQ HTQ I G R C) as (T1 & T2 & T3).
    unfold stage, detection_stage. cbn [Nat.eqb]. fold Q. destruct HF as (H1 & H2 & H3 & H4 & H5 & H6). rewrite (strip_testbit fo P kj kd ks) by assumption. rewrite N.eqb_refl. cbn [andb]. rewrite (T3 kd), (T3 ks) by congruence. rewrite andb_true_iff, negb_true_iff, orb_false_iff.
    unfold barred, had. destruct (few_dec gdq ltac:(lia)) as [Fw|Fw].
    - rewrite (T1 Fw). destruct (N.testbit (gdq i g r c) kd), (N.testbit (gdq i g r c) ks); intuition congruence.
    - rewrite (T2 Fw). destruct (N.testbit (gdq i g r c) kd), (N.testbit (gdq i g r c) ks); intuition congruence.
  Qed.

  Variable gdq : arr4 N.
  Hypothesis NC : ~ by_clipping fo P kd nints ng nr nc gdq.
  Lemma same_bits i g r c k : k <> kj -> N.testbit (stage gdq i g r c) k = N.testbit (gdq i g r c) k.
  Proof. apply stage_other. Qed.
  Lemma clip2 : ~ by_clipping fo Q kd nints ng nr nc (stage gdq).
  Proof. intro H. apply NC. apply (clipping_eq fo Q kj kd ks HFQ nints ng nr nc gdq (stage gdq) same_bits) in H. exact H. Qed.
  Lemma few2 : too_few fo Q kd nints ng nr nc (stage gdq) <-> too_few fo Q kd nints ng nr nc gdq.
  Proof. exact (few_eq fo Q kj kd ks HFQ nints ng nr nc gdq (stage gdq) same_bits). Qed.
  Lemma bar2 i g r c : barred kd ks (stage gdq) i g r c <-> barred kd ks gdq i g r c.
  Proof. exact (barred_eq fo Q kj kd ks HFQ gdq (stage gdq) same_bits i g r c). Qed.

  (** unless sigma clipping is used, a second run takes no jump flag away, and changes no other flag *)
  Theorem C138_keeps i g r c : i < nints -> g < ng -> r < nr -> c < nc ->
    (N.testbit (stage gdq i g r c) kj = true -> N.testbit (stage (stage gdq) i g r c) kj = true) /\
    (forall k, k <> kj -> N.testbit (stage (stage gdq) i g r c) k = N.testbit (gdq i g r c) k).
  Proof.
    intros I G R C. split; [|intros k K; rewrite !stage_other by exact K; reflexivity]. intro H. pose proof H as H0. apply (stage_flag gdq i g r c I G R C) in H. destruct H as [B _]. apply (stage_flag (stage gdq) i g r c I G R C). split; [rewrite bar2; exact B|].
    destruct (few_dec (stage gdq) ltac:(lia)) as [Fw|Fw]; [left; split; [exact Fw|exact H0]|right]. split; [exact Fw|]. left. left. apply (had_found fo HN med sigclip Q kj kd ks HFQ nints ng nr nc dat rn (stage gdq)); [exact clip2|lia|exact H0].
  Qed.

  Lemma again_iff : (forall i g r c, i < nints -> g < ng -> r < nr -> c < nc -> ~ too_few fo Q kd nints ng nr nc gdq -> ~ barred kd ks gdq i g r c ->
      jump fo med sigclip Q kj kd ks nints ng nr nc dat (stage gdq) rn i g r c -> had kj (stage gdq) i g r c) ->
    forall i g r c, i < nints -> g < ng -> r < nr -> c < nc -> stage (stage gdq) i g r c = stage gdq i g r c.
  Proof.
    intros H i g r c I G R C. apply N.bits_inj. intro k. destruct (N.eq_dec k kj) as [->|K]; [|rewrite stage_other by exact K; reflexivity]. apply eq_iff_eq_true. split; [|apply C138_keeps; assumption].
    intro J. apply (stage_flag (stage gdq) i g r c I G R C) in J. destruct J as [B [[_ J]|[T J]]]; [exact J|]. apply (H i g r c I G R C); [rewrite <- few2; exact T|rewrite <- bar2; exact B|exact J].
  Qed.
  Lemma found_old i g r c : i < nints -> g < ng -> r < nr -> c < nc -> ~ too_few fo Q kd nints ng nr nc gdq -> ~ barred kd ks gdq i g r c ->
    found fo med sigclip Q kj kd ks nints ng nr nc dat (stage gdq) rn i g r c -> had kj (stage gdq) i g r c.
  Proof.
    intros I G R C T B F. apply (found_again fo med sigclip Q kj kd ks HFQ nints ng nr nc dat rn gdq (stage gdq) same_bits i g r c NC I R C) in F. destruct F as [F|F]; [exact F|]. apply (stage_flag gdq i g r c I G R C). split; [exact B|]. right. split; [exact T|]. left. left. exact F.
  Qed.
  (** with no growth into neighbours or later groups the second run changes nothing *)
  Theorem C138_same : p_neigh P = false -> (p_n1 P <= 0)%Z -> (p_n2 P <= 0)%Z ->
    forall i g r c, i < nints -> g < ng -> r < nr -> c < nc -> stage (stage gdq) i g r c = stage gdq i g r c.
  Proof.
    intros Hn H1 H2. apply again_iff. intros i g r c I G R C T B [[F|[F _]]|(_ & g' & G' & [[_ F]|[_ F]])].
    - exact (found_old i g r c I G R C T B F).
    - cbn in F. congruence.
    - cbn [Q with_mingroups p_n1] in F. lia.
    - cbn [Q with_mingroups p_n2] in F. lia.
  Qed.
  (** nor does it with neighbours, in one pass, if a neighbour is only flagged for a jump that is itself over the threshold *)
  Theorem C138_neighbours : by_single_pass fo P kd nints ng nr nc gdq -> fle fo (p_thresh P) (p_minneigh P) = true -> (p_n1 P <= 0)%Z -> (p_n2 P <= 0)%Z ->
    (forall i j r c, i < nints -> j < ng - 1 -> r < nr -> c < nc -> fisfinite fo (step fo P dat gdq i j r c) = true \/ fisnan fo (step fo P dat gdq i j r c) = true) ->
    forall i g r c, i < nints -> g < ng -> r < nr -> c < nc -> stage (stage gdq) i g r c = stage gdq i g r c.
  Proof.
    intros Sp Th H1 H2 Fin. apply again_iff. intros i g r c I G R C T B [[F|(Hn & G' & _ & r' & c' & E & F & M1 & M2)]|(_ & g' & G1 & [[_ F]|[_ F]])].
    - exact (found_old i g r c I G R C T B F).
    - destruct E as (R' & C' & E). assert (O : off_by fo med Q nints ng dat (stage gdq) rn i (g - 1) r' c' = off_by fo med P nints ng dat gdq rn i (g - 1) r' c') by exact (f_equal (fun f => f i (g - 1) r' c') (off_by_eq fo med Q kj kd ks HFQ nints ng dat rn gdq (stage gdq) same_bits)).
      rewrite O in M1, M2. cbn [Q with_mingroups p_minneigh p_maxneigh] in M1, M2.
      assert (Fn : fisfinite fo (step fo P dat gdq i (g - 1) r' c') = true).
      { destruct (Fin i (g - 1) r' c' I ltac:(lia) R' C') as [Z|Z]; [exact Z|exfalso]. assert (Nn : fisnan fo (off_by fo med P nints ng dat gdq rn i (g - 1) r' c') = true) by (unfold off_by; apply (div_nan_l _ L); rewrite (abs_nan _ L); apply (sub_nan_l _ L), Z). rewrite (lt_nan_r _ L) in M1 by exact Nn. discriminate. }
      assert (Lt : flt fo (p_thresh P) (off_by fo med P nints ng dat gdq rn i (g - 1) r' c') = true).
      { rewrite (fle_spec _ L), !andb_true_iff, !negb_true_iff in Th. destruct Th as [[T1 T2] T3]. destruct (flt fo (p_thresh P) (off_by fo med P nints ng dat gdq rn i (g - 1) r' c')) eqn:Z; [reflexivity|exfalso]. pose proof (nflt_trans _ L _ _ _ T1 T3 Z). congruence. }
      apply (stage_flag gdq i g r c I G R C). split; [exact B|]. right. split; [exact T|]. left. right. split; [exact Hn|]. split; [exact G'|]. split; [exact B|]. exists r', c'. split; [split; [exact R'|split; [exact C'|exact E]]|].
      split; [right; left; split; [exact NC|split; [exact Sp|right; split; [exact G'|split; [exact Lt|exact Fn]]]]|]. split; [exact M1|exact M2].
    - cbn [Q with_mingroups p_n1] in F. lia.
    - cbn [Q with_mingroups p_n2] in F. lia.
  Qed.
End Twice.
Print Assumptions C138_keeps.
Print Assumptions C138_same.
Print Assumptions C138_neighbours.

(** the array with the listed flags, pixel by pixel, and the flags of a row of pixels with six groups *)
Definition holding (t : list (list N)) : arr4 N := fun _ g _ c => nth g (nth c t []) 0%N.
Definition jw_show (nc : nat) (g : arr4 N) : list (list N) := map (fun c => map (fun k => g 0 k 0 c) (seq 0 6)) (seq 0 nc).
(** *** examples: a row of three pixels, six groups, read noise 5; the first pixel jumps by 200 in group 3, its neighbour by 15 *)
Definition jw_P (neigh : bool) (mn n1 e1 minsig : Z) : params B64 := let P := exP 3 minsig true in
  {| p_dnu := p_dnu P; p_sat := p_sat P; p_jump := p_jump P; p_thresh := p_thresh P; p_thresh3 := p_thresh3 P; p_thresh2 := p_thresh2 P;
     p_neigh := neigh; p_maxneigh := p_maxneigh P; p_minneigh := z64 mn; p_n1 := n1; p_n2 := 0; p_e1 := z64 e1; p_e2 := z64 3000;
     p_mingroups := 3; p_minsigclip := minsig; p_onlyints := true; p_singlepass := 1; p_dt := p_dt P; p_nreads := p_nreads P; p_uniform := true |}.
Definition jw_dat : arr4 B64 := fun _ g _ c => z64 (Z.of_nat g * 10 + if Nat.leb 3 g then nth c [200; 15; 0]%Z 0%Z else 0).
Definition jw_gdq : arr4 N := fun _ _ _ _ => 0%N.
Definition jw_run (P : params B64) sg (nc : nat) (g : arr4 N) : arr4 N := detection_stage B64 med64 sg nocrowd P 1 6 1 nc jw_dat g (fun _ _ => z64 5) 1.
(** growth into neighbours from four standard deviations on: the second run finds the same *)
Example C138_example : flag_bits (jw_P true 4 0 1000 100) 2 0 1 /\ thresholds_ok B64 (jw_P true 4 0 1000 100) /\ FLaws B64 /\ fisnan B64 (fnan B64) = true /\
  ~ by_clipping B64 (jw_P true 4 0 1000 100) 0 1 6 1 3 jw_gdq /\ by_single_pass B64 (jw_P true 4 0 1000 100) 0 1 6 1 3 jw_gdq /\ fle B64 (p_thresh (jw_P true 4 0 1000 100)) (p_minneigh (jw_P true 4 0 1000 100)) = true /\
  (forall c, c < 3 -> forall j, j < 5 -> fisfinite B64 (step B64 (jw_P true 4 0 1000 100) jw_dat jw_gdq 0 j 0 c) = true) /\
  jw_show 3 (jw_run (jw_P true 4 0 1000 100) nosig 3 jw_gdq) = [[0; 0; 0; 4; 0; 0]; [0; 0; 0; 4; 0; 0]; [0; 0; 0; 0; 0; 0]]%N /\
  jw_show 3 (jw_run (jw_P true 4 0 1000 100) nosig 3 (holding [[0; 0; 0; 4; 0; 0]; [0; 0; 0; 4; 0; 0]; [0; 0; 0; 0; 0; 0]]%N)) = [[0; 0; 0; 4; 0; 0]; [0; 0; 0; 4; 0; 0]; [0; 0; 0; 0; 0; 0]]%N.
Proof.
  destruct exP_flags as (H1 & H2 & H3 & H4). split; [exact H1|]. split; [exact H2|]. split; [exact H3|]. split; [exact H4|]. split; [intros [_ H]; vm_compute in H; apply H; reflexivity|].
  split; [intros i I; destruct i; [vm_compute; reflexivity|lia]|]. split; [reflexivity|]. split; [|split; vm_compute; reflexivity].
  intros c C j J. destruct c as [|[|[|c]]]; [..|lia]; (destruct j as [|[|[|[|[|j]]]]]; [vm_compute; reflexivity..|lia]).
Qed.
Example C138_same_example : flag_bits (jw_P false 4 0 1000 100) 2 0 1 /\ thresholds_ok B64 (jw_P false 4 0 1000 100) /\ ~ by_clipping B64 (jw_P false 4 0 1000 100) 0 1 6 1 3 jw_gdq /\
  jw_show 3 (jw_run (jw_P false 4 0 1000 100) nosig 3 jw_gdq) = [[0; 0; 0; 4; 0; 0]; [0; 0; 0; 0; 0; 0]; [0; 0; 0; 0; 0; 0]]%N.
Proof. destruct exP_flags as (H1 & H2 & _). split; [exact H1|]. split; [exact H2|]. split; [intros [_ H]; vm_compute in H; apply H; reflexivity|vm_compute; reflexivity]. Qed.
(** growth from less than the threshold on: the neighbour's own 15 counts are too few to be a jump, but once flagged it passes the flag on *)
Theorem C138_neighbours_refuted : exists P dat gdq rn first, p_neigh P = true /\ (p_n1 P <= 0)%Z /\ (p_n2 P <= 0)%Z /\
  let run g := detection_stage B64 med64 nosig nocrowd P 1 6 1 3 dat g rn 1 in jw_show 3 (run gdq) = first /\ holding first 0 3 0 2 = 0%N /\ run (holding first) 0 3 0 2 = 4%N.
Proof. exists (jw_P true 1 0 1000 100), jw_dat, jw_gdq, (fun _ _ => z64 5), [[0; 0; 0; 4; 0; 0]; [0; 0; 0; 4; 0; 0]; [0; 0; 0; 0; 0; 0]]%N. split; [reflexivity|]. split; [cbn; lia|]. split; [cbn; lia|]. split; [vm_compute; reflexivity|]. split; vm_compute; reflexivity. Qed.
(** growth into later groups: the window starts anew at the groups the first run flagged *)
Theorem C138_after_jump_refuted : exists P dat gdq rn first, p_neigh P = false /\ p_n1 P = 1%Z /\
  let run g := detection_stage B64 med64 nosig nocrowd P 1 6 1 3 dat g rn 1 in jw_show 3 (run gdq) = first /\ holding first 0 5 0 0 = 0%N /\ run (holding first) 0 5 0 0 = 4%N.
Proof. exists (jw_P false 4 1 0 100), jw_dat, jw_gdq, (fun _ _ => z64 5), [[0; 0; 0; 4; 4; 0]; [0; 0; 0; 0; 0; 0]; [0; 0; 0; 0; 0; 0]]%N. split; [reflexivity|]. split; [reflexivity|]. split; [vm_compute; reflexivity|]. split; vm_compute; reflexivity. Qed.
(** with sigma clipping a second run can lose the jump: its neighbours are flagged too, and a group in which every pixel has a jump is taken not to have any *)
Theorem C138_clipping_refuted : exists P sg dat gdq rn first,
  let run g := detection_stage B64 med64 sg nocrowd P 1 6 1 2 dat g rn 1 in jw_show 2 (run gdq) = first /\ holding first 0 3 0 0 = 4%N /\ run (holding first) 0 3 0 0 = 0%N.
Proof. exists (jw_P true 4 0 1000 1), (fun _ _ _ d i j => flt B64 (z64 50) (d i j)), jw_dat, jw_gdq, (fun _ _ => z64 5), [[0; 0; 0; 4; 0; 0]; [0; 0; 0; 4; 0; 0]]%N. split; [vm_compute; reflexivity|]. split; vm_compute; reflexivity. Qed.
Print Assumptions C138_neighbours_refuted.
Print Assumptions C138_after_jump_refuted.
Print Assumptions C138_clipping_refuted.
(** nor is it enough with the iterative search, which looks at absolute differences: a drop as large as the rises is no jump there, but is far from
    the median when growth into neighbours is decided.  Here growth starts at ten standard deviations, detection at four *)
Definition jw_iter : params B64 := let P := jw_P true 10 0 1000 100 in
  {| p_dnu := p_dnu P; p_sat := p_sat P; p_jump := p_jump P; p_thresh := p_thresh P; p_thresh3 := p_thresh3 P; p_thresh2 := p_thresh2 P;
     p_neigh := true; p_maxneigh := p_maxneigh P; p_minneigh := p_minneigh P; p_n1 := 0; p_n2 := 0; p_e1 := p_e1 P; p_e2 := p_e2 P;
     p_mingroups := 3; p_minsigclip := 100; p_onlyints := true; p_singlepass := 9; p_dt := p_dt P; p_nreads := p_nreads P; p_uniform := true |}.
Definition jw_drop : arr4 B64 := fun _ g _ c => z64 (nth g (nth c [[0; 10; 20; 230; 240; 250]; [0; 100; 200; 100; 200; 300]; [0; 10; 20; 30; 40; 50]]%Z []) 0%Z).
Theorem C138_iteration_refuted : exists P dat gdq rn first, ~ by_single_pass B64 P 0 1 6 1 3 gdq /\ fle B64 (p_thresh P) (p_minneigh P) = true /\ (p_n1 P <= 0)%Z /\ (p_n2 P <= 0)%Z /\
  let run g := detection_stage B64 med64 nosig nocrowd P 1 6 1 3 dat g rn 1 in jw_show 3 (run gdq) = first /\ holding first 0 3 0 2 = 0%N /\ run (holding first) 0 3 0 2 = 4%N.
Proof.
  exists jw_iter, jw_drop, jw_gdq, (fun _ _ => z64 5), [[0; 0; 0; 4; 0; 0]; [0; 0; 0; 4; 0; 0]; [0; 0; 0; 0; 0; 0]]%N. split; [intro H; specialize (H 0 ltac:(lia)); vm_compute in H; discriminate|]. split; [reflexivity|]. split; [cbn; lia|]. split; [cbn; lia|]. split; [vm_compute; reflexivity|]. split; vm_compute; reflexivity.
Qed.
Print Assumptions C138_iteration_refuted.
