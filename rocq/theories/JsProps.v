(** C121: what the two-point-difference jump detection flags, from its inputs alone. *)
From Verif Require Import Base BaseLemmas FLaws JumpModel JumpSpec JumpProofs JumpIter JumpStage JumpProps.
From Coq Require Import ZifyBool ZifyNat ZifyN.

(** ** Specification *)
Section Spec.
  Variable fo : FOps.
  Variable med : list fo -> fo.
  Variable sigclip : bool -> nat -> nat -> (nat -> nat -> fo) -> nat -> nat -> bool.
  Variable P : params fo.
  Variables kj kd ks : N.
  Variables nints ng nr nc : nat.
  Variable dat : arr4 fo.
  Variable gdq : arr4 N.
  Variable rn : img fo.

  (** a sample that is not to be used or saturated counts as missing *)
  Definition sample (i g r c : nat) : fo := if has (gdq i g r c) (N.lor (p_dnu P) (p_sat P)) then fnan fo else dat i g r c.
  (** the rate between groups [j] and [j + 1] *)
  Definition step (i j r c : nat) : fo := fdiv fo (fsub fo (sample i (j + 1) r c) (sample i j r c)) (p_dt P j).
  (** the middle rate of a pixel over all integrations *)
  Definition middle (r c : nat) : fo := match in_use fo nints (ng - 1) (fun i j => step i j r c) with [] => fnan fo | l => med l end.
  (** how many standard deviations a rate is off *)
  Definition off_by (i j r c : nat) : fo :=
    fdiv fo (fabs fo (fsub fo (step i j r c) (middle r c))) (noise fo P (fmul fo (rn r c) (rn r c)) (middle r c) j).
  (** DO_NOT_USE or SATURATED *)
  Definition barred (i g r c : nat) : Prop := N.testbit (gdq i g r c) kd = true \/ N.testbit (gdq i g r c) ks = true.
  Definition had (i g r c : nat) : Prop := N.testbit (gdq i g r c) kj = true.

  (** which of the three methods is used *)
  Definition by_clipping : Prop := p_uniform P = true /\
    if p_onlyints P then (p_minsigclip P <= Z.of_nat nints)%Z
    else (p_minsigclip P <= Z.of_nat (list_sum (map (fun i => n_usable kd ng nr nc (gdq i)) (seq 0 nints))))%Z.
  Definition by_single_pass : Prop := forall i, i < nints -> (p_singlepass P < Z.of_nat (n_usable kd ng nr nc (gdq i)))%Z.

  (** sigma clipping: what the clipping masks; a group in which then every pixel has a jump or is not to be used loses the jump flag
      where it is the only flag *)
  Definition clip_raw (i g r c : nat) : Prop := had i g r c \/
    (1 <= g <= ng - 1 /\ sigclip (p_onlyints P) nints (ng - 1) (fun a b => step a b r c) i (g - 1) = true /\ fisfinite fo (step i (g - 1) r c) = true /\ ~ barred i g r c).
  Definition clip_found (i g r c : nat) : Prop := clip_raw i g r c /\
    ~ ((forall r' c', r' < nr -> c' < nc -> clip_raw i g r' c' \/ N.testbit (gdq i g r' c') kd = true) /\ (forall k, k <> kj -> N.testbit (gdq i g r c) k = false)).
  (** one pass *)
  Definition pass_found (i g r c : nat) : Prop := had i g r c \/
    (1 <= g <= ng - 1 /\ flt fo (p_thresh P) (off_by i (g - 1) r c) = true /\ fisfinite fo (step i (g - 1) r c) = true).
  (** the documented iteration (JumpSpec) *)
  Definition iter_found (i g r c : nat) : Prop := had i g r c \/
    (1 <= g <= ng - 1 /\ exists k, clipped fo med P nints (ng - 1) (fmul fo (rn r c) (rn r c))
       (after fo med P nints (ng - 1) (fmul fo (rn r c) (rn r c)) k (fun a b => fabs fo (step a b r c))) i (g - 1) = true).
  Definition found (i g r c : nat) : Prop :=
    by_clipping /\ clip_found i g r c \/ ~ by_clipping /\ by_single_pass /\ pass_found i g r c \/ ~ by_clipping /\ ~ by_single_pass /\ iter_found i g r c.
  (** the four neighbours of a middling jump *)
  Definition spread (i g r c : nat) : Prop := found i g r c \/
    (p_neigh P = true /\ 1 <= g <= ng - 1 /\ ~ barred i g r c /\
     exists r' c', edge_neighbour nr nc r c r' c' /\ found i g r' c' /\ flt fo (p_minneigh P) (off_by i (g - 1) r' c') = true /\ flt fo (off_by i (g - 1) r' c') (p_maxneigh P) = true).
  (** the groups after a large jump *)
  Definition large (e : fo) (i g r c : nat) : Prop :=
    1 <= g /\ spread i g r c /\ fle fo e (fmul fo (fsub fo (step i (g - 1) r c) (middle r c)) (p_dt P (g - 1))) = true.
  Definition jump (i g r c : nat) : Prop := spread i g r c \/
    (~ barred i g r c /\ exists g', g' < g /\
      (large (p_e1 P) i g' r c /\ (Z.of_nat g <= Z.of_nat g' + p_n1 P)%Z \/ large (p_e2 P) i g' r c /\ (Z.of_nat g <= Z.of_nat g' + p_n2 P)%Z)).
  (** not enough data: C22 *)
  Definition too_few : Prop := (exists i, i < nints /\ (Z.of_nat (n_usable kd ng nr nc (gdq i)) < p_mingroups P)%Z) /\
    (if p_onlyints P then (Z.of_nat nints < p_minsigclip P)%Z else (Z.of_nat ((nints - 1) * ng + n_usable kd ng nr nc (gdq (nints - 1)))%nat < p_minsigclip P)%Z).
End Spec.

(** ** The methods *)
Section Methods.
  Variable fo : FOps.
  Variable L : FLaws fo.
  Hypothesis HN : fisnan fo (fnan fo) = true.
  Variable med : list fo -> fo.
  Variable sigclip : bool -> nat -> nat -> (nat -> nat -> fo) -> nat -> nat -> bool.
  Variable P : params fo.
  Variables kj kd ks : N.
  Hypothesis HF : flag_bits P kj kd ks.
  Hypothesis HT : thresholds_ok fo P.
  Variables nints ng nr nc : nat.
  Variable dat : arr4 fo.
  Variable gdq : arr4 N.
  Variable rn : img fo.
  Notation Found := (found fo med sigclip P kj kd ks nints ng nr nc dat gdq rn).
  Notation Step := (step fo P dat gdq).
  Notation Middle := (middle fo med P nints ng dat gdq).
  Notation Off := (off_by fo med P nints ng dat gdq rn).
  Notation K := (groups_all_set_dnu fo P nints ng nr nc gdq).
  Let fd := first_diffs fo P (mask_data fo P dat gdq).
  Let md := median_diffs fo med nints (ng - 1) fd.
  Let sig : cube fo := fun j r c => sigma1 fo P (md r c) (fmul fo (rn r c) (rn r c)) j.
  Let D := run_jump_detection fo med sigclip P nints (ng - 1) nr nc dat gdq (fun r c => fmul fo (rn r c) (rn r c)) K.

  Lemma fd_step i j r c : fd i j r c = Step i j r c. Proof. reflexivity. Qed.
  Lemma md_middle r c : md r c = Middle r c.
  Proof. unfold md, median_diffs, nanmedian, middle. rewrite nonnan_in_use. reflexivity. Qed.
  Lemma sig_noise j r c : sig j r c = noise fo P (fmul fo (rn r c) (rn r c)) (Middle r c) j.
  Proof. unfold sig. rewrite md_middle. reflexivity. Qed.
  Lemma off_eq i j r c : fdiv fo (fabs fo (fsub fo (fd i j r c) (md r c))) (sig j r c) = Off i j r c.
  Proof. rewrite sig_noise, md_middle. reflexivity. Qed.

  Lemma total_usable : c_total K = Z.of_nat (list_sum (map (fun i => n_usable kd ng nr nc (gdq i)) (seq 0 nints))).
  Proof.
    destruct HF as (_ & Hd & _). pose proof (fun i => usable_flagged fo P kd Hd ng nr nc (gdq i)) as HU. unfold groups_all_set_dnu. cbn [c_total]. unfold total_flagged.
    assert (G : forall l a, (fold_left (fun t i => t + num_flagged fo P ng nr nc (gdq i)) l a + list_sum (map (fun i => n_usable kd ng nr nc (gdq i)) l) = a + length l * ng)).
    { induction l as [|i l IH]; intro a; [cbn; lia|]. cbn [fold_left map list_sum length fold_right]. specialize (IH (a + num_flagged fo P ng nr nc (gdq i))). specialize (HU i). unfold list_sum in *. nia. }
    specialize (G (seq 0 nints) 0). rewrite seq_length in G. lia.
  Qed.
  Lemma clipping_iff : check_sigma_clip_groups fo P nints (c_total K) = true <-> by_clipping fo P kd nints ng nr nc gdq.
  Proof.
    rewrite total_usable. unfold check_sigma_clip_groups, by_clipping. destruct (p_onlyints P); cbn [negb andb]; rewrite ?orb_false_r, ?orb_false_l; cbn [orb]; rewrite andb_true_iff, Z.leb_le; reflexivity.
  Qed.
  Lemma single_iff : 0 < nints -> Z.leb (p_singlepass P) (c_min_diffs K) = true <-> by_single_pass fo P kd nints ng nr nc gdq.
  Proof.
    intro Hn. destruct HF as (_ & Hd & _). pose proof (fun i => usable_flagged fo P kd Hd ng nr nc (gdq i)) as HU. unfold groups_all_set_dnu. cbn [c_min_diffs]. rewrite Z.leb_le.
    destruct (max_flagged_spec fo P nints ng nr nc gdq) as [H1 H2]. unfold by_single_pass. split.
    - intros H i Hi. specialize (HU i). specialize (H1 i Hi). lia.
    - intro H. destruct H2 as [H2|(i & Hi & H2)]; [specialize (H 0 Hn); specialize (HU 0); specialize (H1 0 Hn)|specialize (H i Hi); specialize (HU i)]; lia.
  Qed.
  Lemma barred_iff i g r c : has (gdq i g r c) (N.lor (p_sat P) (p_dnu P)) = false <-> ~ barred kd ks gdq i g r c.
  Proof. destruct HF as (_ & Hd & Hs & _). rewrite Hd, Hs, has_or, orb_false_iff. unfold barred. rewrite <- !not_true_iff_false. tauto. Qed.
  Lemma raw_iff i g r c : N.testbit (sigclip_flags fo sigclip P nints (ng - 1) gdq fd i g r c) kj = true <-> clip_raw fo sigclip P kj kd ks nints ng dat gdq i g r c.
  Proof.
    pose proof HF as (Hj & _). unfold sigclip_flags. rewrite Hj, lor_flag_testbit, N.eqb_refl, andb_true_r, orb_true_iff, !andb_true_iff, negb_true_iff, Nat.ltb_lt, Nat.leb_le, barred_iff.
    unfold clip_raw, had. change (fun a b => fd a b r c) with (fun a b => Step a b r c). change (fd i (g - 1) r c) with (Step i (g - 1) r c). intuition lia.
  Qed.
  Lemma raw_other i g r c k : k <> kj -> N.testbit (sigclip_flags fo sigclip P nints (ng - 1) gdq fd i g r c) k = N.testbit (gdq i g r c) k.
  Proof. pose proof HF as (Hj & _). intro Hk. unfold sigclip_flags. apply lor_flag_other with (kj := kj); assumption. Qed.
  Lemma clear_iff i g r c : N.testbit (sigclip_clear fo P nr nc (sigclip_flags fo sigclip P nints (ng - 1) gdq fd) i g r c) kj = true <->
    clip_found fo sigclip P kj kd ks nints ng nr nc dat gdq i g r c.
  Proof.
    pose proof HF as (Hj & Hd & _ & Hjd & _). set (w := sigclip_flags fo sigclip P nints (ng - 1) gdq fd). unfold sigclip_clear, clip_found.
    assert (A : all_pix nr nc (fun r c => has (w i g r c) (N.lor (p_jump P) (p_dnu P))) = true <-> (forall r' c', r' < nr -> c' < nc -> clip_raw fo sigclip P kj kd ks nints ng dat gdq i g r' c' \/ N.testbit (gdq i g r' c') kd = true)).
    { rewrite all_pix_spec. apply iff_trans with (B := forall r' c', r' < nr -> c' < nc -> has (w i g r' c') (N.lor (p_jump P) (p_dnu P)) = true); [reflexivity|].
      split; intros H r' c' R C; specialize (H r' c' R C).
      - rewrite Hj, Hd, has_or, orb_true_iff in H. unfold w in H. rewrite raw_iff, raw_other in H by congruence. exact H.
      - rewrite Hj, Hd, has_or, orb_true_iff. unfold w. rewrite raw_iff, raw_other by congruence. exact H. }
    assert (B : clip_raw fo sigclip P kj kd ks nints ng dat gdq i g r c -> N.eqb (w i g r c) (p_jump P) = true <-> (forall k, k <> kj -> N.testbit (gdq i g r c) k = false)).
    { intro R. rewrite N.eqb_eq, Hj. split.
      - intros E k Hk. rewrite <- (raw_other i g r c k Hk). fold w. rewrite E, bit_testbit. apply N.eqb_neq. congruence.
      - intro H. apply N.bits_inj. intro k. rewrite bit_testbit. destruct (N.eqb_spec kj k) as [<-|N]; [apply raw_iff, R|]. unfold w. rewrite raw_other by congruence. apply H. congruence. }
    destruct (all_pix nr nc _) eqn:E1; cbn [andb].
    - destruct (N.eqb (w i g r c) (p_jump P)) eqn:E2.
      + rewrite N.bits_0. split; [discriminate|]. intros [R H]. exfalso. apply H. split; [apply A; reflexivity|]. apply (B R). reflexivity.
      + unfold w at 1. rewrite raw_iff. split; [|tauto]. intro R. split; [exact R|]. intros [_ H]. apply (B R) in H. congruence.
    - unfold w at 1. rewrite raw_iff. split; [|tauto]. intro R. split; [exact R|]. intros [H _]. apply A in H. congruence.
  Qed.
  Lemma pass_iff i g r c : N.testbit (single_pass fo P (ng - 1) gdq fd md sig i g r c) kj = true <-> pass_found fo med P kj nints ng dat gdq rn i g r c.
  Proof.
    pose proof HF as (Hj & _). unfold single_pass, fgt. rewrite Hj, lor_flag_testbit, N.eqb_refl, andb_true_r, orb_true_iff, !andb_true_iff, Nat.ltb_lt, Nat.leb_le, off_eq.
    unfold pass_found, had. change (fd i (g - 1) r c) with (Step i (g - 1) r c). intuition lia.
  Qed.
  Lemma found_iff i g r c : i < nints -> r < nr -> c < nc -> N.testbit (dt_gdq fo D i g r c) kj = true <-> Found i g r c.
  Proof.
    intros Hi Hr Hc. pose proof clipping_iff as C. pose proof (single_iff ltac:(lia)) as S. unfold D, run_jump_detection. cbn [dt_gdq]. fold fd. fold md. fold sig. unfold found.
    destruct (check_sigma_clip_groups fo P nints (c_total K)).
    - rewrite clear_iff. split; [intro H; left; split; [apply C; reflexivity|exact H]|]. intros [[_ H]|[[H _]|[H _]]]; [exact H|exfalso; apply H, C; reflexivity..].
    - assert (NC : ~ by_clipping fo P kd nints ng nr nc gdq) by (intro H; apply C in H; discriminate). destruct (Z.leb (p_singlepass P) (c_min_diffs K)).
      + rewrite pass_iff. split; [intro H; right; left; split; [exact NC|split; [apply S; reflexivity|exact H]]|]. intros [[H _]|[(_ & _ & H)|(_ & H & _)]]; [exfalso; apply NC, H|exact H|exfalso; apply H, S; reflexivity].
      + assert (NS : ~ by_single_pass fo P kd nints ng nr nc gdq) by (intro H; apply S in H; discriminate).
        rewrite (proj1 (C23_iterative_search fo L HN med P kj kd ks nints (ng - 1) nr nc gdq fd (fun r c => fmul fo (rn r c) (rn r c)) i g r c HF HT Hi Hr Hc)).
        split; [intro H; right; right; split; [exact NC|split; [exact NS|exact H]]|]. intros [[H _]|[(_ & H & _)|(_ & _ & H)]]; [exfalso; apply NC, H|exfalso; apply NS, H|exact H].
  Qed.
End Methods.

(** ** C121 *)
Lemma dec_bit (w : N) k : N.testbit w k = true \/ N.testbit w k = false. Proof. destruct (N.testbit w k); auto. Qed.
(** the group DQ after detection and the two options *)
Theorem C121_find_crs : forall fo, FLaws fo -> fisnan fo (fnan fo) = true ->
  forall med sigclip crowded (P : params fo) kj kd ks nints ng nr nc dat gdq rn i g r c,
  flag_bits P kj kd ks -> thresholds_ok fo P -> i < nints -> g < ng -> r < nr -> c < nc ->
  let out := res_gdq (find_crs fo med sigclip crowded P nints ng nr nc dat gdq rn) in
  (too_few fo P kd nints ng nr nc gdq -> out i g r c = gdq i g r c) /\
  (~ too_few fo P kd nints ng nr nc gdq -> N.testbit (out i g r c) kj = true <-> jump fo med sigclip P kj kd ks nints ng nr nc dat gdq rn i g r c) /\
  (forall k, k <> kj -> N.testbit (out i g r c) k = N.testbit (gdq i g r c) k).
Proof.
  intros fo L HN med sigclip crowded P kj kd ks nints ng nr nc dat gdq rn i g r c HF HT Hi Hg Hr Hc. cbv zeta. pose proof HF as (Hj & Hd & Hs & Hjd & Hjs & Hds).
  pose proof (C22_skip_iff fo P kd nints ng nr nc gdq Hd ltac:(lia)) as SK. fold (too_few fo P kd nints ng nr nc gdq) in SK.
  split; [|split].
  - intro T. apply SK in T. unfold find_crs. rewrite T. reflexivity.
  - intro T. assert (SF : skip fo P nints ng nr nc gdq = false) by (apply not_true_iff_false; intro E; apply T, SK, E).
    unfold find_crs. rewrite SF. set (D := run_jump_detection _ _ _ _ _ _ _ _ _ _ _ _).
    pose proof (fun i g r c => found_iff fo L HN med sigclip P kj kd ks HF HT nints ng nr nc dat gdq rn i g r c) as FI. fold D in FI.
    assert (OT : forall i g r c k, k <> kj -> N.testbit (dt_gdq fo D i g r c) k = N.testbit (gdq i g r c) k) by (intros; apply run_other with (kj := kj); assumption).
    pose proof (off_eq fo med P nints ng dat gdq rn) as OE. cbv zeta in OE. pose proof (md_middle fo med P nints ng dat gdq) as ME. cbv zeta in ME.
    change (median_diffs fo med nints (ng - 1) (first_diffs fo P (mask_data fo P dat gdq))) with (dt_md fo D) in ME, OE.
    (* neighbours *)
    set (Sp := if p_neigh P then fst (fst (four_neighbors fo P (ng - 1) nr nc (dt_gdq fo D) (dt_fd fo D) (dt_md fo D) (dt_sigma fo D))) else dt_gdq fo D).
    assert (SI : forall g0, N.testbit (Sp i g0 r c) kj = true <-> spread fo med sigclip P kj kd ks nints ng nr nc dat gdq rn i g0 r c).
    { intro g0. unfold Sp, spread. destruct (p_neigh P).
      - rewrite (proj1 (C19_four_neighbours fo P kj kd ks (ng - 1) nr nc (dt_gdq fo D) (dt_fd fo D) (dt_md fo D) (dt_sigma fo D) i g0 r c HF Hr Hc)).
        rewrite (FI i g0 r c Hi Hr Hc), !OT by congruence. unfold barred. split.
        + intros [H|(H1 & H2 & H3 & r' & c' & H4 & H5 & H6 & H7)]; [left; exact H|right]. split; [reflexivity|]. split; [exact H1|]. split; [intros [E|E]; congruence|].
          exists r', c'. pose proof H4 as (R' & C' & _). rewrite <- (OE i (g0 - 1) r' c'). split; [exact H4|]. split; [apply FI; assumption|]. split; [exact H6|exact H7].
        + intros [H|(_ & H1 & H2 & r' & c' & H4 & H5 & H6 & H7)]; [left; exact H|right]. split; [exact H1|]. split; [apply not_true_iff_false; tauto|]. split; [apply not_true_iff_false; tauto|].
          exists r', c'. pose proof H4 as (R' & C' & _). rewrite <- (OE i (g0 - 1) r' c') in H6, H7. split; [exact H4|]. split; [apply FI; assumption|]. split; [exact H6|exact H7].
      - rewrite (FI i g0 r c Hi Hr Hc). split; [intro H; left; exact H|]. intros [H|[H _]]; [exact H|discriminate]. }
    assert (SO : forall g0 k, k <> kj -> N.testbit (Sp i g0 r c) k = N.testbit (gdq i g0 r c) k).
    { intros g0 k Hk. unfold Sp. destruct (p_neigh P); [|apply OT, Hk]. rewrite (proj2 (C19_four_neighbours fo P kj kd ks (ng - 1) nr nc (dt_gdq fo D) (dt_fd fo D) (dt_md fo D) (dt_sigma fo D) i g0 r c HF Hr Hc) k Hk). apply OT, Hk. }
    assert (PO : res_gdq (post_processing fo crowded P (ng - 1) nr nc D, count_jumps fo P nints ng nr nc (dt_gdq fo D)) =
      (if Z.ltb 0 (p_n1 P) || Z.ltb 0 (p_n2 P) then transient_jumps fo crowded P (ng - 1 + 1) nr nc Sp (dt_fd fo D) (dt_md fo D) else Sp)).
    { unfold res_gdq, post_processing, Sp. destruct (p_neigh P); cbn [fst snd]; [destruct (four_neighbors _ _ _ _ _ _ _ _ _) as [[? ?] ?]|]; reflexivity. }
    rewrite PO. unfold jump.
    assert (LG : forall e g', (0 < g' /\ fle fo e (fmul fo (fsub fo (dt_fd fo D i (g' - 1) r c) (dt_md fo D r c)) (p_dt P (g' - 1))) = true /\ N.testbit (Sp i g' r c) kj = true) <->
      large fo med sigclip P kj kd ks nints ng nr nc dat gdq rn e i g' r c).
    { intros e g'. rewrite SI, ME. unfold large. change (dt_fd fo D i (g' - 1) r c) with (step fo P dat gdq i (g' - 1) r c). intuition lia. }
    destruct (Z.ltb 0 (p_n1 P) || Z.ltb 0 (p_n2 P)) eqn:EN.
    + rewrite (proj1 (C18_after_jump fo crowded P kj kd ks (ng - 1 + 1) nr nc Sp (dt_fd fo D) (dt_md fo D) i g r c HF ltac:(lia) Hr Hc)). rewrite SI, !SO by congruence. unfold barred. split.
      * intros [H|(H1 & H2 & g' & H3 & H4)]; [left; exact H|right]. split; [intros [E|E]; congruence|]. exists g'. split; [exact H3|]. rewrite <- !LG. exact H4.
      * intros [H|(H1 & g' & H3 & H4)]; [left; exact H|right]. split; [apply not_true_iff_false; tauto|]. split; [apply not_true_iff_false; tauto|]. exists g'. split; [exact H3|]. rewrite <- !LG in H4. exact H4.
    + apply orb_false_iff in EN. rewrite !Z.ltb_ge in EN. rewrite SI. split; [intro H; left; exact H|]. intros [H|(_ & g' & H3 & [(_ & H4)|(_ & H4)])]; [exact H|lia..].
  - intros k Hk. apply find_crs_other with (kj := kj); assumption.
Qed.
Print Assumptions C121_find_crs.
(** the number returned: the groups flagged by the detection itself, before neighbours and later groups; -99 when there is not enough data *)
Theorem C121_count : forall fo, FLaws fo -> fisnan fo (fnan fo) = true ->
  forall med sigclip crowded (P : params fo) kj kd ks nints ng nr nc dat gdq rn (f : nat -> nat -> nat -> nat -> bool),
  flag_bits P kj kd ks -> thresholds_ok fo P -> 0 < nints ->
  (forall i g r c, i < nints -> g < ng -> r < nr -> c < nc -> f i g r c = true <-> found fo med sigclip P kj kd ks nints ng nr nc dat gdq rn i g r c) ->
  let n := snd (find_crs fo med sigclip crowded P nints ng nr nc dat gdq rn) in
  (too_few fo P kd nints ng nr nc gdq -> n = (-99)%Z) /\
  (~ too_few fo P kd nints ng nr nc gdq -> n = Z.of_nat (length (filter (fun x => f (fst (fst (fst x))) (snd (fst (fst x))) (snd (fst x)) (snd x))
     (list_prod (list_prod (list_prod (seq 0 nints) (seq 0 ng)) (seq 0 nr)) (seq 0 nc))))).
Proof.
  intros fo L HN med sigclip crowded P kj kd ks nints ng nr nc dat gdq rn f HF HT Hn Hf. cbv zeta. pose proof HF as (Hj & Hd & _).
  pose proof (C22_skip_iff fo P kd nints ng nr nc gdq Hd Hn) as SK. fold (too_few fo P kd nints ng nr nc gdq) in SK. split.
  - intro T. apply SK in T. unfold find_crs. rewrite T. reflexivity.
  - intro T. assert (SF : skip fo P nints ng nr nc gdq = false) by (apply not_true_iff_false; intro E; apply T, SK, E). unfold find_crs. rewrite SF. cbn [snd].
    set (D := run_jump_detection _ _ _ _ _ _ _ _ _ _ _ _). unfold count_jumps. f_equal.
    assert (E : forall i g r c, i < nints -> g < ng -> r < nr -> c < nc -> has (dt_gdq fo D i g r c) (p_jump P) = f i g r c).
    { intros i g r c I G R C. apply eq_iff_eq_true. rewrite Hj, has_bit, (Hf i g r c I G R C). apply (found_iff fo L HN med sigclip P kj kd ks HF HT); assumption. }
    assert (LP : forall (A B : Type) (p : A * B -> bool) la lb, length (filter p (list_prod la lb)) = list_sum (map (fun a => length (filter (fun b => p (a, b)) lb)) la)).
    { intros A B p la lb. induction la as [|a la IH]; [reflexivity|]. cbn [list_prod map list_sum fold_right]. rewrite filter_app, app_length, IH. f_equal. clear. induction lb as [|b lb IH]; [reflexivity|]. cbn. destruct (p (a, b)); cbn; rewrite IH; reflexivity. }
    assert (LS : forall (A B : Type) (h : A * B -> nat) la lb, list_sum (map h (list_prod la lb)) = list_sum (map (fun a => list_sum (map (fun b => h (a, b)) lb)) la)).
    { intros A B h la lb. induction la as [|a la IH]; [reflexivity|]. cbn [list_prod]. rewrite map_app, list_sum_app, IH. cbn [map list_sum fold_right]. f_equal. rewrite map_map. reflexivity. }
    assert (SM : forall (h h' : nat -> nat) n, (forall x, x < n -> h x = h' x) -> list_sum (map h (seq 0 n)) = list_sum (map h' (seq 0 n))).
    { intros h h' n H. f_equal. apply map_ext_in. intros x X. apply in_seq in X. apply H. lia. }
    rewrite LP, LS, LS. cbn [fst snd]. apply SM. intros i I. apply SM. intros g G. apply SM. intros r R. unfold count_if. f_equal. apply filter_ext_in'. intros c C. apply in_seq in C. apply E; lia.
Qed.
Print Assumptions C121_count.
(** one integration of six groups, three pixels in a row; the middle one jumps by 100 in group 3, the right one is saturated there *)
Definition js_dat : arr4 B64 := fun _ g _ c => z64 (Z.of_nat g * 10 + if Nat.eqb c 1 && Nat.leb 3 g then 100 else 0).
Definition js_gdq : arr4 N := fun _ g _ c => if Nat.eqb c 2 && Nat.leb 3 g then 2%N else 0%N.
Definition js_show (P : params B64) (sg : bool -> nat -> nat -> (nat -> nat -> B64) -> nat -> nat -> bool) : list (list N) * Z :=
  let x := find_crs B64 med64 sg nocrowd P 1 6 1 3 js_dat js_gdq (fun _ _ => z64 5) in (map (fun c => map (fun g => res_gdq x 0 g 0 c) (seq 0 6)) (seq 0 3), snd x).
Definition js_P (single minsig : Z) : params B64 := let P := exP 3 minsig true in
  {| p_dnu := p_dnu P; p_sat := p_sat P; p_jump := p_jump P; p_thresh := p_thresh P; p_thresh3 := p_thresh3 P; p_thresh2 := p_thresh2 P;
     p_neigh := true; p_maxneigh := p_maxneigh P; p_minneigh := p_minneigh P; p_n1 := 1; p_n2 := 0; p_e1 := z64 50; p_e2 := z64 3000;
     p_mingroups := 3; p_minsigclip := minsig; p_onlyints := true; p_singlepass := single; p_dt := p_dt P; p_nreads := p_nreads P; p_uniform := true |}.
Example C121_example : flag_bits (js_P 1 100) 2 0 1 /\ thresholds_ok B64 (js_P 1 100) /\ FLaws B64 /\ ~ too_few B64 (js_P 1 100) 0 1 6 1 3 js_gdq /\
  (by_single_pass B64 (js_P 1 100) 0 1 6 1 3 js_gdq /\ ~ by_clipping B64 (js_P 1 100) 0 1 6 1 3 js_gdq /\ js_show (js_P 1 100) nosig = ([[0; 0; 0; 4; 0; 0]; [0; 0; 0; 4; 4; 0]; [0; 0; 0; 2; 2; 2]]%N, 1%Z)) /\
  (~ by_single_pass B64 (js_P 9 100) 0 1 6 1 3 js_gdq /\ js_show (js_P 9 100) nosig = ([[0; 0; 0; 4; 0; 0]; [0; 0; 0; 4; 4; 0]; [0; 0; 0; 2; 2; 2]]%N, 1%Z)) /\
  (by_clipping B64 (js_P 1 1) 0 1 6 1 3 js_gdq /\ js_show (js_P 1 1) (fun _ _ _ d i j => flt B64 (z64 50) (d i j)) = ([[0; 0; 0; 4; 0; 0]; [0; 0; 0; 4; 4; 0]; [0; 0; 0; 2; 2; 2]]%N, 1%Z)).
Proof.
  destruct exP_flags as (H1 & H2 & H3 & _). split; [exact H1|]. split; [exact H2|]. split; [exact H3|].
  split; [intros [(i & I & E) _]; destruct i; [vm_compute in E; discriminate|lia]|].
  split; [split; [intros i I; destruct i; [vm_compute; reflexivity|lia]|split; [intros [_ H]; vm_compute in H; apply H; reflexivity|vm_compute; reflexivity]]|].
  split; [split; [intro H; specialize (H 0 ltac:(lia)); vm_compute in H; discriminate|vm_compute; reflexivity]|].
  split; [split; [reflexivity|vm_compute; discriminate]|vm_compute; reflexivity].
Qed.
