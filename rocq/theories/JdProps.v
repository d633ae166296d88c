(** C122: the jump step as a whole. *)
From Coq Require Import String.
From Verif Require Import Base BaseLemmas FLaws JumpModel JumpSpec JumpProofs JumpIter JumpStage JumpProps SnowModel SnowSpec SnowProofs SnowProps ShModel MpModel MpProofs JdModel JdProofs.
From Coq Require Import ZifyBool ZifyNat ZifyN.
Notation length := List.length.
Local Open Scope nat_scope.

(** the DQ flags are three different bits *)
Record step_flags {fo} (J : jump_data fo) (kj kd ks : N) : Prop := {
  sf_jump : s_jump (j_snow J) = bit kj; sf_dnu : s_dnu (j_snow J) = bit kd; sf_sat : s_sat (j_snow J) = bit ks;
  sf_jd : kj <> kd; sf_js : kj <> ks; sf_ds : kd <> ks }.
Lemma step_flag_bits fo med nr nc (J : jump_data fo) dt nreads u kj kd ks : step_flags J kj kd ks -> flag_bits (two_point fo med nr nc J dt nreads u) kj kd ks.
Proof. intros [A B C D E F]. repeat split; assumption. Qed.
Lemma with_mingroups_bits fo (P : params fo) z kj kd ks : flag_bits P kj kd ks -> flag_bits (with_mingroups fo P z) kj kd ks.
Proof. exact (fun H => H). Qed.
Lemma stage_pass fo med sigclip crowded P nints ng nr nc dat gdq rn n :
  strip fo P (fst (two_point_pass fo med sigclip crowded P nints ng nr nc dat gdq rn n)) = detection_stage fo med sigclip crowded P nints ng nr nc dat gdq rn n.
Proof. unfold two_point_pass, detection_stage. destruct (Nat.eqb n 1); reflexivity. Qed.

(** what the step computes, without the bookkeeping *)
Section Run.
  Variable fo : FOps.
  Variable med : list fo -> fo.
  Variable sigclip : bool -> nat -> nat -> (nat -> nat -> fo) -> nat -> nat -> bool.
  Variable crowded : nat -> nat -> nat -> cube bool -> bool.
  Variable rnd : fo -> Z.
  Variable disk : Z -> Z -> fo -> Z -> Z -> bool.
  Variable sr jr : img bool -> list (ellipse fo).
  Variable inside : fo * fo -> ellipse fo -> bool.
  Variable reg : img fo -> arr4 fo -> arr4 N -> img N -> nat -> nat -> list (ellipse fo).
  Variable mean : list fo -> fo.
  Notation RUN := (detect_jumps_data fo med sigclip crowded rnd disk sr jr inside reg mean).
  Notation EXT := (extended fo rnd disk sr jr inside reg mean).
  Lemma run_parts nints ng nr nc available J x : RUN nints ng nr nc available J = Some x ->
    exists dt nreads u cores e, let P := two_point fo med nr nc J dt nreads u in
      (exists t, timing fo (j_nframes J) (j_pattern J) = Some t /\ along fo (ng - 1) (fst t) = Some dt /\ along fo (ng - 1) (snd t) = Some nreads /\ u = no_spread fo (snd t) && no_spread fo (fst t)) /\
      j_cores J = Some cores /\ let n := compute_num_cores cores nr available in 1 <= n <= nr /\
      EXT nints ng nr nc J (data_after fo P nints ng nr nc (electrons fo J) (j_gdq J) n) (setup_pdq fo (j_ngv J) (s_dnu (j_snow J)) (j_gain J) (j_pdq J))
        (detection_stage fo med sigclip crowded P nints ng nr nc (electrons fo J) (j_gdq J) (noise_e fo J) n) = Some e /\
      x = (fst e, setup_pdq fo (j_ngv J) (s_dnu (j_snow J)) (j_gain J) (j_pdq J),
           snd (two_point_pass fo med sigclip crowded P nints ng nr nc (electrons fo J) (j_gdq J) (noise_e fo J) n), snd e).
  Proof.
    unfold detect_jumps_data. destruct (timing fo (j_nframes J) (j_pattern J)) as [t|] eqn:T; [|discriminate]. cbn [bind].
    destruct (along fo (ng - 1) (fst t)) as [dt|] eqn:A1; [|discriminate]. cbn [bind]. destruct (along fo (ng - 1) (snd t)) as [nreads|] eqn:A2; [|discriminate]. cbn [bind].
    destruct (j_cores J) as [cores|] eqn:C; [|discriminate]. cbn [bind]. set (u := no_spread fo (snd t) && no_spread fo (fst t)). set (P := two_point fo med nr nc J dt nreads u).
    set (n := compute_num_cores cores nr available). destruct (Nat.eqb_spec n 0) as [E0|E0]; [discriminate|].
    destruct (two_point_pass fo med sigclip crowded P nints ng nr nc (electrons fo J) (j_gdq J) (noise_e fo J) n) as [g1 total] eqn:TP.
    assert (SG : strip fo P g1 = detection_stage fo med sigclip crowded P nints ng nr nc (electrons fo J) (j_gdq J) (noise_e fo J) n) by (rewrite <- stage_pass, TP; reflexivity).
    rewrite SG. destruct (EXT _ _ _ _ _ _ _ _) as [e|] eqn:X; [|discriminate]. cbn [bind]. intros [= <-].
    exists dt, nreads, u, cores, e. cbv zeta. fold P. fold n. split; [exists t; auto|]. split; [reflexivity|].
    destruct (num_cores_le cores nr available) as [LE _]. fold n in LE. split; [lia|]. split; [exact X|]. rewrite TP. reflexivity.
  Qed.
  (** conversely *)
  Lemma run_some nints ng nr nc available J dt nreads cores t e :
    timing fo (j_nframes J) (j_pattern J) = Some t -> along fo (ng - 1) (fst t) = Some dt -> along fo (ng - 1) (snd t) = Some nreads ->
    let P := two_point fo med nr nc J dt nreads (no_spread fo (snd t) && no_spread fo (fst t)) in
    j_cores J = Some cores -> let n := compute_num_cores cores nr available in n <> 0 ->
    EXT nints ng nr nc J (data_after fo P nints ng nr nc (electrons fo J) (j_gdq J) n) (setup_pdq fo (j_ngv J) (s_dnu (j_snow J)) (j_gain J) (j_pdq J))
        (detection_stage fo med sigclip crowded P nints ng nr nc (electrons fo J) (j_gdq J) (noise_e fo J) n) = Some e ->
    RUN nints ng nr nc available J = Some (fst e, setup_pdq fo (j_ngv J) (s_dnu (j_snow J)) (j_gain J) (j_pdq J),
           snd (two_point_pass fo med sigclip crowded P nints ng nr nc (electrons fo J) (j_gdq J) (noise_e fo J) n), snd e).
  Proof.
    intros T A1 A2. cbv zeta. intros C E0. unfold detect_jumps_data. rewrite T. cbn [bind]. rewrite A1. cbn [bind]. rewrite A2. cbn [bind]. rewrite C. cbn [bind].
    set (P := two_point fo med nr nc J dt nreads _). set (n := compute_num_cores cores nr available) in *. destruct (Nat.eqb_spec n 0); [contradiction|].
    rewrite <- stage_pass. destruct (two_point_pass fo med sigclip crowded P nints ng nr nc (electrons fo J) (j_gdq J) (noise_e fo J) n) as [g1 total]. cbn [fst snd]. intro X.
    rewrite X. reflexivity.
  Qed.
End Run.

(** ** Which flags change *)
(** Without snowball expansion the step changes no group flag but JUMP_DET.  Without showers as well it never leaves JUMP_DET on a
    saturated or unusable group and reports no extended event.  The pixel flags gain NO_GAIN_VALUE and DO_NOT_USE exactly where the gain is
    not a positive number. *)
Theorem C122_flags : forall fo, FLaws fo -> fisnan fo (fnan fo) = true ->
  forall med sigclip crowded rnd disk sr jr inside reg mean kj kd ks kn nints ng nr nc available (J : jump_data fo) g p total ev,
  step_flags J kj kd ks -> j_ngv J = bit kn -> within_radius disk -> j_large J = false ->
  detect_jumps_data fo med sigclip crowded rnd disk sr jr inside reg mean nints ng nr nc available J = Some (g, p, total, ev) ->
  (forall i k r c, r < nr -> c < nc ->
    (forall b, b <> kj -> N.testbit (g i k r c) b = N.testbit (j_gdq J i k r c) b) /\
    (j_showers J = false -> N.testbit (g i k r c) kj = true -> N.testbit (g i k r c) kd = false /\ N.testbit (g i k r c) ks = false)) /\
  (j_showers J = false -> ev = 0) /\
  (forall r c b, N.testbit (p r c) b = N.testbit (j_pdq J r c) b || (negb (flt fo (fzero fo) (j_gain J r c)) && (N.eqb b kn || N.eqb b kd))).
Proof.
  intros fo L HN med sigclip crowded rnd disk sr jr inside reg mean kj kd ks kn nints ng nr nc available J g p total ev HF Hkn HW HL H.
  destruct (run_parts fo med sigclip crowded rnd disk sr jr inside reg mean nints ng nr nc available J _ H) as (dt & nreads & u & cores & e & (t & _) & HC & Hn & X & E).
  set (P := two_point fo med nr nc J dt nreads u) in *. set (n := compute_num_cores cores nr available) in *.
  injection E as -> -> -> ->. pose proof (step_flag_bits fo med nr nc J dt nreads u kj kd ks HF) as FB. fold P in FB. pose proof HF as [Hj Hd Hs Hjd Hjs Hds].
  unfold extended in X. rewrite HL in X. cbn [bind fst] in X.
  set (g2 := detection_stage fo med sigclip crowded P nints ng nr nc (electrons fo J) (j_gdq J) (noise_e fo J) n) in *.
  assert (D1 : forall i k r c b, r < nr -> b <> kj -> N.testbit (g2 i k r c) b = N.testbit (j_gdq J i k r c) b) by (intros; apply C20_only_jump_changes with (kj := kj) (kd := kd) (ks := ks); assumption).
  split; [|split].
  - intros i k r c Hr Hc. destruct (j_showers J) eqn:SH; injection X as <-.
    + split; [|discriminate]. intros b Hb. rewrite <- (D1 i k r c b Hr Hb).
      apply (C60_shower_only_adds_jump fo L HN (j_snow J) kj ks kd rnd disk (reg (noise_e fo J)) mean nints ng nr nc _ _ _ ltac:(split; assumption) HW i k r c Hr Hc). exact Hb.
    + cbn [fst]. split; [intros b Hb; apply D1; assumption|]. intros _. apply (C20_no_jump_on_unusable fo med sigclip crowded P kj kd ks nints ng nr nc _ _ _ n i k r c FB).
  - intro SH. rewrite SH in X. injection X as <-. reflexivity.
  - intros r c b. rewrite Hkn, Hd. destruct (C63_bad_gain fo L kn kd (j_gain J) (j_pdq J) r c) as [A B]. destruct (flt fo (fzero fo) (j_gain J r c)); cbn [negb andb].
    + rewrite A by reflexivity. rewrite orb_false_r. reflexivity.
    + destruct (B eq_refl) as (B1 & B2 & B3). destruct (N.eqb_spec b kn) as [->|]; [rewrite B1, orb_true_r; reflexivity|]. destruct (N.eqb_spec b kd) as [->|]; [rewrite B2, orb_true_r; reflexivity|].
      rewrite orb_false_r. apply B3; assumption.
Qed.
Print Assumptions C122_flags.

(** ** One process or several *)
(** the same settings with another request for processors (jump_class.py line 225) *)
Definition with_cores {fo} (J : jump_data fo) (s : string) : jump_data fo :=
  {| j_data := j_data J; j_gdq := j_gdq J; j_pdq := j_pdq J; j_gain := j_gain J; j_rn := j_rn J; j_nframes := j_nframes J; j_pattern := j_pattern J; j_ngv := j_ngv J;
     j_rej := j_rej J; j_three := j_three J; j_four := j_four J; j_neigh := j_neigh J; j_maxneigh := j_maxneigh J; j_minneigh := j_minneigh J; j_dn1 := j_dn1 J; j_n1 := j_n1 J;
     j_dn2 := j_dn2 J; j_n2 := j_n2 J; j_mingroups := j_mingroups J; j_minsigclip := j_minsigclip J; j_onlyints := j_onlyints J; j_singlepass := j_singlepass J;
     j_large := j_large J; j_showers := j_showers J; j_snow := j_snow J; j_cores := Some s |}.

Lemma list_sum_add {A} (f g : A -> nat) l : list_sum (map (fun x => f x + g x) l) = list_sum (map f l) + list_sum (map g l).
Proof. induction l as [|x l IH]; [reflexivity|]. unfold list_sum in *. cbn. lia. Qed.
Lemma list_sum_swap {A B} (h : A -> B -> nat) la lb : list_sum (map (fun a => list_sum (map (h a) lb)) la) = list_sum (map (fun b => list_sum (map (fun a => h a b) la)) lb).
Proof.
  induction la as [|a la IH].
  - induction lb as [|b lb IHb]; [reflexivity|]. unfold list_sum in *. cbn in *. exact IHb.
  - cbn [map]. change (list_sum (?x :: ?l)) with (x + list_sum l). rewrite IH, <- list_sum_add. reflexivity.
Qed.
(** the counts by rows *)
Lemma count_by_rows fo (P : params fo) nints ng nr nc gdq : count_jumps fo P nints ng nr nc gdq =
  Z.of_nat (list_sum (map (fun r => list_sum (map (fun i => list_sum (map (fun g => count_if (fun c => has (gdq i g r c) (p_jump P)) (seq 0 nc)) (seq 0 ng))) (seq 0 nints))) (seq 0 nr))).
Proof.
  unfold count_jumps. f_equal. symmetry. rewrite list_sum_swap. f_equal. apply map_ext. intro i. apply list_sum_swap.
Qed.
Lemma reassemble_total nrows yinc n res gdq : snd (reassemble nrows yinc n res gdq) = fold_right (fun x t => (snd x + t)%Z) 0%Z res.
Proof.
  unfold reassemble. set (f := fun (st : arr4 N * row3 * Z) (kr : nat * result) => _).
  assert (G : forall l a k st, let '(_, _, t) := fold_left f (combine (seq k (length l)) l) (st, a) in t = (a + fold_right (fun x t => (snd x + t)%Z) 0%Z l)%Z).
  { induction l as [|x l IH]; intros a k [g prev]; [cbn; lia|]. cbn [length seq combine fold_left fold_right]. unfold f at 2. specialize (IH (a + snd x)%Z (S k)).
    set (g2 := if Nat.eqb k 0 then _ else _). specialize (IH (g2, res_above x)). destruct (fold_left f (combine (seq (S k) (length l)) l) (g2, res_above x, (a + snd x)%Z)) as [[? ?] ?]. lia. }
  specialize (G res 0%Z 0 (gdq, fun _ _ _ => 0%N)). destruct (fold_left f _ _) as [[? ?] ?]. cbn [snd]. lia.
Qed.

Section Count.
  Variable fo : FOps.
  Variable L : FLaws fo.
  Hypothesis HN : fisnan fo (fnan fo) = true.
  Variable med : list fo -> fo.
  Variable sigclip : bool -> nat -> nat -> (nat -> nat -> fo) -> nat -> nat -> bool.
  Variable crowded : nat -> nat -> nat -> cube bool -> bool.
  Variable P : params fo.
  Variables kj kd ks : N.
  Hypothesis HF : flag_bits P kj kd ks.
  Hypothesis HT : thresholds_ok fo P.
  Variables nints ng nrows ncols n : nat.
  Variable dat : arr4 fo.
  Variable gdq : arr4 N.
  Variable rn : img fo.
  Hypothesis NC : check_sigma_clip_groups fo P nints (c_total (groups_all_set_dnu fo P nints ng nrows ncols gdq)) = false.
  Hypothesis Hn : 1 <= n <= nrows.
  Hypothesis SD : same_dnu kd nints ng nrows ncols gdq n.
  (** the slices find as many cosmic rays as the frame; when there are too few groups every slice reports -99 *)
  Lemma multi_count : snd (twopoint_diff_multi fo med sigclip crowded P nints ng nrows ncols dat gdq rn n) =
    if skip fo P nints ng nrows ncols gdq then (-99 * Z.of_nat n)%Z else snd (find_crs fo med sigclip crowded P nints ng nrows ncols dat gdq rn).
  Proof.
    pose proof HF as (Hj & Hd & Hs & Hjd & Hjs & Hds). unfold twopoint_diff_multi. rewrite reassemble_total.
    assert (SL : forall b, In b (slice_bounds nrows n) -> skip fo P nints ng (snd b) ncols (rows4 (fst b) gdq) = skip fo P nints ng nrows ncols gdq /\
        groups_all_set_dnu fo P nints ng (snd b) ncols (rows4 (fst b) gdq) = groups_all_set_dnu fo P nints ng nrows ncols gdq /\ fst b + snd b <= nrows).
    { intros b Hb. apply (In_nth _ _ (0, 0)) in Hb. destruct Hb as (q & Hq & Eq). rewrite slice_bounds_length in Hq by assumption. rewrite slice_bounds_nth in Eq by assumption. subst b. cbn [fst snd].
      pose proof (slice_counts fo P nrows n Hn kd Hd nints ng ncols gdq SD q Hq) as SC. pose proof (slice_end_le nrows n Hn q Hq) as [A B].
      split; [unfold skip; rewrite SC; reflexivity|]. split; [exact SC|]. lia. }
    destruct (skip fo P nints ng nrows ncols gdq) eqn:SK.
    - assert (G : forall l, (forall b, In b l -> In b (slice_bounds nrows n)) ->
        fold_right (fun x t => (snd x + t)%Z) 0%Z (map (fun b => find_crs fo med sigclip crowded P nints ng (snd b) ncols (rows4 (fst b) dat) (rows4 (fst b) gdq) (rows_from (fst b) rn)) l) = (-99 * Z.of_nat (length l))%Z).
      { induction l as [|b l IH]; intro HI; [reflexivity|]. cbn [map fold_right length]. rewrite IH by (intros; apply HI; right; assumption).
        unfold find_crs. destruct (SL b (HI b (or_introl eq_refl))) as [E _]. rewrite E. cbn [snd]. lia. }
      rewrite (G _ (fun b H => H)), slice_bounds_length by assumption. reflexivity.
    - set (D := run_jump_detection fo med sigclip P nints (ng - 1) nrows ncols dat gdq (fun r c => fmul fo (rn r c) (rn r c)) (groups_all_set_dnu fo P nints ng nrows ncols gdq)).
      set (F := fun r => list_sum (map (fun i => list_sum (map (fun g => count_if (fun c => has (dt_gdq fo D i g r c) (p_jump P)) (seq 0 ncols)) (seq 0 ng))) (seq 0 nints))).
      assert (E1 : snd (find_crs fo med sigclip crowded P nints ng nrows ncols dat gdq rn) = Z.of_nat (list_sum (map F (seq 0 nrows)))).
      { unfold find_crs. rewrite SK. cbn [snd]. rewrite count_by_rows. reflexivity. }
      rewrite E1, <- (C21_rows_once_in_order nrows n Hn).
      assert (G : forall l, (forall b, In b l -> In b (slice_bounds nrows n)) ->
        fold_right (fun x t => (snd x + t)%Z) 0%Z (map (fun b => find_crs fo med sigclip crowded P nints ng (snd b) ncols (rows4 (fst b) dat) (rows4 (fst b) gdq) (rows_from (fst b) rn)) l) =
        Z.of_nat (list_sum (map F (flat_map (fun b => seq (fst b) (snd b)) l)))).
      { induction l as [|b l IH]; intro HI; [reflexivity|]. cbn [map fold_right flat_map]. rewrite IH by (intros; apply HI; right; assumption).
        rewrite map_app, list_sum_app, Nat2Z.inj_add. f_equal. destruct (SL b (HI b (or_introl eq_refl))) as (S1 & S2 & S3).
        unfold find_crs. rewrite S1. cbn [snd]. rewrite S2. rewrite count_by_rows. f_equal. f_equal.
        assert (SQ : seq (fst b) (snd b) = map (fun r => fst b + r) (seq 0 (snd b))).
        { clear. generalize (snd b). intro m. generalize (fst b). intro a. revert a. induction m as [|m IHm]; intro a; [reflexivity|]. cbn [seq map]. f_equal; [lia|].
          rewrite (IHm (S a)). rewrite <- seq_shift, map_map. apply map_ext. intro. lia. }
        rewrite SQ, map_map. apply map_ext_in. intros r Hr. apply in_seq in Hr. unfold F. f_equal. apply map_ext_in. intros i Hi. apply in_seq in Hi. f_equal. apply map_ext. intro g.
        unfold count_if. f_equal. apply filter_ext_in'. intros c Hc. apply in_seq in Hc. f_equal.
        apply (core_local fo L HN med sigclip crowded P kj kd ks Hj Hd Hs Hjd Hjs HT nints ng nrows ncols dat gdq rn NC (fst b) (snd b) i g r c S3); lia. }
      apply G. auto.
  Qed.
End Count.

(** a group word that has DO_NOT_USE or SATURATED, no JUMP_DET and nothing else is one of the words that are blanked for the shower search *)
Lemma plain_blanked {fo} (P : snow fo) kj kd ks (d : arr4 fo) (g : arr4 N) i k r c :
  s_dnu P = bit kd -> s_sat P = bit ks -> kd <> ks ->
  N.testbit (g i k r c) kj = false -> (forall b, b <> kj -> b <> kd -> b <> ks -> N.testbit (g i k r c) b = false) ->
  N.testbit (g i k r c) kd = true \/ N.testbit (g i k r c) ks = true -> nan_invalid fo P d g i k r c = fnan fo.
Proof.
  intros Hd Hs Hds H1 H2 H3. unfold nan_invalid. set (w := g i k r c) in *. rewrite Hd, Hs.
  assert (E : w = N.lor (flag_if (N.testbit w kd) (bit kd)) (flag_if (N.testbit w ks) (bit ks))).
  { apply N.bits_inj. intro b. rewrite N.lor_spec, !flag_if_testbit, !bit_testbit. destruct (N.eqb_spec kd b) as [<-|A]; [rewrite andb_true_r; destruct (N.eqb_spec ks kd); [congruence|]; rewrite andb_false_r, orb_false_r; reflexivity|].
    rewrite andb_false_r. destruct (N.eqb_spec ks b) as [<-|B]; [rewrite andb_true_r; reflexivity|]. rewrite andb_false_r. cbn [orb].
    destruct (N.eqb_spec b kj) as [->|C]; [exact H1|]. apply H2; congruence. }
  assert (S : (bit ks + bit kd)%N = N.lor (bit kd) (bit ks)).
  { rewrite N.add_nocarry_lxor.
    - apply N.bits_inj. intro b. rewrite N.lxor_spec, N.lor_spec, !bit_testbit. destruct (N.eqb_spec ks b), (N.eqb_spec kd b); try reflexivity. congruence.
    - apply N.bits_inj. intro b. rewrite N.land_spec, !bit_testbit, N.bits_0. destruct (N.eqb_spec ks b), (N.eqb_spec kd b); try reflexivity. congruence. }
  destruct (N.testbit w kd), (N.testbit w ks); cbn [flag_if] in E; rewrite ?N.lor_0_r, ?N.lor_0_l in E; [| | |destruct H3; discriminate].
  - rewrite <- S in E. rewrite E, N.eqb_refl, ?orb_true_r. reflexivity.
  - rewrite E, N.eqb_refl, ?orb_true_r. reflexivity.
  - rewrite E, N.eqb_refl, ?orb_true_r. reflexivity.
Qed.

(** With the conditions under which the detection itself does not depend on the slicing (C21), and - if showers are searched - no
    snowball expansion and no group flags other than DO_NOT_USE, SATURATED and JUMP_DET, the number of processes changes nothing: not the flags, not the number
    of extended events and, unless there are too few groups, not the number of cosmic rays. *)
Theorem C122_cores : forall fo, FLaws fo -> fisnan fo (fnan fo) = true ->
  forall med sigclip crowded rnd disk sr jr inside reg mean kj kd ks nints ng nr nc (J : jump_data fo) s1 a1 s2 a2 g1 p1 t1 e1,
  step_flags J kj kd ks -> 0 < nints ->
  flt fo (j_rej J) (fzero fo) = false -> flt fo (j_three J) (fzero fo) = false -> flt fo (j_four J) (fzero fo) = false ->
  j_mingroups J = 3%Z -> (j_n1 J <= 0)%Z -> (j_n2 J <= 0)%Z ->
  (if j_onlyints J then Z.of_nat nints < j_minsigclip J else Z.of_nat (nints * ng) < j_minsigclip J)%Z ->
  looks_at_frame nr nc sr -> looks_at_frame nr nc jr ->
  (forall rn d d' g g' p p' i k, i < nints -> same4 nints nr nc d d' -> same4 nints nr nc g g' -> same2 nr nc p p' -> reg rn d g p i k = reg rn d' g' p' i k) ->
  same_dnu kd nints ng nr nc (j_gdq J) (compute_num_cores s1 nr a1) -> same_dnu kd nints ng nr nc (j_gdq J) (compute_num_cores s2 nr a2) ->
  compute_num_cores s2 nr a2 <> 0 ->
  (j_showers J = true -> j_large J = false /\ forall i k r c b, i < nints -> r < nr -> c < nc -> b <> kj -> b <> kd -> b <> ks -> N.testbit (j_gdq J i k r c) b = false) ->
  detect_jumps_data fo med sigclip crowded rnd disk sr jr inside reg mean nints ng nr nc a1 (with_cores J s1) = Some (g1, p1, t1, e1) ->
  exists g2 t2, detect_jumps_data fo med sigclip crowded rnd disk sr jr inside reg mean nints ng nr nc a2 (with_cores J s2) = Some (g2, p1, t2, e1) /\
    same4 nints nr nc g1 g2 /\ ((forall i, i < nints -> 3 <= n_usable kd ng nr nc (j_gdq J i)) -> t1 = t2).
Proof.
  intros fo L HN med sigclip crowded rnd disk sr jr inside reg mean kj kd ks nints ng nr nc J s1 a1 s2 a2 g1 p1 t1 e1 HF Hni T1 T3 T4 Hmg Hn1 Hn2 Hsc Fs Fj FR SD1 SD2 N2 HS H.
  destruct (run_parts _ _ _ _ _ _ _ _ _ _ _ nints ng nr nc a1 _ _ H) as (dt & nreads & u & cores & e & (t & TT & A1 & A2 & U) & HC & Hn & X & E).
  cbn [with_cores j_cores j_nframes j_pattern] in HC, TT. injection HC as <-.
  change (two_point fo med nr nc (with_cores J s1) dt nreads u) with (two_point fo med nr nc J dt nreads u) in *.
  change (electrons fo (with_cores J s1)) with (electrons fo J) in *. change (noise_e fo (with_cores J s1)) with (noise_e fo J) in *.
  cbn [with_cores j_gdq j_ngv j_snow j_gain j_pdq] in X, E.
  set (P := two_point fo med nr nc J dt nreads u) in *. set (n1 := compute_num_cores s1 nr a1) in *. set (n2 := compute_num_cores s2 nr a2) in *.
  assert (Hn' : 1 <= n2 <= nr) by (destruct (num_cores_le s2 nr a2) as [LE _]; fold n2 in LE; lia).
  set (pdq := setup_pdq fo (j_ngv J) (s_dnu (j_snow J)) (j_gain J) (j_pdq J)) in *.
  pose proof (step_flag_bits fo med nr nc J dt nreads u kj kd ks HF) as FB. fold P in FB. pose proof HF as [Hj Hd Hs Hjd Hjs Hds].
  set (ST := fun n => detection_stage fo med sigclip crowded P nints ng nr nc (electrons fo J) (j_gdq J) (noise_e fo J) n).
  set (DA := fun n => data_after fo P nints ng nr nc (electrons fo J) (j_gdq J) n).
  change (extended fo rnd disk sr jr inside reg mean nints ng nr nc (with_cores J s1) (DA n1) pdq (ST n1) = Some e) in X.
  assert (TO : thresholds_ok fo P) by (repeat split; assumption).
  assert (CL : p_uniform P = false \/ (p_onlyints P = true /\ (Z.of_nat nints < p_minsigclip P)%Z) \/ (p_onlyints P = false /\ (Z.of_nat (nints * ng) < p_minsigclip P)%Z)).
  { right. cbn. destruct (j_onlyints J); auto. }
  assert (S1 : forall n, 1 <= n <= nr -> same_dnu kd nints ng nr nc (j_gdq J) n -> same4 nints nr nc (ST n) (ST 1)).
  { intros n Hq SD i k r c Hi Hr Hc. apply (C21_multi_equals_single fo L HN med sigclip crowded P kj kd ks); assumption. }
  assert (S12 : same4 nints nr nc (ST n1) (ST n2)).
  { eapply same4_trans; [apply S1; assumption|]. intros i k r c Hi Hr Hc. symmetry. apply S1; assumption. }
  (* the extended events *)
  assert (EX : exists e', extended fo rnd disk sr jr inside reg mean nints ng nr nc (with_cores J s2) (DA n2) pdq (ST n2) = Some e' /\ same4 nints nr nc (fst e) (fst e') /\ snd e = snd e').
  { unfold extended in *. cbn [with_cores j_large j_showers j_snow] in *.
    change (noise_e fo (with_cores J s1)) with (noise_e fo J) in X. change (noise_e fo (with_cores J s2)) with (noise_e fo J).
    destruct (j_showers J) eqn:SH.
    - destruct (HS eq_refl) as [LF PW]. rewrite LF in *. cbn [bind fst] in *. injection X as <-.
      eexists. split; [reflexivity|].
      assert (OTH : forall n i k r c b, 1 <= n <= nr -> r < nr -> b <> kj -> N.testbit (ST n i k r c) b = N.testbit (j_gdq J i k r c) b) by (intros; apply C20_only_jump_changes with (kj := kj) (kd := kd) (ks := ks); assumption).
      assert (FLG : forall i k r c, r < nr -> has (j_gdq J i k r c) (N.lor (p_dnu P) (p_sat P)) = true -> forall n, 1 <= n <= nr -> has (ST n i k r c) (N.lor (s_dnu (j_snow J)) (s_sat (j_snow J))) = true).
      { intros i k r c Hr HH n Hq. cbn [p_dnu p_sat P two_point] in HH. rewrite Hd, Hs, has_or in *. rewrite !OTH by (assumption || congruence). exact HH. }
      assert (BL : forall n d i k r c, 1 <= n <= nr -> i < nints -> r < nr -> c < nc -> has (j_gdq J i k r c) (N.lor (p_dnu P) (p_sat P)) = true -> nan_invalid fo (j_snow J) d (ST n) i k r c = fnan fo).
      { intros n d i k r c Hq Hi Hr Hc HH. pose proof (FLG i k r c Hr HH n Hq) as F. rewrite Hd, Hs, has_or, orb_true_iff in F.
        apply (plain_blanked (j_snow J) kj kd ks); try assumption.
        - destruct (N.testbit (ST n i k r c) kj) eqn:EJ; [|reflexivity]. exfalso.
          destruct (C20_no_jump_on_unusable fo med sigclip crowded P kj kd ks nints ng nr nc (electrons fo J) (j_gdq J) (noise_e fo J) n i k r c FB EJ) as [Z1 Z2].
          change (N.testbit (ST n i k r c) kd = false) in Z1. change (N.testbit (ST n i k r c) ks = false) in Z2. destruct F; congruence.
        - intros b B1 B2 B3. rewrite OTH by assumption. apply PW; assumption. }
      assert (DD : forall n i k r c, DA n i k r c = electrons fo J i k r c \/ has (j_gdq J i k r c) (N.lor (p_dnu P) (p_sat P)) = true).
      { intros n i k r c. unfold DA, data_after. destruct (Nat.eqb n 1 && _); [|left; reflexivity]. unfold mask_data. destruct (has _ _); auto. }
      apply (shower_same nints nr nc fo (j_snow J) kj ks Hj Hs Hjs rnd disk ng kd Hd mean (reg (noise_e fo J)) (FR (noise_e fo J))); [exact S12|intros r c _ _; reflexivity| |].
      + intros i k r c Hi Hr Hc. destruct (has (j_gdq J i k r c) (N.lor (p_dnu P) (p_sat P))) eqn:HH.
        * rewrite !BL by assumption. reflexivity.
        * unfold nan_invalid. rewrite (S12 i k r c) by assumption. destruct (DD n1 i k r c) as [->|]; [|congruence]. destruct (DD n2 i k r c) as [->|]; [|congruence]. reflexivity.
      + intros i k r c Hi Hr Hc. destruct (has (j_gdq J i k r c) (N.lor (p_dnu P) (p_sat P))) eqn:HH.
        * right. apply FLG; assumption.
        * left. destruct (DD n1 i k r c) as [->|]; [|congruence]. destruct (DD n2 i k r c) as [->|]; [|congruence]. reflexivity.
    - destruct (j_large J).
      + pose proof (snow_same nints nr nc fo (j_snow J) kj ks Hj Hs Hjs rnd disk sr jr inside Fs Fj ng (ST n1) (ST n2) S12) as SS.
        destruct (flag_large_events _ _ _ _ _ _ _ _ _ _ _ (ST n1)) as [[x m]|], (flag_large_events _ _ _ _ _ _ _ _ _ _ _ (ST n2)) as [[y m']|]; try discriminate; [|destruct SS].
        cbn [bind] in *. injection X as <-. exists (y, m'). split; [reflexivity|]. exact SS.
      + cbn [bind] in *. injection X as <-. exists (ST n2, 0). split; [reflexivity|]. split; [exact S12|reflexivity]. }
  destruct EX as (e' & X' & SF & SN). injection E as -> -> -> ->.
  exists (fst e'), (snd (two_point_pass fo med sigclip crowded P nints ng nr nc (electrons fo J) (j_gdq J) (noise_e fo J) n2)).
  split; [|split; [exact SF|]].
  - rewrite SN. subst u. exact (run_some fo med sigclip crowded rnd disk sr jr inside reg mean nints ng nr nc a2 (with_cores J s2) dt nreads s2 t e' TT A1 A2 eq_refl N2 X').
  - intro US. assert (EP : with_mingroups fo P 3 = P) by (unfold P, two_point, with_mingroups; cbn; rewrite Hmg; reflexivity).
    assert (NC : check_sigma_clip_groups fo P nints (c_total (groups_all_set_dnu fo P nints ng nr nc (j_gdq J))) = false).
    { unfold check_sigma_clip_groups. apply andb_false_intro2. assert (TOT : (c_total (groups_all_set_dnu fo P nints ng nr nc (j_gdq J)) <= Z.of_nat (nints * ng))%Z) by (unfold groups_all_set_dnu; cbn [c_total]; lia).
      destruct CL as [C|[[C1 C2]|[C1 C2]]]; [clear C; change (p_onlyints P) with (j_onlyints J); change (p_minsigclip P) with (j_minsigclip J); clear -Hsc TOT; destruct (j_onlyints J); cbn [andb negb orb]|rewrite C1; cbn [andb negb orb]|rewrite C1; cbn [andb negb orb]];
      rewrite ?orb_false_r; apply Z.leb_gt; lia. }
    assert (SK : skip fo P nints ng nr nc (j_gdq J) = false).
    { apply not_true_iff_false. intro K. apply (C22_skip_iff fo P kd) in K; [|exact Hd|exact Hni]. destruct K as [(i & Hi & K) _]. specialize (US i Hi). change (p_mingroups P) with (j_mingroups J) in K. lia. }
    assert (TC : forall n, 1 <= n <= nr -> same_dnu kd nints ng nr nc (j_gdq J) n -> snd (two_point_pass fo med sigclip crowded P nints ng nr nc (electrons fo J) (j_gdq J) (noise_e fo J) n) = snd (find_crs fo med sigclip crowded P nints ng nr nc (electrons fo J) (j_gdq J) (noise_e fo J))).
    { intros n Hq SD. unfold two_point_pass. rewrite EP. destruct (Nat.eqb n 1); [reflexivity|]. rewrite (multi_count fo L HN med sigclip crowded P kj kd ks FB TO nints ng nr nc n _ _ _ NC Hq SD), SK. reflexivity. }
    rewrite !TC by assumption. reflexivity.
Qed.
Print Assumptions C122_cores.

(** ** Examples and what is not true *)
Section ExJ.
  Local Open Scope Z_scope.
  Definition exJ (dat : arr4 B64) (gdq : arr4 N) (large showers : bool) (amp : B64) (cores : option string) : jump_data B64 := {|
    j_data := dat; j_gdq := gdq; j_pdq := fun _ _ => 0%N; j_gain := fun _ _ => z64 2; j_rn := fun _ _ => z64 1;
    j_nframes := 1; j_pattern := None; j_ngv := bit 19; j_rej := z64 4; j_three := z64 6; j_four := z64 5;
    j_neigh := false; j_maxneigh := z64 200; j_minneigh := z64 10; j_dn1 := z64 500; j_n1 := 0; j_dn2 := z64 1500; j_n2 := 0;
    j_mingroups := 3; j_minsigclip := 100; j_onlyints := true; j_singlepass := 1;
    j_large := large; j_showers := showers;
    j_snow := {| s_jump := bit 2; s_sat := bit 1; s_dnu := bit 0; s_ref := bit 31; s_required := false; s_minrad := z64 2; s_satexpand := z64 2;
      s_maxwidth := z64 200; s_expand := z64 2; s_edge := 0; s_mask_next := true; s_persist := 3; s_shower_expand := z64 1;
      s_shower_grps := 1; s_maxamp := amp |};
    j_cores := cores |}.
End ExJ.
(** one region covering the frame as soon as any pixel is above the threshold *)
Definition exfind (nr nc : nat) (m : img bool) : list (ellipse B64) :=
  if any_pix nr nc m then [{| e_col := z64 0; e_row := z64 0; e_h := z64 4; e_w := z64 4; e_angle := z64 0 |}] else [].
(** a shower search that looks at one pixel: the step from the previous group differs by more than 10 from 20 electrons and the group is not flagged *)
Definition exshow (rn : img B64) (dat : arr4 B64) (gdq : arr4 N) (pdq : img N) (i g : nat) : list (ellipse B64) :=
  if N.eqb (gdq i g 0 0) 0 && flt B64 (z64 10) (fabs B64 (fsub B64 (fsub B64 (dat i g 0 0) (dat i (g - 1) 0 0)) (z64 20)))
  then [{| e_col := z64 0; e_row := z64 0; e_h := z64 4; e_w := z64 4; e_angle := z64 0 |}] else [].
Definition exstep (ng nr nc : nat) (J : jump_data B64) := detect_jumps_data B64 med64 nosig nocrowd zr ellZ (fun _ => []) (fun p => exfind nr nc p) exinside exshow exmean 1 ng nr nc 4 J.
Definition exrow (ng : nat) (x : option (arr4 N * img N * Z * nat)) (r : nat) : option (list N * Z * nat) :=
  match x with Some (g, _, t, e) => Some (map (fun k => g 0 k r 0) (seq 0 ng), t, e) | None => None end.
Definition exw (x : option (arr4 N * img N * Z * nat)) (k r : nat) : option (N * Z * nat) :=
  match x with Some (g, _, t, e) => Some (g 0 k r 0, t, e) | None => None end.
(** 20 electrons a group and 12 more (a faint shower) in group 6 of the first row *)
Definition exfaint : arr4 B64 := fun i g r c => z64 (10 * Z.of_nat g + (if Nat.leb 6 g && Nat.eqb r 0 then 6 else 0)).
(** 300 DN cosmic ray *)
Definition excr : arr4 B64 := fun i g r c => z64 (10 * Z.of_nat g + (if Nat.leb 5 g && Nat.eqb r 0 then 300 else 0)).
Definition exodd : arr4 B64 := fun i g r c => z64 (10 * Z.of_nat g + (if Nat.eqb g 5 && Nat.eqb r 0 then 300 else 0)).
Definition exclean : arr4 N := fun _ _ _ _ => 0%N.
Definition exfloor : arr4 N := fun i g r c => if Nat.eqb g 5 && Nat.eqb r 0 then 65%N else 0%N.
Definition exunused : arr4 N := fun i g r c => if Nat.eqb g 6 && Nat.eqb r 1 then 1%N else 0%N.

Lemma exJ_flags dat gdq l s a c : step_flags (exJ dat gdq l s a c) 2 0 1.
Proof. split; reflexivity || discriminate. Qed.
(** a cosmic ray in group 5 of the first row: found with one process and with two *)
Example C122_cores_example : let J := exJ excr exclean false false (z64 2) None in
  step_flags J 2 0 1 /\ looks_at_frame 2 1 (exfind 2 1) /\ same_dnu 0 1 12 2 1 (j_gdq J) 2 /\ same_dnu 0 1 12 2 1 (j_gdq J) 1 /\ (forall i, i < 1 -> 3 <= n_usable 0 12 2 1 (j_gdq J i)) /\
  compute_num_cores "2" 2 4 = 2 /\
  exw (exstep 12 2 1 (with_cores J "1")) 5 0 = Some (4%N, 1%Z, 0) /\ exw (exstep 12 2 1 (with_cores J "2")) 5 0 = Some (4%N, 1%Z, 0).
Proof.
  cbv zeta. split; [apply exJ_flags|]. split.
  { intros p q H. unfold exfind. replace (any_pix 2 1 p) with (any_pix 2 1 q); [reflexivity|]. unfold any_pix. cbn. rewrite !H by lia. reflexivity. }
  assert (SD : forall n, n = 1 \/ n = 2 -> same_dnu 0 1 12 2 1 exclean n).
  { intros n Hn b i g Hb _ _ H. exfalso. assert (S : 0 < snd b) by (destruct Hn as [->| ->]; destruct Hb as [<-|Hb]; [cbn; lia|destruct Hb|cbn; lia|destruct Hb as [<-|[]]; cbn; lia]). specialize (H 0 0 S ltac:(lia)). discriminate. }
  split; [apply (SD 2); auto|]. split; [apply (SD 1); auto|]. split; [intros i Hi; replace i with 0 by lia; apply Nat.leb_le; vm_compute; reflexivity|].
  split; [reflexivity|]. split; vm_compute; reflexivity.
Qed.
(** with showers it can matter: a group that carries DO_NOT_USE and another flag is blanked for the search in one process only *)
Theorem C122_cores_showers_refuted : exists J g1 p1 t1 e1 g2 p2 t2 e2,
  step_flags J 2 0 1 /\ j_large J = false /\ j_showers J = true /\
  exstep 12 2 1 (with_cores J "1") = Some (g1, p1, t1, e1) /\ exstep 12 2 1 (with_cores J "2") = Some (g2, p2, t2, e2) /\
  t1 = t2 /\ g1 0 6 0 0 = 0%N /\ g2 0 6 0 0 = 4%N /\ e1 = 0 /\ e2 = 1.
Proof.
  exists (exJ exodd exfloor false true (z64 1000) None).
  destruct (exstep 12 2 1 (with_cores (exJ exodd exfloor false true (z64 1000) None) "1")) as [[[[g1 p1] t1] e1]|] eqn:E1; [|apply (f_equal (fun x => exw x 6 0)) in E1; vm_compute in E1; discriminate].
  destruct (exstep 12 2 1 (with_cores (exJ exodd exfloor false true (z64 1000) None) "2")) as [[[[g2 p2] t2] e2]|] eqn:E2; [|apply (f_equal (fun x => exw x 6 0)) in E2; vm_compute in E2; discriminate].
  exists g1, p1, t1, e1, g2, p2, t2, e2.
  assert (A : exw (Some (g1, p1, t1, e1)) 6 0 = Some (0%N, 0%Z, 0)) by (rewrite <- E1; vm_compute; reflexivity).
  assert (B : exw (Some (g2, p2, t2, e2)) 6 0 = Some (4%N, 0%Z, 1)) by (rewrite <- E2; vm_compute; reflexivity).
  cbn [exw] in A, B. injection A as A1 A2 A3. injection B as B1 B2 B3. split; [apply exJ_flags|]. repeat split; congruence.
Qed.
Print Assumptions C122_cores_showers_refuted.
(** when there are too few groups every process reports -99 *)
Theorem C122_skipped_count_refuted : exists J, step_flags J 2 0 1 /\
  exw (exstep 2 2 1 (with_cores J "1")) 0 0 = Some (0%N, (-99)%Z, 0) /\ exw (exstep 2 2 1 (with_cores J "2")) 0 0 = Some (0%N, (-198)%Z, 0).
Proof. exists (exJ excr exclean false false (z64 2) None). split; [apply exJ_flags|]. split; vm_compute; reflexivity. Qed.
Print Assumptions C122_skipped_count_refuted.
(** with both searches on, the reported number of extended events does not include the snowballs *)
Theorem C122_events_refuted : exists J J', j_large J = true /\ j_showers J = false /\ j_large J' = true /\ j_showers J' = true /\
  j_data J = j_data J' /\ j_gdq J = j_gdq J' /\ j_snow J = j_snow J' /\
  exw (exstep 12 2 1 J) 5 0 = Some (4%N, 1%Z, 1) /\ exw (exstep 12 2 1 J') 5 0 = Some (4%N, 1%Z, 0).
Proof. exists (exJ excr exclean true false (z64 2) (Some "1"%string)), (exJ excr exclean true true (z64 2) (Some "1"%string)). do 7 (split; [reflexivity|]). split; vm_compute; reflexivity. Qed.
Print Assumptions C122_events_refuted.
(** a shower puts JUMP_DET on a DO_NOT_USE group *)
Theorem C122_jump_on_dnu_refuted : exists J, step_flags J 2 0 1 /\ j_gdq J 0 6 1 0 = 1%N /\ exw (exstep 12 2 1 J) 6 1 = Some (5%N, 0%Z, 1).
Proof. exists (exJ exfaint exunused false true (z64 1000) (Some "1"%string)). split; [apply exJ_flags|]. split; [reflexivity|]. vm_compute. reflexivity. Qed.
Print Assumptions C122_jump_on_dnu_refuted.

(** ** When there is a result at all *)
Lemma events_defined fo P rnd disk sr jr inside nints ng nr nc gdq : 3 <= ng -> flag_large_events fo P rnd disk sr jr inside nints ng nr nc gdq <> None.
Proof.
  intro Hg. set (ST := step fo P rnd disk sr jr inside ng nr nc).
  assert (ONE : forall i st g, snd (fst st) <> None \/ g < ng - 1 -> exists st', ST i st g = Some st' /\ snd (fst st') <> None).
  { intros i [[[q per] nxt] tot] g H. cbn [fst snd] in H. unfold ST, step.
    match goal with |- context [match ?X with Some nx => _ | None => None end] => assert (NN : X <> None) by (destruct (Nat.ltb_spec g (ng - 1)); [discriminate|destruct H; [assumption|lia]]); destruct X as [nx|]; [|congruence] end.
    destruct (if s_required P then _ else _) as [[x y] z0]. eexists. split; [reflexivity|]. discriminate. }
  assert (MANY : forall i l st, snd (fst st) <> None -> exists st', foldM (ST i) l st = Some st').
  { intros i l. induction l as [|g l IH]; intros st H; [exists st; reflexivity|]. cbn [foldM]. destruct (ONE i st g (or_introl H)) as (st' & -> & H'). cbn [bind]. exact (IH st' H'). }
  assert (ALL : forall i st, exists st', foldM (ST i) (seq 1 (ng - 1)) st = Some st').
  { intros i st. assert (SQ : seq 1 (ng - 1) = 1 :: seq 2 (ng - 2)) by (replace (ng - 1) with (S (ng - 2)) by lia; reflexivity). rewrite SQ. cbn [foldM]. destruct (ONE i st 1) as (st' & -> & H'); [right; lia|]. cbn [bind]. exact (MANY i _ st' H'). }
  unfold flag_large_events, events. fold ST.
  match goal with |- context [foldM ?f (seq 0 nints) ?x] => assert (X : forall l st, exists st', foldM f l st = Some st') end.
  { induction l as [|i l IH]; intro st; [exists st; reflexivity|]. cbn [foldM]. destruct st as [[[q per] nxt] tot].
    destruct (ALL i (q, per i, nxt, tot)) as ([[[q' p'] n'] t'] & E). rewrite E. cbn [bind]. apply IH. }
  match goal with |- context [foldM ?f (seq 0 nints) ?x] => destruct (X (seq 0 nints) x) as ([[[q p] n] t] & E) end.
  rewrite E. cbn [bind]. discriminate.
Qed.
(** No result: an unset number of processes (the value of a new JumpData), a request that means no process at all, no frames per group
    without a read pattern, or a read pattern that does not match the number of groups.  (With two groups a snowball search fails, C24_two_groups_fail.) *)
Theorem C122_defined : forall fo med sigclip crowded rnd disk sr jr inside reg mean nints ng nr nc available (J : jump_data fo),
  3 <= ng ->
  (detect_jumps_data fo med sigclip crowded rnd disk sr jr inside reg mean nints ng nr nc available J <> None <->
   (exists s, j_cores J = Some s /\ compute_num_cores s nr available <> 0) /\
   match j_pattern J with None => j_nframes J <> 0 | Some p => length p = ng \/ length p = 2 end).
Proof.
  intros fo med sigclip crowded rnd disk sr jr inside reg mean nints ng nr nc available J Hg.
  assert (PL : forall A B (f : A -> A -> B) l, length (pairs f l) = length l - 1).
  { intros A B f l. induction l as [|x [|y l] IH]; [reflexivity|reflexivity|]. cbn [pairs length] in *. lia. }
  assert (AL : forall l, along fo (ng - 1) l <> None <-> length l = ng - 1 \/ length l = 1).
  { intro l. unfold along. destruct l as [|x [|y l]].
    - destruct (Nat.eqb_spec (length (@nil fo)) (ng - 1)); cbn [length] in *; split; intros; try congruence; lia.
    - cbn [length]. split; [auto|discriminate].
    - destruct (Nat.eqb_spec (length (x :: y :: l)) (ng - 1)) as [E|E]; split; intros; try congruence; try discriminate; try (left; assumption). destruct H; [congruence|cbn in H; lia]. }
  assert (EX : forall d p g, extended fo rnd disk sr jr inside reg mean nints ng nr nc J d p g <> None).
  { intros d p g. unfold extended. destruct (j_large J); [|cbn [bind]; discriminate]. pose proof (events_defined fo (j_snow J) rnd disk sr jr inside nints ng nr nc g Hg) as HL. destruct (flag_large_events _ _ _ _ _ _ _ _ _ _ _ g); [cbn [bind]; discriminate|congruence]. }
  assert (ML : forall p : list (list fo), length (map (fun n => fofZ fo (Z.of_nat n)) (pairs (fun a b => (b + a)%nat) (map (@length fo) p))) = length p - 1) by (intro p; rewrite map_length, PL, map_length; reflexivity).
  assert (MD : forall p : list (list fo), length (pairs (fun a b => fsub fo b a) (map (mean_of fo) p)) = length p - 1) by (intro p; rewrite PL, map_length; reflexivity).
  unfold detect_jumps_data.
  assert (TM : forall t, timing fo (j_nframes J) (j_pattern J) = Some t ->
     (along fo (ng - 1) (fst t) <> None /\ along fo (ng - 1) (snd t) <> None <-> match j_pattern J with None => j_nframes J <> 0 | Some p => length p = ng \/ length p = 2 end)).
  { intros t T. rewrite !AL. unfold timing in T. destruct (j_pattern J) as [p|].
    - injection T as <-. cbn [fst snd]. rewrite ML, MD. lia.
    - destruct (Nat.eqb_spec (j_nframes J) 0); [discriminate|]. injection T as <-. cbn [fst snd length]. split; [intros _; assumption|auto]. }
  assert (TN : timing fo (j_nframes J) (j_pattern J) = None -> ~ match j_pattern J with None => j_nframes J <> 0 | Some p => length p = ng \/ length p = 2 end).
  { unfold timing. destruct (j_pattern J); [discriminate|]. destruct (Nat.eqb_spec (j_nframes J) 0); [congruence|discriminate]. }
  destruct (timing fo (j_nframes J) (j_pattern J)) as [t|]; [|cbn [bind]; split; [congruence|intros [_ H]; destruct (TN eq_refl H)]].
  specialize (TM t eq_refl). clear TN. cbn [bind].
  destruct (along fo (ng - 1) (fst t)) as [dt|]; [|cbn [bind]; split; [congruence|intros [_ H]; apply TM in H; destruct H; congruence]].
  destruct (along fo (ng - 1) (snd t)) as [nr'|]; [|cbn [bind]; split; [congruence|intros [_ H]; apply TM in H; destruct H; congruence]].
  cbn [bind]. destruct (j_cores J) as [s|]; [|cbn [bind]; split; [congruence|intros [(s & H & _) _]; discriminate]].
  cbn [bind]. destruct (Nat.eqb_spec (compute_num_cores s nr available) 0) as [E0|E0]; [split; [congruence|intros [(s' & [= <-] & H) _]; congruence]|].
  destruct (two_point_pass _ _ _ _ _ _ _ _ _ _ _ _ _) as [g1 tot].
  match goal with |- context [bind (extended ?a ?b ?c ?d ?e ?f ?g ?h ?i ?j ?k ?l ?m ?n ?o ?p) _] => specialize (EX n o p) end.
  destruct (extended _ _ _ _ _ _ _ _ _ _ _ _ _ _ _) as [e|]; [|congruence]. cbn [bind]. split; [intros _|intros _ H; discriminate].
  split; [exists s; auto|]. apply TM. split; discriminate.
Qed.
Print Assumptions C122_defined.
Example C122_defined_example :
  exstep 12 2 1 (exJ excr exclean false false (z64 2) None) = None /\ exstep 12 2 1 (exJ excr exclean false false (z64 2) (Some "0"%string)) = None /\
  exw (exstep 12 2 1 (exJ excr exclean false false (z64 2) (Some "none"%string))) 5 0 = Some (4%N, 1%Z, 0).
Proof. split; [reflexivity|]. split; vm_compute; reflexivity. Qed.
