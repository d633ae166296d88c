(** C122: exactly which groups the jump step flags when only the two-point difference method is on. *)
From Coq Require Import String.
From Verif Require Import Base BaseLemmas FLaws JumpModel JumpSpec JumpProofs JumpStage JumpProps SnowModel SnowProps MpModel MpProofs JdModel JdProps JsProps.
Notation length := List.length.
Local Open Scope nat_scope.

(** the parameters of the two-point difference method that an exposure asks for: thresholds as they are, after-jump limits in electrons
    by the typical gain [tg], at least three groups in one process *)
Definition average {fo : FOps} (l : list fo) : fo := fdiv fo (fold_left (fadd fo) l (fzero fo)) (fofZ fo (Z.of_nat (length l))).
Record asks {fo} (J : jump_data fo) (ng : nat) (tg : fo) (P : params fo) : Prop := {
  ask_thresh : p_thresh P = j_rej J; ask_three : p_thresh2 P = j_three J; ask_four : p_thresh3 P = j_four J;
  ask_neigh : p_neigh P = j_neigh J; ask_max : p_maxneigh P = j_maxneigh J; ask_min : p_minneigh P = j_minneigh J;
  ask_n1 : p_n1 P = j_n1 J; ask_n2 : p_n2 P = j_n2 J; ask_e1 : p_e1 P = fmul fo (j_dn1 J) tg; ask_e2 : p_e2 P = fmul fo (j_dn2 J) tg;
  ask_ming : p_mingroups P = 3%Z; ask_clip : p_minsigclip P = j_minsigclip J; ask_ints : p_onlyints P = j_onlyints J; ask_pass : p_singlepass P = j_singlepass J;
  ask_flags : p_dnu P = s_dnu (j_snow J) /\ p_sat P = s_sat (j_snow J) /\ p_jump P = s_jump (j_snow J);
  (** the time and the number of reads of difference [j] *)
  ask_times : match j_pattern J with
    | None => forall j, p_dt P j = fone fo /\ p_nreads P j = fmul fo (fmul fo (fone fo) (fofZ fo 2)) (fofZ fo (Z.of_nat (j_nframes J)))
    | Some q => length q = ng -> forall j, j + 1 < ng -> p_dt P j = fsub fo (average (nth (j + 1) q [])) (average (nth j q [])) /\ p_nreads P j = fofZ fo (Z.of_nat (length (nth (j + 1) q []) + length (nth j q [])))
    end }.
Lemma nth_pairs {A B} (f : A -> A -> B) a d l : forall j, j + 1 < length l -> nth j (pairs f l) d = f (nth j l a) (nth (j + 1) l a).
Proof.
  induction l as [|x [|y l] IH]; intros j H; [cbn in H; lia|cbn in H; lia|]. destruct j as [|j]; [reflexivity|].
  cbn [pairs]. transitivity (nth j (pairs f (y :: l)) d); [reflexivity|]. rewrite (IH j) by (cbn [length] in *; lia). reflexivity.
Qed.
Lemma pairs_len {A B} (f : A -> A -> B) l : length (pairs f l) = length l - 1.
Proof. induction l as [|x [|y l] IH]; [reflexivity|reflexivity|]. cbn [pairs length] in *. lia. Qed.
Lemma along_nth fo n l h j : along fo n l = Some h -> j < n -> length l = n -> h j = nth j l (fnan fo).
Proof.
  unfold along. intros A Hj Hn. destruct l as [|x [|y l]].
  - cbn in Hn. lia.
  - injection A as <-. cbn in Hn. replace j with 0 by lia. reflexivity.
  - rewrite Hn, Nat.eqb_refl in A. injection A as <-. change (nth j (x :: y :: l) x = nth j (x :: y :: l) (fnan fo)). apply nth_indep. lia.
Qed.

(** In one process, with neither snowballs nor showers: a group has JUMP_DET afterwards exactly when it is neither DO_NOT_USE nor SATURATED and the
    specification of C121 finds it in the data and read noise in electrons - or, with too few groups, when it had it before. *)
Theorem C122_groups : forall fo, FLaws fo -> fisnan fo (fnan fo) = true ->
  forall med sigclip crowded rnd disk sr jr inside reg mean kj kd ks nints ng nr nc available (J : jump_data fo) s g p total ev,
  step_flags J kj kd ks -> j_large J = false -> j_showers J = false ->
  flt fo (j_rej J) (fzero fo) = false -> flt fo (j_three J) (fzero fo) = false -> flt fo (j_four J) (fzero fo) = false ->
  j_cores J = Some s -> compute_num_cores s nr available = 1 ->
  detect_jumps_data fo med sigclip crowded rnd disk sr jr inside reg mean nints ng nr nc available J = Some (g, p, total, ev) ->
  exists P, asks J ng (match filter (fun x => negb (fisnan fo x)) (flat_map (fun r => map (j_gain J r) (seq 0 nc)) (seq 0 nr)) with [] => fnan fo | l => med l end) P /\
  let dat := fun i k r c => fmul fo (j_data J i k r c) (j_gain J r c) in let rn := fun r c => fmul fo (j_rn J r c) (j_gain J r c) in
  forall i k r c, i < nints -> k < ng -> r < nr -> c < nc ->
  N.testbit (g i k r c) kj = true <->
    N.testbit (j_gdq J i k r c) kd = false /\ N.testbit (j_gdq J i k r c) ks = false /\
    (too_few fo P kd nints ng nr nc (j_gdq J) /\ N.testbit (j_gdq J i k r c) kj = true \/
     ~ too_few fo P kd nints ng nr nc (j_gdq J) /\ jump fo med sigclip P kj kd ks nints ng nr nc dat (j_gdq J) rn i k r c).
Proof.
  intros fo L HN med sigclip crowded rnd disk sr jr inside reg mean kj kd ks nints ng nr nc available J s g p total ev HF HL HSh T1 T3 T4 HC H1 H.
  destruct (run_parts fo med sigclip crowded rnd disk sr jr inside reg mean nints ng nr nc available J _ H) as (dt & nreads & u & cores & e & (t & TT & A1 & A2 & _) & HC' & _ & X & E).
  rewrite HC in HC'. injection HC' as <-. rewrite H1 in *. unfold extended in X. rewrite HL, HSh in X. cbn [bind] in X. injection X as <-. injection E as -> -> -> ->. cbn [fst].
  set (P0 := two_point fo med nr nc J dt nreads u) in *. exists (with_mingroups fo P0 3). split.
  { split; try reflexivity; [repeat split; reflexivity|]. cbn [with_mingroups P0 two_point p_dt p_nreads]. unfold timing in TT. destruct (j_pattern J) as [q|].
    - injection TT as <-. cbn [fst snd] in *. intros Hq j Hj. split.
      + rewrite (along_nth _ _ _ _ j A1) by (rewrite ?pairs_len, ?map_length; lia). rewrite (nth_pairs _ (mean_of fo [])) by (rewrite map_length; lia). rewrite !(map_nth (mean_of fo)). reflexivity.
      + rewrite (along_nth _ _ _ _ j A2) by (rewrite ?map_length, ?pairs_len, ?map_length; lia). rewrite (nth_indep _ _ (fofZ fo (Z.of_nat 0))) by (rewrite map_length, pairs_len, map_length; lia).
        rewrite (map_nth (fun n => fofZ fo (Z.of_nat n))), (nth_pairs _ (@length fo [])) by (rewrite map_length; lia). rewrite !(map_nth (@length fo)). reflexivity.
    - destruct (Nat.eqb (j_nframes J) 0); [discriminate|]. injection TT as <-. cbn [fst snd along] in *. injection A1 as <-. injection A2 as <-. intro j. split; reflexivity. }
  cbv zeta. intros i k r c Hi Hk Hr Hc.
  pose proof (step_flag_bits fo med nr nc J dt nreads u kj kd ks HF) as FB. fold P0 in FB. pose proof HF as [Hj Hd Hs Hjd Hjs Hds].
  unfold detection_stage. cbn [Nat.eqb]. change (electrons fo J) with (fun i k r c => fmul fo (j_data J i k r c) (j_gain J r c)). change (noise_e fo J) with (fun r c => fmul fo (j_rn J r c) (j_gain J r c)).
  pose proof (C121_find_crs fo L HN med sigclip crowded (with_mingroups fo P0 3) kj kd ks nints ng nr nc (fun i k r c => fmul fo (j_data J i k r c) (j_gain J r c)) (j_gdq J) (fun r c => fmul fo (j_rn J r c) (j_gain J r c)) i k r c
    FB ltac:(repeat split; assumption) Hi Hk Hr Hc) as (K1 & K2 & K3).
  set (out := res_gdq _) in *. assert (ST : N.testbit (strip fo P0 out i k r c) kj = N.testbit (out i k r c) kj && negb (N.testbit (out i k r c) kd) && negb (N.testbit (out i k r c) ks)).
  { pose proof FB as (Fj & Fd & Fs & Q1 & Q2 & Q3). rewrite (strip_testbit fo P0 kj kd ks) by assumption. rewrite N.eqb_refl. cbn [andb]. rewrite negb_orb, andb_assoc. reflexivity. }
  rewrite ST, (K3 kd), (K3 ks) by congruence. rewrite !andb_true_iff, !negb_true_iff.
  assert (TF : too_few fo (with_mingroups fo P0 3) kd nints ng nr nc (j_gdq J) \/ ~ too_few fo (with_mingroups fo P0 3) kd nints ng nr nc (j_gdq J)).
  { pose proof (C22_skip_iff fo (with_mingroups fo P0 3) kd nints ng nr nc (j_gdq J) Hd ltac:(lia)) as SK. fold (too_few fo (with_mingroups fo P0 3) kd nints ng nr nc (j_gdq J)) in SK.
    destruct (skip fo (with_mingroups fo P0 3) nints ng nr nc (j_gdq J)); [left; apply SK; reflexivity|right; intro Q; apply SK in Q; discriminate]. }
  destruct TF as [T|T].
  - rewrite (K1 T). tauto.
  - rewrite (K2 T). tauto.
Qed.
Print Assumptions C122_groups.

(** a cosmic ray of 600 electrons in group 5 of the first row: group 5 is flagged, its specification is met *)
Example C122_groups_example : let J := exJ excr exclean false false (z64 2) (Some "1"%string) in
  step_flags J 2 0 1 /\ compute_num_cores "1" 2 4 = 1 /\ j_large J = false /\ j_showers J = false /\
  flt B64 (j_rej J) (fzero B64) = false /\ flt B64 (j_three J) (fzero B64) = false /\ flt B64 (j_four J) (fzero B64) = false /\
  exw (exstep 12 2 1 J) 5 0 = Some (4%N, 1%Z, 0) /\ exw (exstep 12 2 1 J) 5 1 = Some (0%N, 1%Z, 0).
Proof. cbv zeta. split; [apply exJ_flags|]. do 6 (split; [reflexivity|]). split; vm_compute; reflexivity. Qed.
