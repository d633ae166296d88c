(** C122: the jump step does not depend on the unit in which counts are given - except for one parameter. *)
From Coq Require Import String Reals Lra FunctionalExtensionality.
From Verif Require Import Base BaseLemmas FLaws RBase RNBase JumpModel JumpSpec JumpProps SnowModel SnowProps MpModel JdModel JdProps.
Notation length := List.length.
Local Open Scope nat_scope.

(** the same exposure counted in units k times smaller: [k] times as many of them, and as many times fewer electrons in each;
    thresholds given in that unit follow.  [amp] is the shower amplitude limit *)
Definition in_units (fo : FOps) (k amp : fo) (J : jump_data fo) : jump_data fo :=
  let S := j_snow J in {|
  j_data := fun i g r c => fmul fo (j_data J i g r c) k; j_gdq := j_gdq J; j_pdq := j_pdq J;
  j_gain := fun r c => fdiv fo (j_gain J r c) k; j_rn := fun r c => fmul fo (j_rn J r c) k;
  j_nframes := j_nframes J; j_pattern := j_pattern J; j_ngv := j_ngv J; j_rej := j_rej J; j_three := j_three J; j_four := j_four J;
  j_neigh := j_neigh J; j_maxneigh := j_maxneigh J; j_minneigh := j_minneigh J;
  j_dn1 := fmul fo (j_dn1 J) k; j_n1 := j_n1 J; j_dn2 := fmul fo (j_dn2 J) k; j_n2 := j_n2 J;
  j_mingroups := j_mingroups J; j_minsigclip := j_minsigclip J; j_onlyints := j_onlyints J; j_singlepass := j_singlepass J;
  j_large := j_large J; j_showers := j_showers J;
  j_snow := {| s_jump := s_jump S; s_sat := s_sat S; s_dnu := s_dnu S; s_ref := s_ref S; s_required := s_required S; s_minrad := s_minrad S; s_satexpand := s_satexpand S;
    s_maxwidth := s_maxwidth S; s_expand := s_expand S; s_edge := s_edge S; s_mask_next := s_mask_next S; s_persist := s_persist S; s_shower_expand := s_shower_expand S;
    s_shower_grps := s_shower_grps S; s_maxamp := amp |};
  j_cores := j_cores J |}.

Lemma rn_scale (k : R) (x y : RN) : (0 < k)%R -> fmul RN (fmul RN x (Some k)) (fdiv RN y (Some k)) = fmul RN x y.
Proof.
  intro K. destruct x as [x|], y as [y|]; cbn; try reflexivity; unfold Reqb; destruct (Req_EM_T k 0); try lra; try reflexivity. cbn. f_equal. field. assumption.
Qed.
(** A median that follows a change of unit. *)
Definition follows_unit (med : list RN -> RN) : Prop := forall (k : R) l, (0 < k)%R -> med (map (fun x => fdiv RN x (Some k)) l) = fdiv RN (med l) (Some k).
Lemma nanmedian_unit med (k : R) (l : list RN) : follows_unit med -> (0 < k)%R -> nanmedian RN med (map (fun x => fdiv RN x (Some k)) l) = fdiv RN (nanmedian RN med l) (Some k).
Proof.
  intros H K. unfold nanmedian.
  assert (E : nonnan RN (map (fun x => fdiv RN x (Some k)) l) = map (fun x => fdiv RN x (Some k)) (nonnan RN l)).
  { assert (D : forall x, fdiv RN (Some x) (Some k) = Some (x / k)%R) by (intro x; cbn; unfold Reqb; destruct (Req_EM_T k 0); [lra|reflexivity]).
    induction l as [|[x|] l IH]; [reflexivity| |exact IH]. unfold nonnan in *. cbn [map filter]. rewrite (D x). cbn [fisnan RN negb map]. rewrite (D x). f_equal. exact IH. }
  rewrite E. destruct (nonnan RN l) as [|x m]; [reflexivity|]. cbn [map]. apply (H k (x :: m) K).
Qed.
Lemma flat2_map (f : RN -> RN) n m d : flat2 RN n m (fun i j => f (d i j)) = map f (flat2 RN n m d).
Proof.
  unfold flat2. induction (seq 0 n) as [|i l IH]; [reflexivity|]. cbn [flat_map]. rewrite map_app, IH, map_map. reflexivity.
Qed.

(** Whatever the unit of the counts: the same flags, the same cosmic rays and the same extended events, provided the shower amplitude limit is NOT converted. *)
Theorem C122_units : forall med sigclip crowded rnd disk sr jr inside reg mean nints ng nr nc available (J : jump_data RN) (k : R),
  follows_unit med -> (0 < k)%R ->
  detect_jumps_data RN med sigclip crowded rnd disk sr jr inside reg mean nints ng nr nc available (in_units RN (Some k) (s_maxamp (j_snow J)) J) =
  detect_jumps_data RN med sigclip crowded rnd disk sr jr inside reg mean nints ng nr nc available J.
Proof.
  intros med sigclip crowded rnd disk sr jr inside reg mean nints ng nr nc available J k HM K. set (J' := in_units RN (Some k) (s_maxamp (j_snow J)) J).
  assert (E1 : electrons RN J' = electrons RN J) by (unfold electrons, J'; cbn [j_data j_gain in_units]; repeat (apply functional_extensionality; intro); apply rn_scale; assumption).
  assert (E2 : noise_e RN J' = noise_e RN J) by (unfold noise_e, J'; cbn [j_rn j_gain in_units]; repeat (apply functional_extensionality; intro); apply rn_scale; assumption).
  assert (E3 : typical_gain RN med nr nc J' = fdiv RN (typical_gain RN med nr nc J) (Some k)).
  { unfold typical_gain, J'. cbn [j_gain in_units]. rewrite (flat2_map (fun x => fdiv RN x (Some k))). apply nanmedian_unit; assumption. }
  assert (E4 : forall dt nreads u, two_point RN med nr nc J' dt nreads u = two_point RN med nr nc J dt nreads u).
  { intros. unfold two_point. rewrite E3. cbn [in_units J' j_dn1 j_dn2]. rewrite !rn_scale by assumption. reflexivity. }
  assert (E5 : setup_pdq RN (j_ngv J') (s_dnu (j_snow J')) (j_gain J') (j_pdq J') = setup_pdq RN (j_ngv J) (s_dnu (j_snow J)) (j_gain J) (j_pdq J)).
  { unfold setup_pdq, J'. cbn [j_ngv j_snow s_dnu j_gain j_pdq in_units]. apply functional_extensionality; intro r. apply functional_extensionality; intro c. destruct (j_gain J r c) as [g|]; cbn; [|reflexivity].
    unfold Reqb. destruct (Req_EM_T k 0); [lra|]. cbn. unfold Rleb.
    destruct (Rle_dec (g / k) 0) as [A|A], (Rle_dec g 0) as [B|B]; try reflexivity; exfalso.
    - apply B. replace g with (g / k * k)%R by (field; lra). nra.
    - apply A. unfold Rdiv. assert (0 < / k)%R by (apply Rinv_0_lt_compat; assumption). nra. }
  assert (E6 : j_snow J' = j_snow J) by (unfold J'; cbn [j_snow in_units]; destruct (j_snow J); reflexivity).
  unfold detect_jumps_data. rewrite E5.
  change (timing RN (j_nframes J') (j_pattern J')) with (timing RN (j_nframes J) (j_pattern J)). change (j_cores J') with (j_cores J). change (j_gdq J') with (j_gdq J).
  destruct (timing RN (j_nframes J) (j_pattern J)) as [t|]; [|reflexivity]. cbn [bind].
  destruct (along RN (ng - 1) (fst t)) as [dt|]; [|reflexivity]. cbn [bind]. destruct (along RN (ng - 1) (snd t)) as [nreads|]; [|reflexivity]. cbn [bind].
  destruct (j_cores J) as [s|]; [|reflexivity]. cbn [bind]. rewrite E4, E1, E2. destruct (Nat.eqb _ 0); [reflexivity|].
  destruct (two_point_pass _ _ _ _ _ _ _ _ _ _ _ _ _) as [g1 tot]. unfold extended. rewrite E2, E6. reflexivity.
Qed.
Print Assumptions C122_units.
Definition ur (x : R) : RN := Some x.
Example C122_units_example : follows_unit (hd (None : RN)) /\
  let J := in_units RN (ur 1) (ur 4) {| j_data := fun i g r c => ur (INR g); j_gdq := fun _ _ _ _ => 0%N; j_pdq := fun _ _ => 0%N; j_gain := fun _ c => if Nat.eqb c 1 then (None : RN) else ur 2;
    j_rn := fun _ _ => ur 5; j_nframes := 1; j_pattern := None; j_ngv := 8; j_rej := ur 4; j_three := ur 6; j_four := ur 5; j_neigh := false; j_maxneigh := ur 200; j_minneigh := ur 10;
    j_dn1 := ur 500; j_n1 := 1; j_dn2 := ur 1000; j_n2 := 2; j_mingroups := 3; j_minsigclip := 100; j_onlyints := true; j_singlepass := 1; j_large := false; j_showers := true;
    j_snow := {| s_jump := 4; s_sat := 2; s_dnu := 1; s_ref := 16; s_required := true; s_minrad := ur 2; s_satexpand := ur 2; s_maxwidth := ur 200; s_expand := ur 2; s_edge := 0; s_mask_next := false;
      s_persist := 0; s_shower_expand := ur 1; s_shower_grps := 1; s_maxamp := ur 4 |}; j_cores := Some "1"%string |} in
  electrons RN (in_units RN (ur 2) (ur 4) J) 0 3 0 0 = ur 6 /\ j_data (in_units RN (ur 2) (ur 4) J) 0 3 0 0 = ur 6 /\ electrons RN J 0 3 0 0 = ur 6 /\ j_data J 0 3 0 0 = ur 3.
Proof.
  split.
  - intros k [|x l] K; [reflexivity|reflexivity].
  - cbv zeta. unfold electrons, in_units, ur. cbn. unfold Reqb. destruct (Req_EM_T 1 0); [lra|]. cbn. destruct (Req_EM_T 2 0); [lra|]. cbn. repeat split; f_equal; lra.
Qed.

(** The shower amplitude limit is documented as DN per group (max_shower_amplitude), but it is compared with electrons: an observer who converts it with everything else
    gets other flags. *)
Theorem C122_amplitude_refuted : exists (J : jump_data B64),
  exw (exstep 12 2 1 J) 6 0 = Some (0%N, 0%Z, 1) /\
  exw (exstep 12 2 1 (in_units B64 (z64 2) (fmul B64 (s_maxamp (j_snow J)) (z64 2)) J)) 6 0 = Some (4%N, 0%Z, 1) /\
  exw (exstep 12 2 1 (in_units B64 (z64 2) (s_maxamp (j_snow J)) J)) 6 0 = Some (0%N, 0%Z, 1).
Proof. exists (exJ exfaint exclean false true (z64 1) (Some "1"%string)). split; [|split]; vm_compute; reflexivity. Qed.
Print Assumptions C122_amplitude_refuted.
