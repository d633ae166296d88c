(** Theorems about the OLS ramp fitter (C30-C33, C69, C70 and the pixel witness for C08). *)
From Verif Require Import Base BaseLemmas FLaws Cas22Model Cas22Spec Cas22Proofs MpModel OlsModel OlsSpec OlsProofs OlsPyModel.
From Coq Require Import Reals Lra Sorting.Sorted SpecFloat.
From Verif Require Import RBase Cas22Fit OlsFit OlsErr.

(** ** Concrete inputs for the examples: DNU 1, SAT 2, JUMP 4, PERS 8, NO_GAIN_VALUE 16, CHARGELOSS 128 *)
Definition ex_f : oflags := flags_at 0 2 1 3 4 7.
Definition ex_nth {A} (d : A) (l : list (list A)) (i j : nat) : A := nth j (nth i l []) d.
Definition ex_meta (fo : FOps) (ng nints : nat) (sup : bool) : ometa fo :=
  {| m_f := ex_f; m_nints := nints; m_ng := ng; m_tgroup := fofZ fo 10; m_tframe := fofZ fo 1; m_nframes := 1; m_sup := sup |}.
Definition ex_pix (fo : FOps) (data : list (list Z)) (dq : list (list N)) (gain rn : Z) (zf : option Z) (orig : option (list (list N))) : opix fo :=
  {| x_data := fun i j => fofZ fo (ex_nth 0%Z data i j); x_gdq := ex_nth 0%N dq; x_dq := 0%N; x_gain := fofZ fo gain; x_rn := fofZ fo rn; x_dark := fzero fo;
     x_zf := match zf with Some z => Some (fun _ => fofZ fo z) | None => None end;
     x_orig := match orig with Some o => Some (ex_nth 0%N o) | None => None end |}.
Definition one_pow (x y : B64) : B64 := fone B64.
Definition show (q : pfit B64) : spec_float * N * spec_float * spec_float * spec_float := (q_slope B64 q, q_dq B64 q, q_vp B64 q, q_vr B64 q, q_err B64 q).
Definition ex_show (m : ometa B64) (p : opix B64) := let r := ols_pixel B64 one_pow m p in (show (fst r), map show (snd r)).
Notation Sz := (fun z => fofZ B64 z : spec_float).

(** * C30: segments *)
Theorem C30_segments : forall f g n r, is_runs (flags_of f g) n r -> sl_nodes (scan_segments f g n) = kept (map (extend f g) r).
Proof. intros f g n r H. apply (segments_kept f g n r H). Qed.
Print Assumptions C30_segments.
Theorem C30_runs_exist : forall f g n, exists r, is_runs (flags_of f g) n r.
Proof. intros. eexists. apply init_ramps_runs. Qed.
Print Assumptions C30_runs_exist.
(** non-empty, within the ramp, one after the other *)
Theorem C30_ordered_disjoint : forall f g n, Forall (fun s => fst s < snd s) (sl_nodes (scan_segments f g n)) /\
  StronglySorted (fun a b => snd a <= fst b) (sl_nodes (scan_segments f g n)).
Proof.
  intros f g n. pose proof (init_ramps_runs (flags_of f g) n) as H. rewrite (C30_segments f g n _ H). split.
  - rewrite Forall_forall. intros s I. apply kept_in in I. pose proof (extend_valid f g n _ H) as V. rewrite Forall_forall in V. apply (V s I).
  - apply kept_sorted. apply (runs_sorted f g n _ H).
Qed.
Print Assumptions C30_ordered_disjoint.
(** every group of a segment is usable, except possibly a first group flagged only as a jump; nothing beyond the ramp *)
Theorem C30_members : forall f g n s k, In s (sl_nodes (scan_segments f g n)) -> fst s <= k < snd s ->
  k < n /\ (N.ldiff (g k) (o_pers f) = 0%N \/ (k = fst s /\ N.ldiff (g k) (o_pers f) = o_jump f)).
Proof.
  intros f g n s k I K. pose proof (init_ramps_runs (flags_of f g) n) as H. rewrite (C30_segments f g n _ H) in I. apply kept_in in I. apply in_map_iff in I.
  destruct I as (r & <- & I). destruct H as [[S1 _] C]. specialize (S1 r I). unfold extend in K |- *. cbn [fst snd] in *.
  assert (U : forall j, fst r <= j <= snd r -> j < n /\ N.ldiff (g j) (o_pers f) = 0%N).
  { intros j J. destruct (proj1 (C j)) as [A B]; [exists r; split; assumption|]. split; [assumption|]. unfold flags_of in B. lia. }
  destruct (Nat.ltb_spec 0 (fst r)); cbn [andb] in *; [|destruct (U k); [lia|]; tauto].
  destruct (N.eqb_spec (N.ldiff (g (fst r - 1)) (o_pers f)) (o_jump f)) as [E|E].
  - destruct (Nat.eq_dec k (fst r - 1)) as [->|NE].
    + split; [|right; split; [reflexivity|exact E]]. destruct (U (fst r)); lia.
    + destruct (U k); [lia|]. tauto.
  - destruct (U k); [lia|]. tauto.
Qed.
Print Assumptions C30_members.
(** a ramp saturated in its first group (and not replaced by its ZEROFRAME) has no segments *)
Theorem C30_saturated_first : forall (fo : FOps) powf m p mr k, 1 <= m_ng fo m -> zf_used fo m p k = false ->
  has (x_gdq fo p k 0) (o_sat (m_f fo m)) = true -> snd (fit_integration fo powf m p mr k) = zero3 fo /\ q_slope fo (fst (fit_integration fo powf m p mr k)) = fnan fo.
Proof.
  intros fo powf m p mr k N1 Z S0. unfold fit_integration. destruct (prep_rest fo m p k) as (G & _). rewrite Z in G. rewrite G, S0. destruct (Z.eqb _ _); split; reflexivity.
Qed.
Print Assumptions C30_saturated_first.
Example C30_example : sl_nodes (scan_segments ex_f (fun k => nth k [0; 0; 4; 0; 8; 1; 0; 4; 2; 4; 0]%N 0%N) 11) = [(0, 2); (2, 5); (9, 11)] /\
  sl_nodes (scan_segments ex_f (fun k => nth k [1; 0; 1; 0; 1]%N 0%N) 5) = [(1, 2)].
Proof. vm_compute. split; reflexivity. Qed.
Example C30_saturated_example : zf_used B64 (ex_meta B64 3 1 false) (ex_pix B64 [[5; 9; 12]%Z] [[2; 2; 2]%N] 1 1 None None) 0 = false.
Proof. vm_compute. reflexivity. Qed.

(** * C31: linear ramps *)
Theorem C31_integration_slope : forall pow m p dnu jump sat pers ngval chg s k dflt,
  m_f RF m = flags_at dnu jump sat pers ngval chg -> NoDup [dnu; jump; sat; pers; ngval] -> (1 <= m_ng RF m)%nat -> pow_ok pow ->
  (x_rn RF p <> 0)%R -> (m_tgroup RF m <> 0)%R -> (0 < (x_gain RF p : R))%R ->
  N.testbit (x_dq RF p) dnu = false -> N.testbit (x_dq RF p) sat = false -> (k < m_nints RF m)%nat ->
  plain m p k -> linear m p s k -> segs_of m p k <> [] -> (1 / wsum m p k < 1000000)%R ->
  q_slope RF (nth k (snd (ols_pixel RF pow m p)) dflt) = (s / m_tgroup RF m)%R.
Proof. intros pow m p dnu jump sat pers ngval chg s k dflt Hf Hd N1 Hp Hr Ht Hg Q1 Q2 K P L NE LT. eapply integration_linear; eauto. Qed.
Print Assumptions C31_integration_slope.
Theorem C31_exposure_slope : forall pow m p dnu jump sat pers ngval chg s,
  m_f RF m = flags_at dnu jump sat pers ngval chg -> NoDup [dnu; jump; sat; pers; ngval] -> (1 <= m_ng RF m)%nat -> pow_ok pow ->
  (x_rn RF p <> 0)%R -> (m_tgroup RF m <> 0)%R -> (0 < (x_gain RF p : R))%R ->
  N.testbit (x_dq RF p) dnu = false -> N.testbit (x_dq RF p) sat = false ->
  (forall k, (k < m_nints RF m)%nat -> plain m p k /\ linear m p s k) -> (exists k, (k < m_nints RF m)%nat /\ segs_of m p k <> []) ->
  (1 / Rsum (map (wsum m p) (seq 0 (m_nints RF m))) < 1000000)%R ->
  q_slope RF (fst (ols_pixel RF pow m p)) = (s / m_tgroup RF m)%R.
Proof. intros. eapply exposure_linear; eauto. Qed.
Print Assumptions C31_exposure_slope.
(** a ramp 5, 8, 60 (jump), 63, 66, 69 of slope 3 per group, fitted as two segments *)
Example C31_example : let m := ex_meta RF 6 1 false in let p := ex_pix RF [[5; 8; 60; 63; 66; 69]%Z] [[0; 0; 4; 0; 0; 0]%N] 1 1 None None in
  segs_of m p 0 = [(0, 2); (2, 6)] /\ linear m p 3 0 /\ plain m p 0 /\ (1 / wsum m p 0 < 1000000)%R /\ q_slope RF (fst (ols_pixel RF c_pow m p)) = (3 / 10)%R.
Proof.
  intros m p. assert (SG : segs_of m p 0 = [(0, 2); (2, 6)]) by (vm_compute; reflexivity).
  assert (LI : linear m p 3 0).
  { intros g I. rewrite SG in I. destruct I as [<-|[<-|[]]]; (split; [unfold slen; cbn [fst snd]; lia|]).
    - exists 5%R. intros j J. cbn [fst snd] in J. assert (j = 0 \/ j = 1) as [->| ->] by lia; cbn; lra.
    - exists 54%R. intros j J. cbn [fst snd] in J. assert (j = 2 \/ j = 3 \/ j = 4 \/ j = 5) as [->|[->|[->| ->]]] by lia; cbn; lra. }
  assert (WS : (1 / wsum m p 0 < 1000000)%R).
  { unfold wsum. rewrite SG. unfold slen, rn_var. cbn [map fst snd Nat.sub]. rewrite !Rsum_cons, Rsum_nil. cbn [m p ex_meta ex_pix m_tgroup x_rn x_gain fofZ RF]. cbn [INR]. lra. }
  assert (PL : plain m p 0) by (left; reflexivity).
  split; [assumption|split; [assumption|split; [assumption|split; [assumption|]]]].
  apply (C31_exposure_slope c_pow m p 0 2 1 3 4 7 3 eq_refl); try reflexivity; try (cbn; lra); try (cbn; lia).
  - repeat constructor; cbn; intuition discriminate.
  - apply c_pow_ok.
  - intros k K. assert (k = 0) as -> by (cbn in K; lia). split; assumption.
  - exists 0%nat. split; [cbn; lia|]. rewrite SG. discriminate.
  - cbn [m_nints m ex_meta seq map]. fold m. rewrite Rsum_cons, Rsum_nil, Rplus_0_r. exact WS.
Qed.
(** A read-noise variance of 1e6 or more is replaced by zero and takes the slope with it: the ramp 0, 10, 20
    with read noise 1e5 (10 s groups, so 1 count/s) is reported as a slope of zero without any flag. *)
Theorem C31_large_variance_refuted : exists data rn, let p := ex_pix B64 [data] [[0; 0; 0]%N] 1 rn None None in
  (forall j, (j < 3)%nat -> nth j data 0%Z = (10 * Z.of_nat j)%Z) /\
  let r := ols_pixel B64 one_pow (ex_meta B64 3 1 false) p in
  (q_slope B64 (fst r) : spec_float) = Sz 0%Z /\ q_dq B64 (fst r) = 0%N /\ map (fun q => (q_slope B64 q : spec_float, q_dq B64 q)) (snd r) = [(Sz 0%Z, 0%N)].
Proof.
  exists [0; 10; 20]%Z, 100000%Z. cbv zeta. split; [intros j J; assert (j = 0 \/ j = 1 \/ j = 2)%nat as [->|[->| ->]] by lia; reflexivity|].
  vm_compute. repeat split.
Qed.
Print Assumptions C31_large_variance_refuted.

(** * C32: data-quality words *)
(** what the fitted products of one integration carry, bit by bit; the ZEROFRAME replaces the first group when no
    group is free of flags and suppression is off *)
Definition uses_zeroframe (fo : FOps) (m : ometa fo) (p : opix fo) (k : nat) : Prop :=
  m_sup fo m = false /\ (forall j, j < m_ng fo m -> x_gdq fo p k j <> 0%N) /\ exists zf, x_zf fo p = Some zf /\ feq fo (fzero fo) (zf k) = false.
Definition bad_gain (fo : FOps) (p : opix fo) : Prop := fle fo (x_gain fo p) (fzero fo) = true \/ fisnan fo (x_gain fo p) = true.
Definition some_group (fo : FOps) (m : ometa fo) (p : opix fo) (k : nat) (b : N) : Prop := exists j, j < m_ng fo m /\ N.testbit (x_gdq fo p k j) b = true.
Lemma zf_used_iff (fo : FOps) m p k : zf_used fo m p k = true <-> uses_zeroframe fo m p k.
Proof.
  unfold zf_used, uses_zeroframe. rewrite !andb_true_iff, !negb_true_iff. split.
  - intros [[A B] C]. split; [assumption|]. split.
    + intros j J E. assert (existsb (fun j => N.eqb 0 (x_gdq fo p k j)) (seq 0 (m_ng fo m)) = true); [|congruence]. apply existsb_exists. exists j. split; [apply in_seq; lia|]. rewrite E. reflexivity.
    + destruct (x_zf fo p) as [z|]; [|discriminate]. exists z. split; [reflexivity|]. apply negb_true_iff. exact C.
  - intros (A & B & z & Z & C). rewrite Z, C. repeat split; try assumption. apply not_true_iff_false. intro E. apply existsb_exists in E. destruct E as (j & J & E). apply in_seq in J. apply (B j); [lia|]. apply N.eqb_eq in E. congruence.
Qed.
Lemma bad_gain_iff (fo : FOps) p : fle fo (x_gain fo p) (fzero fo) || fisnan fo (x_gain fo p) = true <-> bad_gain fo p.
Proof. rewrite orb_true_iff. reflexivity. Qed.
Lemma some_group_iff (fo : FOps) m p k b : existsb (fun i => has (x_gdq fo p k i) (bit b)) (seq 0 (m_ng fo m)) = true <-> some_group fo m p k b.
Proof.
  rewrite existsb_exists. unfold some_group. split.
  - intros (j & J & E). apply in_seq in J. rewrite has_bit in E. exists j. split; [lia|assumption].
  - intros (j & J & E). exists j. split; [apply in_seq; lia|]. rewrite has_bit. assumption.
Qed.
Theorem C32_integration_flags : forall (fo : FOps) powf m p dnu jump sat pers ngval chg k w,
  m_f fo m = flags_at dnu jump sat pers ngval chg -> NoDup [dnu; jump; sat; pers; ngval] -> 1 <= m_ng fo m ->
  nth_error (map (q_dq fo) (snd (ols_pixel fo powf m p))) k = Some w ->
  let input j := N.testbit (x_dq fo p) j = true in
  (N.testbit w dnu = true <-> input dnu \/ bad_gain fo p \/
     (~ uses_zeroframe fo m p k /\ (N.testbit (x_gdq fo p k 0) sat = true \/
        forall j, j < m_ng fo m -> N.testbit (x_gdq fo p k j) dnu = true \/ N.testbit (x_gdq fo p k j) sat = true))) /\
  (N.testbit w sat = true <-> input sat \/ (some_group fo m p k sat /\ ~ (uses_zeroframe fo m p k /\ m_ng fo m = 1))) /\
  (N.testbit w jump = true <-> input jump \/ some_group fo m p k jump) /\
  (N.testbit w pers = true <-> input pers \/ some_group fo m p k pers) /\
  (N.testbit w ngval = true <-> input ngval \/ bad_gain fo p) /\
  (forall j, ~ In j [dnu; jump; sat; pers; ngval] -> N.testbit w j = N.testbit (x_dq fo p) j).
Proof.
  intros fo powf m p dnu jump sat pers ngval chg k w Hf Hd N1 E. rewrite (pixel_words fo powf m p N1) in E.
  assert (K : k < m_nints fo m).
  { assert (k < length (map (int_word fo m p) (seq 0 (m_nints fo m)))) by (apply nth_error_Some; congruence). rewrite map_length, seq_length in *. assumption. }
  rewrite (map_nth_error (int_word fo m p) k (seq 0 (m_nints fo m)) (d := k)) in E by (rewrite (nth_error_nth' (seq 0 (m_nints fo m)) 0) by (rewrite seq_length; lia); rewrite seq_nth by lia; reflexivity).
  injection E as <-. cbv zeta.
  assert (PB : forall j, N.testbit (pixel_dq fo m p) j = N.testbit (x_dq fo p) j || ((fle fo (x_gain fo p) (fzero fo) || fisnan fo (x_gain fo p)) && (N.eqb dnu j || N.eqb ngval j))).
  { intro j. unfold pixel_dq. destruct (_ || _); cbn [andb]; [|rewrite orb_false_r; reflexivity]. rewrite Hf. cbn [flags_at o_dnu o_ngval]. rewrite !N.lor_spec, !bit_testbit. reflexivity. }
  assert (ND : N.eqb dnu jump = false /\ N.eqb dnu sat = false /\ N.eqb dnu pers = false /\ N.eqb dnu ngval = false /\ N.eqb jump sat = false /\ N.eqb jump pers = false /\ N.eqb jump ngval = false /\ N.eqb sat pers = false /\ N.eqb sat ngval = false /\ N.eqb pers ngval = false).
  { clear -Hd. repeat match goal with H : NoDup (_ :: _) |- _ => inversion H; subst; clear H end. cbn in *. rewrite !N.eqb_neq. intuition congruence. }
  destruct ND as (n1 & n2 & n3 & n4 & n5 & n6 & n7 & n8 & n9 & n10).
  pose proof (fun j => word_bit fo m p dnu jump sat pers ngval chg Hf k j) as W. rewrite Hf in W. cbn [flags_at o_jump o_pers] in W.
  assert (GD : gdnu fo m p k = true <-> ~ uses_zeroframe fo m p k /\ (N.testbit (x_gdq fo p k 0) sat = true \/ forall j, j < m_ng fo m -> N.testbit (x_gdq fo p k j) dnu = true \/ N.testbit (x_gdq fo p k j) sat = true)).
  { unfold gdnu, all_bad. rewrite andb_true_iff, negb_true_iff, orb_true_iff, <- zf_used_iff, <- not_true_iff_false, forallb_forall, Hf. cbn [flags_at o_sat o_dnu]. rewrite has_bit.
    assert (Q : (forall x, In x (seq 0 (m_ng fo m)) -> has (x_gdq fo p k x) (bit dnu) || has (x_gdq fo p k x) (bit sat) = true) <-> (forall j, j < m_ng fo m -> N.testbit (x_gdq fo p k j) dnu = true \/ N.testbit (x_gdq fo p k j) sat = true)).
    { split; intros H j J; specialize (H j); rewrite ?in_seq, !has_bit, ?orb_true_iff in *; apply H; lia. }
    rewrite Q. tauto. }
  assert (GS : gsat fo m p k = true <-> some_group fo m p k sat /\ ~ (uses_zeroframe fo m p k /\ m_ng fo m = 1)).
  { unfold gsat, any_sat. rewrite andb_true_iff, negb_true_iff, <- not_true_iff_false, andb_true_iff, zf_used_iff, Nat.eqb_eq, Hf. cbn [flags_at o_sat]. rewrite some_group_iff. tauto. }
  (split; [|split; [|split; [|split; [|split; [|intros j J]]]]]); rewrite W, PB, <- ?bad_gain_iff, <- ?some_group_iff; rewrite ?N.eqb_refl, ?n1, ?n2, ?n3, ?n4, ?n5, ?n6, ?n7, ?n8, ?n9, ?n10, ?(N.eqb_sym jump dnu), ?(N.eqb_sym sat dnu), ?(N.eqb_sym pers dnu), ?(N.eqb_sym ngval dnu), ?(N.eqb_sym sat jump), ?(N.eqb_sym pers jump), ?(N.eqb_sym ngval jump), ?(N.eqb_sym pers sat), ?(N.eqb_sym ngval sat), ?(N.eqb_sym ngval pers), ?n1, ?n2, ?n3, ?n4, ?n5, ?n6, ?n7, ?n8, ?n9, ?n10.
  all: try (clear W; repeat rewrite ?andb_true_r, ?andb_false_r, ?orb_false_r, ?orb_false_l, ?orb_true_r, ?orb_true_l; rewrite ?orb_true_iff; rewrite <- ?some_group_iff in GS; tauto).
  cbn [In] in J. rewrite !(proj2 (N.eqb_neq _ j)) by tauto. rewrite !andb_false_r, !orb_false_r. reflexivity.
Qed.
Print Assumptions C32_integration_flags.
Theorem C32_exposure_flags : forall (fo : FOps) powf m p dnu jump sat pers ngval chg,
  m_f fo m = flags_at dnu jump sat pers ngval chg -> NoDup [dnu; jump; sat; pers; ngval] -> 1 <= m_ng fo m -> 1 <= m_nints fo m ->
  let ints := map (q_dq fo) (snd (ols_pixel fo powf m p)) in let w := q_dq fo (fst (ols_pixel fo powf m p)) in
  (N.testbit w dnu = true <-> forall v, In v ints -> N.testbit v dnu = true) /\
  (forall j, j <> dnu -> (N.testbit w j = true <-> exists v, In v ints /\ N.testbit v j = true)).
Proof.
  intros fo powf m p dnu jump sat pers ngval chg Hf Hd N1 I1. cbv zeta. pose proof (exposure_word fo powf m p dnu jump sat pers ngval chg Hf Hd N1 I1) as X. split.
  - rewrite X, N.eqb_refl, forallb_forall. reflexivity.
  - intros j J. rewrite X, (proj2 (N.eqb_neq _ _) J), existsb_exists. reflexivity.
Qed.
Print Assumptions C32_exposure_flags.
Example C32_example : let p := ex_pix B64 [[1; 2; 3]; [1; 2; 3]]%Z [[0; 4; 2]; [2; 2; 2]]%N 1 1 None None in let m := ex_meta B64 3 2 false in
  map (q_dq B64) (snd (ols_pixel B64 one_pow m p)) = [6; 3]%N /\ q_dq B64 (fst (ols_pixel B64 one_pow m p)) = 6%N.
Proof. vm_compute. split; reflexivity. Qed.
(** a one-group saturated ramp replaced by its ZEROFRAME loses the SATURATED flag; a longer one keeps it *)
Theorem C32_zeroframe_saturation_refuted : exists dq zf,
  let p ng := ex_pix B64 [[100; 100]%Z] [firstn ng dq] 1 1 (Some zf) None in let w ng := q_dq B64 (fst (ols_pixel B64 one_pow (ex_meta B64 ng 1 false) (p ng))) in
  N.testbit (nth 0 dq 0%N) 1 = true /\ N.testbit (w 1) 1 = false /\ N.testbit (w 2) 1 = true.
Proof. exists [2; 2]%N, 7%Z. vm_compute. repeat split. Qed.
Print Assumptions C32_zeroframe_saturation_refuted.

(** * C33: nothing to fit *)
(** no group of the integration can be used: its first group is saturated or all groups are DO_NOT_USE/SATURATED,
    and no ZEROFRAME stands in *)
Definition nothing_to_fit (fo : FOps) (m : ometa fo) (p : opix fo) (dnu sat : N) (k : nat) : Prop :=
  ~ uses_zeroframe fo m p k /\ (N.testbit (x_gdq fo p k 0) sat = true \/
    forall j, j < m_ng fo m -> N.testbit (x_gdq fo p k j) dnu = true \/ N.testbit (x_gdq fo p k j) sat = true).
Lemma nothing_gdnu (fo : FOps) m p dnu jump sat pers ngval chg k : m_f fo m = flags_at dnu jump sat pers ngval chg -> nothing_to_fit fo m p dnu sat k -> gdnu fo m p k = true.
Proof.
  intros Hf [Z B]. unfold gdnu, all_bad. rewrite Hf. cbn [flags_at o_dnu o_sat]. rewrite <- zf_used_iff, not_true_iff_false in Z. rewrite Z. cbn [negb andb]. rewrite orb_true_iff, has_bit, forallb_forall.
  destruct B as [B|B]; [left; assumption|right]. intros j J. apply in_seq in J. rewrite !has_bit. apply orb_true_iff, B. lia.
Qed.
Lemma nothing_scan f g n : (forall j, j < n -> N.ldiff (g j) (o_pers f) <> 0%N) -> sl_size (scan_segments f g n) = 0.
Proof.
  intro H. pose proof (init_ramps_runs (flags_of f g) n) as R. apply (segments_kept f g n _ R). destruct (init_ramps (flags_of f g) n) as [|r l] eqn:E; [reflexivity|]. exfalso.
  destruct R as [[S1 _] C]. destruct (proj1 (C (fst r))) as [A B]; [exists r; split; [left; reflexivity|]; specialize (S1 r (or_introl eq_refl)); lia|]. apply (H _ A). unfold flags_of in B. lia.
Qed.
Lemma gdnu_values (fo : FOps) powf m p mr k : 1 <= m_ng fo m -> gdnu fo m p k = true ->
  let q := fst (fit_integration fo powf m p mr k) in q_vp fo q = fzero fo /\ q_vr fo q = fzero fo /\ q_err fo q = fzero fo.
Proof.
  intros N1 G. cbv zeta. unfold gdnu in G. apply andb_true_iff in G. destruct G as [Z G]. apply negb_true_iff in Z. unfold fit_integration. destruct (prep_rest fo m p k) as (X & _ & _ & _ & D & _). rewrite Z in X, D. rewrite Z.sub_0_r in D.
  rewrite D, count_all, X. change (forallb _ _) with (all_bad fo m p k). destruct (all_bad fo m p k); [repeat split|]. rewrite orb_false_r in G. rewrite G. repeat split.
Qed.
Theorem C33_integration_invalid : forall (fo : FOps) powf m p dnu jump sat pers ngval chg k dflt,
  m_f fo m = flags_at dnu jump sat pers ngval chg -> NoDup [dnu; jump; sat; pers; ngval] -> 1 <= m_ng fo m -> x_orig fo p = None ->
  k < m_nints fo m -> nothing_to_fit fo m p dnu sat k ->
  let q := nth k (snd (ols_pixel fo powf m p)) dflt in
  q_slope fo q = fnan fo /\ q_vp fo q = fzero fo /\ q_vr fo q = fzero fo /\ q_err fo q = fzero fo /\ N.testbit (q_dq fo q) dnu = true.
Proof.
  intros fo powf m p dnu jump sat pers ngval chg k dflt Hf Hd N1 Ho K NF. cbv zeta. pose proof (nothing_gdnu fo m p dnu jump sat pers ngval chg k Hf NF) as G.
  unfold ols_pixel, chargeloss. rewrite Ho. unfold fit_pixel. cbn [snd]. rewrite map_map.
  rewrite (nth_indep _ dflt (u_fit fo (finish_integration fo powf m p (median_rate fo m p) 0))) by (rewrite map_length, seq_length; assumption).
  rewrite (map_nth (fun x => u_fit fo (finish_integration fo powf m p (median_rate fo m p) x)) (seq 0 (m_nints fo m)) 0 k), seq_nth by assumption. cbn [Nat.add].
  set (mr := median_rate fo m p). pose proof (finish_word fo powf m p k mr N1) as FW. pose proof (udnu_bit fo powf m p dnu jump sat pers ngval chg Hf Hd N1 k mr) as U.
  assert (WB : N.testbit (int_word fo m p k) dnu = true) by (rewrite (word_bit fo m p dnu jump sat pers ngval chg Hf), G, N.eqb_refl; cbn [andb]; rewrite !orb_true_r; reflexivity).
  rewrite FW, WB. rewrite WB in U. destruct (gdnu_values fo powf m p mr k N1 G) as (A & B & C).
  unfold finish_integration in *. destruct (fit_integration fo powf m p mr k) as [q c]. cbn [u_fit u_dnu q_slope q_vp q_vr q_err fst] in *. rewrite U. repeat split; assumption.
Qed.
Print Assumptions C33_integration_invalid.
Theorem C33_exposure_invalid : forall (fo : FOps) powf m p dnu jump sat pers ngval chg,
  fisnan fo (fnan fo) = true -> m_f fo m = flags_at dnu jump sat pers ngval chg -> NoDup [dnu; jump; sat; pers; ngval] -> 1 <= m_ng fo m -> x_orig fo p = None ->
  (forall k, k < m_nints fo m -> nothing_to_fit fo m p dnu sat k) ->
  let q := fst (ols_pixel fo powf m p) in
  q_slope fo q = fnan fo /\ q_vp fo q = fzero fo /\ q_vr fo q = fzero fo /\ q_err fo q = fzero fo /\ N.testbit (q_dq fo q) dnu = true.
Proof.
  intros fo powf m p dnu jump sat pers ngval chg NN Hf Hd N1 Ho NF. cbv zeta. unfold ols_pixel, chargeloss. rewrite Ho. unfold fit_pixel. cbn [fst q_slope q_vp q_vr q_err q_dq].
  assert (A : forallb (u_dnu fo) (map (finish_integration fo powf m p (median_rate fo m p)) (seq 0 (m_nints fo m))) = true).
  { apply forallb_forall. intros u I. apply in_map_iff in I. destruct I as (k & <- & I). apply in_seq in I. rewrite (udnu_bit fo powf m p dnu jump sat pers ngval chg Hf Hd N1), (word_bit fo m p dnu jump sat pers ngval chg Hf), (nothing_gdnu fo m p dnu jump sat pers ngval chg k Hf (NF k ltac:(lia))), N.eqb_refl. cbn [andb]. rewrite !orb_true_r. reflexivity. }
  rewrite A. set (w := N.lor (N.lor (N.lor (pixel_dq fo m p) _) _) (o_dnu (m_f fo m))).
  assert (WD : N.testbit w dnu = true) by (unfold w; rewrite N.lor_spec, Hf; cbn [flags_at o_dnu]; rewrite bit_testbit, N.eqb_refl, orb_true_r; reflexivity). clearbody w.
  set (w' := if forallb (u_sat fo) _ then N.lor w (o_sat (m_f fo m)) else w).
  assert (WD' : N.testbit w' dnu = true) by (unfold w'; destruct (forallb (u_sat fo) _); [rewrite N.lor_spec, WD; reflexivity|assumption]). clearbody w'.
  assert (B : has w' (N.lor (o_dnu (m_f fo m)) (o_sat (m_f fo m))) = true).
  { unfold has. apply negb_true_iff, N.eqb_neq. intro E. assert (X : N.testbit (N.land w' (N.lor (o_dnu (m_f fo m)) (o_sat (m_f fo m)))) dnu = true) by (rewrite N.land_spec, N.lor_spec, WD', Hf; cbn [flags_at o_dnu]; rewrite bit_testbit, N.eqb_refl; reflexivity). rewrite E, N.bits_0 in X. discriminate. }
  rewrite B, NN. repeat split. destruct (existsb (u_part fo) _); [rewrite N.lor_spec, WD'; reflexivity|assumption].
Qed.
Print Assumptions C33_exposure_invalid.
Example C33_example : let p := ex_pix B64 [[1; 2; 3]%Z; [7; 7; 7]%Z] [[1; 2; 1]%N; [2; 2; 2]%N] 1 1 None None in let m := ex_meta B64 3 2 false in
  (forall k, k < 2 -> nothing_to_fit B64 m p 0 1 k) /\ ex_show m p = ((S754_nan, 3%N, Sz 0%Z, Sz 0%Z, Sz 0%Z), [(S754_nan, 3%N, Sz 0%Z, Sz 0%Z, Sz 0%Z); (S754_nan, 3%N, Sz 0%Z, Sz 0%Z, Sz 0%Z)]).
Proof.
  cbv zeta. split; [|vm_compute; reflexivity]. intros k K. split; [intros (_ & _ & z & A & _); discriminate|]. right. intros j J. cbn in J.
  assert (k = 0 \/ k = 1) as [->| ->] by lia; assert (j = 0 \/ j = 1 \/ j = 2) as [->|[->| ->]] by lia; vm_compute; tauto.
Qed.
(** Not so when the groups are unusable for another reason: a ramp whose groups all carry some flag (say JUMP_DET),
    not all DO_NOT_USE or SATURATED, is reported as a measured zero without DO_NOT_USE. *)
Theorem C33_other_flags : forall (fo : FOps) powf m p dnu jump sat pers ngval chg k dflt,
  m_f fo m = flags_at dnu jump sat pers ngval chg -> NoDup [dnu; jump; sat; pers; ngval] -> 1 <= m_ng fo m -> x_orig fo p = None -> k < m_nints fo m ->
  ~ uses_zeroframe fo m p k -> (forall j, j < m_ng fo m -> N.ldiff (x_gdq fo p k j) (bit pers) <> 0%N) ->
  N.testbit (x_gdq fo p k 0) sat = false -> (exists j, j < m_ng fo m /\ N.testbit (x_gdq fo p k j) dnu = false /\ N.testbit (x_gdq fo p k j) sat = false) ->
  N.testbit (x_dq fo p) dnu = false -> N.testbit (x_dq fo p) sat = false -> ~ bad_gain fo p ->
  let q := nth k (snd (ols_pixel fo powf m p)) dflt in
  q_slope fo q = fzero fo /\ q_vp fo q = fzero fo /\ q_vr fo q = fzero fo /\ q_err fo q = fzero fo /\ N.testbit (q_dq fo q) dnu = false.
Proof.
  intros fo powf m p dnu jump sat pers ngval chg k dflt Hf Hd N1 Ho K NZ NR S0 (j & J & B1 & B2) Q1 Q2 BG. cbv zeta.
  rewrite <- zf_used_iff, not_true_iff_false in NZ. rewrite <- bad_gain_iff, not_true_iff_false in BG.
  assert (AB : all_bad fo m p k = false).
  { apply not_true_iff_false. intro A. unfold all_bad in A. rewrite forallb_forall in A. specialize (A j). rewrite in_seq, Hf in A. cbn [flags_at o_dnu o_sat] in A. rewrite !has_bit, B1, B2 in A. discriminate A. lia. }
  assert (GD : gdnu fo m p k = false) by (unfold gdnu; rewrite NZ, AB, Hf; cbn [flags_at o_sat]; rewrite has_bit, S0; reflexivity).
  assert (ND : N.eqb jump dnu = false /\ N.eqb pers dnu = false /\ N.eqb sat dnu = false /\ N.eqb jump sat = false /\ N.eqb pers sat = false).
  { clear -Hd. repeat match goal with H : NoDup (_ :: _) |- _ => inversion H; subst; clear H end. cbn in *. rewrite !N.eqb_neq. intuition congruence. }
  destruct ND as (n1 & n2 & n3 & n4 & n5).
  assert (PD : pixel_dq fo m p = x_dq fo p) by (unfold pixel_dq; rewrite BG; reflexivity).
  assert (WD : N.testbit (int_word fo m p k) dnu = false).
  { rewrite (word_bit fo m p dnu jump sat pers ngval chg Hf), GD, PD, Q1, n1, n2, n3, !andb_false_r. reflexivity. }
  unfold ols_pixel, chargeloss. rewrite Ho. unfold fit_pixel. cbn [snd]. rewrite map_map.
  rewrite (nth_indep _ dflt (u_fit fo (finish_integration fo powf m p (median_rate fo m p) 0))) by (rewrite map_length, seq_length; assumption).
  rewrite (map_nth (fun x => u_fit fo (finish_integration fo powf m p (median_rate fo m p) x)) (seq 0 (m_nints fo m)) 0 k), seq_nth by assumption. cbn [Nat.add].
  set (mr := median_rate fo m p). pose proof (finish_word fo powf m p k mr N1) as FW. pose proof (udnu_bit fo powf m p dnu jump sat pers ngval chg Hf Hd N1 k mr) as U.
  destruct (integration_word fo powf m p k mr N1) as [_ W]. rewrite FW, WD. rewrite WD in U.
  assert (FI : fst (fit_integration fo powf m p mr k) = {| q_slope := fzero fo; q_dq := q_dq fo (fst (fit_integration fo powf m p mr k)); q_vp := fzero fo; q_vr := fzero fo; q_err := fzero fo |}).
  { unfold fit_integration. destruct (prep_rest fo m p k) as (X & _ & _ & _ & D & _). rewrite NZ in X, D. rewrite Z.sub_0_r in D. rewrite D, count_all, X.
    change (forallb _ _) with (all_bad fo m p k). rewrite AB. assert (HS : has (x_gdq fo p k 0) (o_sat (m_f fo m)) = false) by (rewrite Hf; cbn [flags_at o_sat]; rewrite has_bit; exact S0). rewrite HS.
    unfold fit_slope. rewrite nothing_scan by (rewrite Hf; exact NR). reflexivity. }
  assert (SB : has (q_dq fo (fst (fit_integration fo powf m p mr k))) (o_sat (m_f fo m)) = false).
  { rewrite W, NZ, GD. rewrite Hf. cbn [flags_at o_sat]. rewrite !has_bit, S0. cbn [flag_if andb negb]. rewrite !N.lor_0_r. unfold int_dq0. rewrite PD, !N.lor_spec, !flag_if_testbit, Q2, Hf. cbn [flags_at o_jump o_pers]. rewrite !bit_testbit, n4, n5, !andb_false_r. reflexivity. }
  unfold finish_integration in *. destruct (fit_integration fo powf m p mr k) as [q c]. cbn [u_fit u_dnu q_slope q_vp q_vr q_err fst q_dq] in *. rewrite U, SB. cbn [orb]. rewrite FI. repeat split.
Qed.
Print Assumptions C33_other_flags.
Theorem C33_all_jump_refuted : exists data dq, (forall w, In w dq -> N.testbit w 2 = true) /\
  ex_show (ex_meta B64 3 1 false) (ex_pix B64 [data] [dq] 1 1 None None) = ((Sz 0%Z, 4%N, Sz 0%Z, Sz 0%Z, Sz 0%Z), [(Sz 0%Z, 4%N, Sz 0%Z, Sz 0%Z, Sz 0%Z)]).
Proof. exists [10; 500; 900]%Z, [4; 4; 4]%N. split; [intros w [<-|[<-|[<-|[]]]]; reflexivity|vm_compute; reflexivity]. Qed.
Print Assumptions C33_all_jump_refuted.
(** With CHARGELOSS bookkeeping an invalid pixel (NaN, DO_NOT_USE) carries a positive read-noise variance while its
    error stays zero. *)
Theorem C33_chargeloss_variance_refuted : exists p : opix B64, let q := fst (ols_pixel B64 one_pow (ex_meta B64 3 1 false) p) in
  (q_slope B64 q : spec_float) = S754_nan /\ N.testbit (q_dq B64 q) 0 = true /\ flt B64 (fzero B64) (q_vr B64 q) = true /\ (q_err B64 q : spec_float) = Sz 0%Z.
Proof. exists (ex_pix B64 [[1; 2; 3]%Z] [[129; 129; 129]%N] 1 1 None (Some [[129; 129; 129]%N])). vm_compute. repeat split. Qed.
Print Assumptions C33_chargeloss_variance_refuted.

(** * C69: errors and variances *)
Theorem C69_exposure_error : forall pow m p, x_orig RF p = None -> let q := fst (ols_pixel RF pow m p) in q_err RF q = sqrt (q_vp RF q + q_vr RF q).
Proof. intros pow m p Ho. eapply exp_err; eassumption. Qed.
Print Assumptions C69_exposure_error.
Theorem C69_integration_error : forall pow m p dnu jump sat pers ngval chg k dflt,
  m_f RF m = flags_at dnu jump sat pers ngval chg -> NoDup [dnu; jump; sat; pers; ngval] -> (1 <= m_ng RF m)%nat ->
  (x_rn RF p <> 0)%R -> (0 < (m_tgroup RF m : R))%R -> (0 < (m_tframe RF m : R))%R -> (0 < (x_gain RF p : R))%R -> (0 <= (x_dark RF p : R))%R ->
  N.testbit (x_dq RF p) dnu = false -> N.testbit (x_dq RF p) sat = false -> x_orig RF p = None ->
  (k < m_nints RF m)%nat -> plain m p k -> segs_of m p k <> [] ->
  let q := nth k (snd (ols_pixel RF pow m p)) dflt in (0 < (q_err RF q : R))%R ->
  (q_vp RF q + q_vr RF q <= q_err RF q * q_err RF q)%R /\
  (length (segs_of m p k) = 1%nat -> (q_err RF q < 1000)%R -> (q_vp RF q + q_vr RF q = q_err RF q * q_err RF q)%R).
Proof. intros. eapply int_err; eauto. Qed.
Print Assumptions C69_integration_error.
(** the hypotheses of C69_integration_error are met by a ramp 5, 8 *)
Example C69_example : let m := ex_meta RF 2 1 false in let p := ex_pix RF [[5; 8]%Z] [[0; 0]%N] 1 1 None None in
  segs_of m p 0 = [(0, 2)]%nat /\ plain m p 0 /\ forall dflt, (0 < (q_err RF (nth 0 (snd (ols_pixel RF c_pow m p)) dflt) : R))%R.
Proof.
  intros m p. split; [vm_compute; reflexivity|]. split; [left; reflexivity|]. intro dflt.
  assert (L10 : Rleb 1 0 = false) by (apply not_true_iff_false; rewrite Rleb_spec; lra).
  assert (RV : rnoise_len2 RF m p = (2 / 100)%R) by (cbn; lra).
  assert (MR : median_rate RF m p = (3 / 10)%R).
  { cbn -[IZR Rplus Rmult Rminus Rdiv]. lra. }
  assert (PD : pixel_dq RF m p = 0%N) by (unfold pixel_dq; cbn [x_gain p ex_pix fofZ fle RF fzero fisnan]; rewrite L10; reflexivity).
  assert (D0 : int_dq0 RF m p (prep0 RF m p 0) = 0%N) by (unfold int_dq0; rewrite PD; reflexivity).
  assert (VP : var_poisson RF p (3 / 10)%R (10 * 1)%R = (3 / 100)%R).
  { unfold var_poisson. cbn [flt RF fzero x_dark p ex_pix fadd fdiv]. destruct (Rltb 0 (3 / 10)) eqn:E; [lra|]. apply not_true_iff_false in E. rewrite Rltb_spec in E. lra. }
  assert (BG : Rltb 1000000 (1 / (0 + 1 / (3 / 100 + 2 / 100))) = false) by (apply not_true_iff_false; rewrite Rltb_spec; lra).
  assert (FE : q_err RF (fst (fit_integration RF c_pow m p (median_rate RF m p) 0)) = sqrt (1 / (0 + 1 / (3 / 100 + 2 / 100)))%R).
  { rewrite MR. unfold fit_integration. cbn -[Rltb Rleb IZR Rplus Rmult Rminus Rdiv rnoise_len2 var_poisson large0]. fold m p. rewrite D0.
    cbn -[Rltb Rleb IZR Rplus Rmult Rminus Rdiv rnoise_len2 var_poisson large0]. rewrite RV, VP, BG. reflexivity. }
  unfold ols_pixel, chargeloss, fit_pixel. cbn [x_orig p ex_pix snd m_nints m ex_meta seq map nth]. fold m. fold p. unfold finish_integration.
  destruct (fit_integration RF c_pow m p (median_rate RF m p) 0). cbn [u_fit q_err fst] in *. rewrite FE. apply sqrt_lt_R0. lra.
Qed.
(** with two segments the integration's error is not the root of its variances' sum *)
Theorem C69_two_segments_refuted : exists p : opix B64, let m := ex_meta B64 6 1 false in let q := nth 0 (snd (ols_pixel B64 one_pow m p)) (fst (ols_pixel B64 one_pow m p)) in
  sl_nodes (scan_segments (m_f B64 m) (x_gdq B64 p 0) 6) = [(0, 2); (2, 6)]%nat /\
  (q_err B64 q : spec_float) <> fsqrt B64 (fadd B64 (q_vp B64 q) (q_vr B64 q)) /\ flt B64 (fsqrt B64 (fadd B64 (q_vp B64 q) (q_vr B64 q))) (q_err B64 q) = true.
Proof. exists (ex_pix B64 [[5; 8; 60; 63; 66; 69]%Z] [[0; 0; 4; 0; 0; 0]%N] 1 1 None None). vm_compute. repeat split. discriminate. Qed.
Print Assumptions C69_two_segments_refuted.
(** with CHARGELOSS bookkeeping not even the exposure's is *)
Theorem C69_chargeloss_refuted : exists p : opix B64, let q := fst (ols_pixel B64 one_pow (ex_meta B64 4 1 false) p) in
  (q_err B64 q : spec_float) <> fsqrt B64 (fadd B64 (q_vp B64 q) (q_vr B64 q)).
Proof. exists (ex_pix B64 [[10; 20; 30; 39]%Z] [[0; 0; 0; 129]%N] 1 1 None (Some [[0; 0; 0; 129]%N])). vm_compute. discriminate. Qed.
Print Assumptions C69_chargeloss_refuted.

(** * C70: the exposure combines its integrations by their read-noise variances *)
Theorem C70_weighted_mean : forall pow m p dnu jump sat pers ngval chg dflt,
  m_f RF m = flags_at dnu jump sat pers ngval chg -> NoDup [dnu; jump; sat; pers; ngval] -> (1 <= m_ng RF m)%nat ->
  (x_rn RF p <> 0)%R -> (0 < (m_tgroup RF m : R))%R -> (0 < (m_tframe RF m : R))%R -> (0 < (x_gain RF p : R))%R -> (0 <= (x_dark RF p : R))%R ->
  N.testbit (x_dq RF p) dnu = false -> N.testbit (x_dq RF p) sat = false -> x_orig RF p = None ->
  (forall k, (k < m_nints RF m)%nat -> plain m p k) -> live m p <> [] ->
  let out k := nth k (snd (ols_pixel RF pow m p)) dflt in
  (forall k, In k (live m p) -> (0 < (q_vr RF (out k) : R))%R) -> (0 < (q_vr RF (fst (ols_pixel RF pow m p)) : R))%R ->
  q_vr RF (fst (ols_pixel RF pow m p)) = (1 / Rsum (map (fun k => 1 / q_vr RF (out k)) (live m p)))%R /\
  q_slope RF (fst (ols_pixel RF pow m p)) = (Rsum (map (fun k => q_slope RF (out k) / q_vr RF (out k)) (live m p)) / Rsum (map (fun k => 1 / q_vr RF (out k)) (live m p)))%R.
Proof. intros. eapply exp_combine; eauto. Qed.
Print Assumptions C70_weighted_mean.
Example C70_example : let m := ex_meta RF 2 2 false in let p := ex_pix RF [[5; 8]; [1; 5]]%Z [[0; 0]; [0; 0]]%N 1 1 None None in
  live m p = [0; 1]%nat /\ forall dflt, (0 < (q_vr RF (nth 0 (snd (ols_pixel RF c_pow m p)) dflt) : R))%R /\ (0 < (q_vr RF (nth 1 (snd (ols_pixel RF c_pow m p)) dflt) : R))%R /\ (0 < (q_vr RF (fst (ols_pixel RF c_pow m p)) : R))%R.
Proof.
  intros m p. split; [vm_compute; reflexivity|]. intro dflt.
  assert (L10 : Rleb 1 0 = false) by (apply not_true_iff_false; rewrite Rleb_spec; lra).
  assert (RV : rnoise_len2 RF m p = (2 / 100)%R) by (cbn; lra).
  assert (LV : forall v, (0 < v < 1000000)%R -> large0 RF v = v) by (intros v V; unfold large0; cbn [fle RF LARGE fofZ]; destruct (Rleb 1000000 v) eqn:E; [apply Rleb_spec in E; lra|reflexivity]).
  assert (PD : pixel_dq RF m p = 0%N) by (unfold pixel_dq; cbn [x_gain p ex_pix fofZ fle RF fzero fisnan]; rewrite L10; reflexivity).
  assert (FI : forall mr k, (k < 2)%nat -> q_dq RF (fst (fit_integration RF c_pow m p mr k)) = 0%N /\ q_vr RF (fst (fit_integration RF c_pow m p mr k)) = (2/100)%R /\ snd (fst (snd (fit_integration RF c_pow m p mr k))) = 50%R).
  { intros mr k K. 
    assert (D0 : int_dq0 RF m p (prep0 RF m p k) = 0%N) by (unfold int_dq0; rewrite PD; assert (k = 0 \/ k = 1)%nat as [->| ->] by lia; reflexivity).
    assert (E : (1 / (0 + 1 / (2/100)) = 2/100)%R) by lra.
    assert (k = 0 \/ k = 1)%nat as [->| ->] by lia; unfold fit_integration; cbn -[Rltb Rleb IZR Rplus Rmult Rminus Rdiv rnoise_len2 var_poisson large0]; fold m p; rewrite D0; cbn -[Rltb Rleb IZR Rplus Rmult Rminus Rdiv rnoise_len2 var_poisson large0]; rewrite RV, E, LV by lra; repeat split; lra. }
  set (mr := median_rate RF m p) in *.
  assert (NI : forall k, (k < 2)%nat -> q_vr RF (nth k (snd (ols_pixel RF c_pow m p)) dflt) = (2/100)%R).
  { intros k K. destruct (FI mr k K) as (_ & V & _). assert (k = 0 \/ k = 1)%nat as [->| ->] by lia; unfold ols_pixel, chargeloss, fit_pixel; cbn [x_orig p ex_pix snd m_nints m ex_meta seq map nth]; fold m; fold p; fold mr; unfold finish_integration; destruct (fit_integration RF c_pow m p mr _); cbn [u_fit q_vr fst] in *; exact V. }
  rewrite !NI by lia. split; [lra|split; [lra|]].
  unfold ols_pixel, chargeloss, fit_pixel; cbn [x_orig p ex_pix fst snd m_nints m ex_meta seq map q_vr]; fold m; fold p; fold mr. unfold finish_integration. 
  destruct (FI mr 0%nat ltac:(lia)) as (A0 & _ & C0). destruct (FI mr 1%nat ltac:(lia)) as (A1 & _ & C1).
  destruct (fit_integration RF c_pow m p mr 0) as [q0 c0], (fit_integration RF c_pow m p mr 1) as [q1 c1]. cbn [fst snd] in *.
  rewrite PD. cbn [map u_con u_dnu u_sat]. rewrite A0, A1, C0, C1. cbn -[Rltb Rleb IZR Rplus Rmult Rminus Rdiv large0].
  unfold inv_or. cbn [flt fzero RF fdiv fone]. destruct (Rltb 0 (0 + 50 + 50)) eqn:E; [|apply not_true_iff_false in E; rewrite Rltb_spec in E; lra].
  rewrite LV by lra. lra.
Qed.

(** * C08: the suppression switch lost by slicing matters *)
Definition ex_rm (sup : bool) : ramp_meta :=
  {| rm_groupgap := 0; rm_nframes := 1; rm_suppress1g := sup; rm_drop_frames1 := 0; rm_dnu := 1; rm_jump := 4; rm_sat := 2; rm_pers := 8; rm_ngval := 16;
     rm_uslope := 32; rm_chargeloss := 128; rm_group_time := 10; rm_frame_time := 1 |}.
(** a pixel with one good group and a ZEROFRAME, suppression on: ramp_fit marks its groups DO_NOT_USE; fitted in one
    process it is invalid, fitted in a slice it gets a slope from the ZEROFRAME *)
Theorem C08_suppression_refuted : exists dq zf,
  let dq' := maybe_suppress ex_f true 1 3 1 1 (fun i g _ _ => nth g dq 0%N) in
  let p := ex_pix B64 [[5; 50; 60]%Z] [map (fun g => dq' 0 g 0 0) (seq 0 3)] 1 1 (Some zf) None in
  let fit_row (mm : ramp_meta) (x : opix B64) := let q := fst (ols_pixel B64 one_pow (ex_meta B64 3 1 (rm_suppress1g mm)) x) in ((q_slope B64 q : spec_float, q_dq B64 q), @nil nat) in
  fst (fit_single 0 fit_row (ex_rm true) [p]) = [(S754_nan, 3%N)] /\
  option_map fst (fit_multi slice_meta (S754_nan, 0%N) 0 fit_row (ex_rm true) 1 [p]) = Some [(Sz 7%Z, 2%N)].
Proof. exists [0; 2; 2]%N, 7%Z. vm_compute. split; reflexivity. Qed.
Print Assumptions C08_suppression_refuted.
