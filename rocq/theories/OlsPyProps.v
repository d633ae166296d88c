(** Theorems about the python around the OLS fitter (C32, C34, C35, C36, C71). *)
From Verif Require Import Base BaseLemmas OlsModel OlsSpec OlsPyModel OlsPyProofs.
From Coq Require Import Reals Lra SpecFloat.
From Verif Require Import RBase.
Local Open Scope nat_scope.

Definition py_f : oflags := flags_at 0 2 1 3 4 7.

(** * C32, python side: utils.dq_compress_sect and dq_compress_final *)
Theorem C32_compress_groups : forall dnu jump sat pers ngval chg groups pdq, NoDup [dnu; jump; sat] ->
  let w := dq_compress_sect (flags_at dnu jump sat pers ngval chg) groups pdq in
  (N.testbit w dnu = true <-> N.testbit pdq dnu = true \/ forall g, In g groups -> N.testbit g dnu = true \/ N.testbit g sat = true) /\
  (N.testbit w sat = true <-> N.testbit pdq sat = true \/ exists g, In g groups /\ N.testbit g sat = true) /\
  (N.testbit w jump = true <-> N.testbit pdq jump = true \/ exists g, In g groups /\ N.testbit g jump = true) /\
  (forall j, ~ In j [dnu; jump; sat] -> N.testbit w j = N.testbit pdq j).
Proof.
  intros dnu jump sat pers ngval chg groups pdq ND. cbv zeta. rewrite sect_spec. cbn [flags_at o_dnu o_sat o_jump].
  assert (NE : N.eqb dnu jump = false /\ N.eqb dnu sat = false /\ N.eqb jump sat = false).
  { repeat match goal with H : NoDup (_ :: _) |- _ => inversion H; subst; clear H end. cbn in *. rewrite !N.eqb_neq. intuition congruence. }
  destruct NE as (n1 & n2 & n3).
  assert (HB : forall w, has w (N.lor (bit sat) (bit dnu)) = N.testbit w dnu || N.testbit w sat).
  { intro w. unfold has. rewrite N.land_lor_distr_r. apply eq_true_iff_eq. rewrite negb_true_iff, N.eqb_neq, orb_true_iff, <- !has_bit. unfold has. rewrite !negb_true_iff, !N.eqb_neq. rewrite N.lor_eq_0_iff.
    destruct (N.eq_dec (N.land w (bit sat)) 0), (N.eq_dec (N.land w (bit dnu)) 0); tauto. }
  assert (FA : forallb (fun w => has w (N.lor (bit sat) (bit dnu))) groups = true <-> forall g, In g groups -> N.testbit g dnu = true \/ N.testbit g sat = true).
  { rewrite forallb_forall. split; intros H g I; specialize (H g I); rewrite HB, orb_true_iff in *; assumption. }
  assert (EX : forall b, existsb (fun w => has w (bit b)) groups = true <-> exists g, In g groups /\ N.testbit g b = true).
  { intro b. rewrite existsb_exists. split; intros (g & I & E); exists g; (split; [assumption|]); rewrite has_bit in *; assumption. }
  repeat split; try (intros j J); rewrite ?N.lor_spec, ?flag_if_testbit, ?bit_testbit, ?N.eqb_refl, ?(N.eqb_sym jump dnu), ?(N.eqb_sym sat dnu), ?(N.eqb_sym sat jump), ?n1, ?n2, ?n3, ?andb_false_r, ?andb_true_r, ?orb_false_r, ?orb_true_iff; rewrite ?FA, ?EX; try tauto; try (intros; tauto).
  all: try (rewrite N.lor_spec, N.lor_spec, N.lor_spec, !flag_if_testbit, !bit_testbit in *; cbn [In] in *).
  all: try (rewrite ?(proj2 (N.eqb_neq dnu _)), ?(proj2 (N.eqb_neq sat _)), ?(proj2 (N.eqb_neq jump _)), ?andb_false_r, ?orb_false_r by (cbn [In] in *; tauto); reflexivity).
Qed.
Print Assumptions C32_compress_groups.
Theorem C32_compress_integrations : forall dnu ints, ints <> [] -> exists w, dq_compress_final (bit dnu) ints = Some w /\
  (N.testbit w dnu = true <-> forall v, In v ints -> N.testbit v dnu = true) /\
  (forall j, j <> dnu -> (N.testbit w j = true <-> exists v, In v ints /\ N.testbit v j = true)).
Proof.
  intros dnu [|w0 l] NE; [congruence|]. destruct (final_spec dnu w0 l) as (v & E & B). exists v. split; [exact E|]. split.
  - rewrite B, N.eqb_refl, forallb_forall. reflexivity.
  - intros j J. rewrite B, (proj2 (N.eqb_neq _ _) J), existsb_exists. reflexivity.
Qed.
Print Assumptions C32_compress_integrations.
Example C32_compress_example : dq_compress_sect py_f [2; 4; 1]%N 16 = 22%N /\ dq_compress_sect py_f [2; 3; 1]%N 0 = 3%N /\ dq_compress_final (bit 0) [5; 2; 1]%N = Some 6%N /\ dq_compress_final (bit 0) [5; 3]%N = Some 7%N.
Proof. vm_compute. repeat split. Qed.

(** * C34: suppression of ramps with one good group *)
(** exactly one group of pixel (r, c) of integration [i] carries no flag besides PERSISTENCE *)
Definition one_clean_group (pers : N) (ng : nat) (dq : nat -> nat -> img N) (i r c : nat) : Prop :=
  exists! g, g < ng /\ forall b, b <> pers -> N.testbit (dq i g r c) b = false.
Lemma count1_unique (p : nat -> bool) n : length (filter p (seq 0 n)) = 1 <-> exists! g, g < n /\ p g = true.
Proof.
  pose proof (seq_NoDup n 0) as ND. split.
  - intro L. destruct (filter p (seq 0 n)) as [|g [|h l]] eqn:E; try discriminate L. exists g.
    assert (I : forall x, In x (filter p (seq 0 n)) <-> x = g) by (rewrite E; cbn; intuition).
    split; [specialize (proj2 (I g) eq_refl)|]. { intro J. apply filter_In in J. rewrite in_seq in J. split; [lia|tauto]. }
    intros x [X1 X2]. symmetry. apply I, filter_In. rewrite in_seq. split; [lia|assumption].
  - intros (g & [G1 G2] & U). assert (N2 : NoDup (filter p (seq 0 n))) by (apply NoDup_filter; assumption).
    assert (I : forall x, In x (filter p (seq 0 n)) <-> x = g).
    { intro x. rewrite filter_In, in_seq. split; [intros [A B]; symmetry; apply U; split; [lia|assumption]|intros ->; split; [lia|assumption]]. }
    destruct (filter p (seq 0 n)) as [|a [|b l]]; [destruct (proj2 (I g) eq_refl)|reflexivity|]. exfalso. inversion N2 as [|? ? X _]. subst. apply X. left.
    rewrite (proj1 (I a)) by (left; reflexivity). apply I. right. left. reflexivity.
Qed.
Lemma clean_word pers w : (w < 256)%N -> N.eqb (N.land w (N.ldiff 255 (bit pers))) 0 = true <-> forall b, b <> pers -> N.testbit w b = false.
Proof.
  intro W. rewrite N.eqb_eq. split.
  - intros E b B. destruct (N.testbit w b) eqn:T; [|reflexivity]. assert (X : N.testbit (N.land w (N.ldiff 255 (bit pers))) b = true).
    { rewrite N.land_spec, N.ldiff_spec, T, bit_testbit, (proj2 (N.eqb_neq pers b)) by congruence. cbn [negb andb]. rewrite andb_true_r.
      assert (b < 8)%N. { apply N.nle_gt. intro G. assert (N.testbit w b = false); [|congruence]. apply N.bits_above_log2. destruct (N.eq_dec w 0) as [->|Z]; [rewrite N.bits_0 in T; discriminate|]. assert (N.log2 w < 8)%N by (apply N.log2_lt_pow2; [lia|exact W]). lia. }
      change 255%N with (N.ones 8). apply N.ones_spec_low. assumption. }
    rewrite E, N.bits_0 in X. discriminate.
  - intro H. apply N.bits_inj. intro b. rewrite N.land_spec, N.ldiff_spec, bit_testbit, N.bits_0. destruct (N.eqb_spec pers b) as [->|NE]; cbn [negb]; [rewrite !andb_false_r; reflexivity|]. rewrite H by congruence. reflexivity.
Qed.
Theorem C34_suppression_exact : forall dnu jump sat pers ngval chg ni ng nr nc dq i g r c,
  (forall i g r c, (dq i g r c < 256)%N) -> ng <> 1 -> i < ni -> r < nr -> c < nc ->
  let f := flags_at dnu jump sat pers ngval chg in let out := maybe_suppress f true ni ng nr nc dq i g r c in
  (one_clean_group pers ng dq i r c -> out = N.lor (dq i g r c) (bit dnu)) /\ (~ one_clean_group pers ng dq i r c -> out = dq i g r c).
Proof.
  intros dnu jump sat pers ngval chg ni ng nr nc dq i g r c W NG I R C. cbv zeta. unfold maybe_suppress. rewrite (proj2 (Nat.eqb_neq ng 1) NG). cbn [andb negb].
  rewrite suppress_spec, (proj2 (Nat.ltb_lt i ni) I), suppress_integ_spec, (proj2 (Nat.ltb_lt r nr) R), (proj2 (Nat.ltb_lt c nc) C). cbn [andb flags_at o_pers o_dnu].
  assert (E : one_good (bit pers) ng (dq i) (r, c) = true <-> one_clean_group pers ng dq i r c).
  { unfold one_good, one_clean_group. cbn [fst snd]. rewrite Nat.eqb_eq, count1_unique. split; intros (h & [A B] & U); exists h; (split; [split; [assumption|]|]).
    - apply clean_word; auto.
    - intros x [X Y]. apply U. split; [assumption|]. apply clean_word; auto.
    - apply clean_word; auto.
    - intros x [X Y]. apply U. split; [assumption|]. apply clean_word; auto. }
  destruct (one_good _ _ _ _) eqn:O; cbn [flag_if]; split; intro H; try reflexivity; try (rewrite N.lor_0_r; reflexivity).
  - exfalso. apply H, E. reflexivity.
  - apply E in H. discriminate.
Qed.
Print Assumptions C34_suppression_exact.
(** nothing changes when suppression is off or the ramps have a single group *)
Theorem C34_suppression_not_applied : forall f wanted ni ng nr nc dq, wanted = false \/ ng = 1 -> maybe_suppress f wanted ni ng nr nc dq = dq.
Proof. intros f wanted ni ng nr nc dq [->| ->]; unfold maybe_suppress; rewrite ?andb_false_r; reflexivity. Qed.
Print Assumptions C34_suppression_not_applied.
Example C34_example : let dq (i g r c : nat) := nth g (nth c [[8; 2; 2]; [0; 4; 0]]%N []) 0%N in
  map (fun c => map (fun g => maybe_suppress py_f true 1 3 1 2 dq 0 g 0 c) [0; 1; 2]) [0; 1] = [[9; 3; 3]; [0; 4; 0]]%N.
Proof. vm_compute. reflexivity. Qed.

(** * C35: discarding MIRI's first and last groups *)
(** every pixel of group [g], in every integration, is DO_NOT_USE; [L] groups at the start are *)
Notation unusable dnu ni nr nc := (group_bad dnu ni nr nc).
Theorem C35_discard : forall dnu jump sat pers ngval chg ni ng nr nc mem L (last : bool), dnu <> jump -> 1 <= ng ->
  L <= ng -> (forall g, g < L -> unusable dnu ni nr nc mem g) -> (L < ng -> ~ unusable dnu ni nr nc mem L) -> (last = true <-> unusable dnu ni nr nc mem (ng - 1)) ->
  let n := ng - L - (if last then 1 else 0) in
  snd (discard_miri (flags_at dnu jump sat pers ngval chg) ni ng nr nc mem) = if Nat.ltb n 2 then None else Some (L, n).
Proof.
  intros dnu jump sat pers ngval chg ni ng nr nc mem L last DJ N A B C D. cbv zeta. apply (miri_spec dnu jump sat pers ngval chg ni ng nr nc DJ mem L N (conj A (conj B C))). assumption.
Qed.
Print Assumptions C35_discard.
(** side effect on the caller's group DQ: JUMP_DET is removed from each group that follows a discarded leading group
    (also when the fit is then refused); every other word is untouched *)
Theorem C35_jump_cleared : forall dnu jump sat pers ngval chg ni ng nr nc mem L, dnu <> jump -> 1 <= ng ->
  L <= ng -> (forall g, g < L -> unusable dnu ni nr nc mem g) -> (L < ng -> ~ unusable dnu ni nr nc mem L) ->
  let mem' := fst (discard_miri (flags_at dnu jump sat pers ngval chg) ni ng nr nc mem) in
  forall i j r c, (i < ni -> r < nr -> c < nc -> 1 <= j <= Nat.min L (ng - 1) -> mem' i j r c = N.ldiff (mem i j r c) (bit jump)) /\
    (~ (i < ni /\ r < nr /\ c < nc /\ 1 <= j <= Nat.min L (ng - 1)) -> mem' i j r c = mem i j r c).
Proof.
  intros dnu jump sat pers ngval chg ni ng nr nc mem L DJ N A B C. cbv zeta. destruct (miri_spec dnu jump sat pers ngval chg ni ng nr nc DJ mem L N (conj A (conj B C))) as [P _].
  unfold flags_at. intros i j r c. rewrite P. unfold clr, inside. split.
  - intros I R K J. rewrite (proj2 (Nat.ltb_lt i ni) I), (proj2 (Nat.ltb_lt r nr) R), (proj2 (Nat.ltb_lt c nc) K), (proj2 (Nat.leb_le 1 j)), (proj2 (Nat.leb_le j _)) by lia. reflexivity.
  - intro H. destruct (_ && _ && _) eqn:E; [|reflexivity]. exfalso. apply H. rewrite !andb_true_iff, !Nat.ltb_lt, !Nat.leb_le in E. lia.
Qed.
Print Assumptions C35_jump_cleared.
Example C35_example : let mem (i g r c : nat) := nth g [1; 5; 4; 0; 0; 1]%N 0%N in
  let r := discard_miri py_f 1 6 1 1 mem in snd r = Some (2, 3) /\ map (fun g => fst r 0 g 0 0) (seq 0 6) = [1; 1; 0; 0; 0; 1]%N.
Proof. vm_compute. split; reflexivity. Qed.
(** a refused exposure whose jump flag is gone all the same *)
Theorem C35_refused_but_changed_refuted : exists dq, let mem (i g r c : nat) := nth g dq 0%N in let r := discard_miri py_f 1 2 1 1 mem in
  snd r = None /\ mem 0 1 0 0 = 4%N /\ fst r 0 1 0 0 = 0%N.
Proof. exists [1; 4]%N. vm_compute. repeat split. Qed.
Print Assumptions C35_refused_but_changed_refuted.

(** * C36: byte order *)
Theorem C36_fitted_as_native : forall V (dec : list N -> V) a, let b := fst (before_c a) in
  c_values dec (a_gain b) = np_values dec (a_gain a) /\ c_values dec (a_rn b) = np_values dec (a_rn a) /\ c_values dec (a_data b) = np_values dec (a_data a) /\
  c_values dec (a_dark b) = np_values dec (a_dark a) /\ c_values dec (a_gdq b) = np_values dec (a_gdq a) /\ c_values dec (a_pdq b) = np_values dec (a_pdq a).
Proof.
  intros V dec a. cbv zeta. unfold before_c. pose proof (handled_values dec (a_gain a)) as G. pose proof (handled_values dec (a_rn a)) as R.
  destruct (handle_endianness (a_gain a)), (handle_endianness (a_rn a)). cbn [fst a_gain a_rn a_data a_dark a_gdq a_pdq] in *. repeat split; try assumption; apply handled_values.
Qed.
Print Assumptions C36_fitted_as_native.
Theorem C36_gain_readnoise_restored : forall a, let b := before_c a in a_gain (after_c (fst b) (snd b)) = a_gain a /\ a_rn (after_c (fst b) (snd b)) = a_rn a.
Proof.
  intro a. cbv zeta. unfold before_c, after_c, handle_endianness. destruct (b_foreign (a_gain a)), (b_foreign (a_rn a)); cbn [fst snd a_gain a_rn]; rewrite ?swap_swap; split; reflexivity.
Qed.
Print Assumptions C36_gain_readnoise_restored.
(** arrays already in the machine's order are not touched *)
Theorem C36_native_untouched : forall a, b_foreign (a_gain a) = false -> b_foreign (a_rn a) = false -> b_foreign (a_data a) = false -> b_foreign (a_dark a) = false ->
  b_foreign (a_gdq a) = false -> b_foreign (a_pdq a) = false -> let b := before_c a in after_c (fst b) (snd b) = a.
Proof. intros a H1 H2 H3 H4 H5 H6. cbv zeta. unfold before_c, after_c, handle_endianness. rewrite H1, H2, H3, H4, H5, H6. destruct a. reflexivity. Qed.
Print Assumptions C36_native_untouched.
Definition le_dec (w : list N) : N := fold_right (fun b a => b + 256 * a)%N 0%N w.
Definition ex_arrs (data zf : barr) : barrs :=
  let n := {| b_mem := [[1; 0]]%N; b_foreign := false |} in {| a_gain := n; a_rn := n; a_data := data; a_dark := n; a_gdq := n; a_pdq := n; a_zf := zf; a_orig := n |}.
(** science data in foreign order keep the swapped bytes after the call: 1 reads as 256 *)
Theorem C36_data_left_swapped_refuted : exists a, let b := before_c a in
  np_values le_dec (a_data a) = [1]%N /\ np_values le_dec (a_data (after_c (fst b) (snd b))) = [256]%N.
Proof. exists (ex_arrs {| b_mem := [[0; 1]]%N; b_foreign := true |} {| b_mem := []; b_foreign := false |}). vm_compute. split; reflexivity. Qed.
Print Assumptions C36_data_left_swapped_refuted.
(** a ZEROFRAME in foreign order is fitted with its bytes reversed *)
Theorem C36_zeroframe_misread_refuted : exists a, np_values le_dec (a_zf a) = [1]%N /\ c_values le_dec (a_zf (fst (before_c a))) = [256]%N.
Proof. exists (ex_arrs {| b_mem := []; b_foreign := false |} {| b_mem := [[0; 1]]%N; b_foreign := true |}). vm_compute. split; reflexivity. Qed.
Print Assumptions C36_zeroframe_misread_refuted.
(** exactly when does a handled array survive the call: when it is native or all its elements are byte palindromes *)
Theorem C36_data_survives_iff : forall a, let b := before_c a in
  (b_mem (a_data (after_c (fst b) (snd b))) = b_mem (a_data a) <-> b_foreign (a_data a) = false \/ forall w, In w (b_mem (a_data a)) -> rev w = w).
Proof.
  intro a. cbv zeta. unfold before_c. destruct (handle_endianness (a_gain a)), (handle_endianness (a_rn a)). cbn [fst snd after_c a_data]. unfold handle_endianness.
  destruct (b_foreign (a_data a)); cbn [fst byteswap b_mem]; [|tauto]. split.
  - intro E. right. intros w I. set (l := b_mem (a_data a)) in *. clearbody l. clear -E I. revert E I. induction l as [|x l IH]; intros E I; [destruct I|]. cbn [map] in E. injection E as E1 E2. destruct I as [<-|I]; [assumption|auto].
  - intros [H|H]; [discriminate|]. rewrite <- (map_id (b_mem (a_data a))) at 2. apply map_ext_in. assumption.
Qed.
Print Assumptions C36_data_survives_iff.

(** * C71: the caller's read noise *)
Local Open Scope R_scope.
(** ramp_fit leaves the read-noise array it was given multiplied by gain / sqrt(2 nframes) *)
Theorem C71_readnoise_after_call : forall nframes gain rn, (1 <= nframes)%nat ->
  (scaled_readnoise RF nframes gain rn = rn <-> rn = 0 \/ gain = sqrt (2 * INR nframes)).
Proof.
  intros n gain rn N. unfold scaled_readnoise. cbn [fmul fdiv fsqrt fofZ RF]. rewrite <- INR_IZR_INZ.
  assert (P : 0 < sqrt (2 * INR n)) by (apply sqrt_lt_R0; assert (0 < INR n) by (apply lt_0_INR; lia); lra).
  set (s := sqrt (2 * INR n)) in *. clearbody s. split.
  - intro E. destruct (Req_dec rn 0) as [|NZ]; [left; assumption|]. right. assert (Q : rn * (gain / s) = rn * 1) by lra. apply Rmult_eq_reg_l in Q; [|assumption]. apply (f_equal (fun x => x * s)) in Q. field_simplify in Q; [lra|lra].
  - intros [->| ->]; [lra|]. match goal with |- @eq _ ?u ?v => change (@eq R u v) end. field. lra.
Qed.
Print Assumptions C71_readnoise_after_call.
(** a second fit with the same arrays uses a read noise scaled twice *)
Theorem C71_second_call_refuted : exists gain rn, let s := scaled_readnoise RF 2 gain in s (s rn) <> s rn.
Proof.
  exists 6, 10. cbv zeta. unfold scaled_readnoise. cbn [fmul fdiv fsqrt fofZ RF Z.of_nat Pos.of_succ_nat Pos.succ]. replace (2 * 2) with (Rsqr 2) by (unfold Rsqr; lra). rewrite sqrt_Rsqr by lra. lra.
Qed.
Print Assumptions C71_second_call_refuted.
Example C71_example : scaled_readnoise RF 2 2 10 = 10.
Proof. apply (proj2 (C71_readnoise_after_call 2 2 10 ltac:(lia))). right. cbn [INR]. replace (2 * (1 + 1)) with (Rsqr 2) by (unfold Rsqr; lra). rewrite sqrt_Rsqr; lra. Qed.
