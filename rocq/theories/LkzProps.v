(** The ZEROFRAME in the likelihood fit (C107) and pixels it cannot fit (C109). *)
From Verif Require Import Base BaseLemmas RBase RNBase LikelyModel LikelySpec LikelyProofs LikelyFit LikelyNoise LikelyProps OlsModel OlsSpec OlsPyModel DrvModel.
From Verif Require FLaws OlsPyProps.
From Coq Require Import Reals Lra Lia Sorted SpecFloat.
Local Open Scope R_scope.

(** * C107 *)
Lemma Rmean_lin a s (l : list R) : l <> [] -> Rmean (map (fun t => a + s * t) l) = a + s * Rmean l.
Proof.
  intro H. rewrite (map_ext _ (fun t => s * t + a)) by (intro; ring). rewrite Rmean_shift by exact H. unfold Rmean. rewrite map_length, Rsum_scal, map_id. unfold Rdiv. ring.
Qed.
(** the first group without its first read: [reads] are the values of the reads the group is the mean of *)
Theorem C107_first_group : forall (r0 : R) (rs ds : list R), rs <> [] ->
  zf_data RF (S (length rs)) r0 (Rmean (r0 :: rs) :: ds) = r0 :: Rmean rs :: ds.
Proof.
  intros r0 rs ds H. unfold zf_data. f_equal. f_equal. unfold Rmean. cbn [fofZ fdiv fsub fmul RF length]. rewrite Rsum_cons.
  assert (P : 0 < INR (length rs)) by (apply lt_0_INR; destruct rs; [congruence|cbn; lia]). replace (Z.of_nat (S (length rs)) - 1)%Z with (Z.of_nat (length rs)) by lia.
  rewrite <- !INR_IZR_INZ, S_INR. eqR. field. lra.
Qed.
(** a pixel whose every read lies on the line a + s t, averaged into groups *)
Definition on_line (a s : R) (times : list (list R)) : list R := map (fun g => Rmean (map (fun t => a + s * t) g)) times.
Lemma zf_on_line a s t0 t1 ts gs : zf_data RF (length (t0 :: t1 :: ts)) (a + s * t0) (on_line a s ((t0 :: t1 :: ts) :: gs)) = on_line a s ([t0] :: (t1 :: ts) :: gs).
Proof.
  unfold on_line. cbn [map]. pose proof (C107_first_group (a + s * t0) (map (fun t => a + s * t) (t1 :: ts)) (map (fun g => Rmean (map (fun t => a + s * t) g)) gs)) as H.
  cbn [map length] in H |- *. rewrite map_length in H. rewrite H by discriminate. f_equal. unfold Rmean. cbn. field.
Qed.
Lemma split_times t0 t1 ts gs : good_times ((t0 :: t1 :: ts) :: gs) -> good_times ([t0] :: (t1 :: ts) :: gs).
Proof. intros [A B]. split; [|exact B]. inversion A; subst. repeat constructor; try discriminate. assumption. Qed.
Lemma line_quot a s u v : 0 < u - v -> (a + s * u - (a + s * v)) / (u - v) = s. Proof. intro D. field. lra. Qed.
Lemma line_diffs a s times i : good_times times -> (S i < length times)%nat -> diffs RF (on_line a s times) times i = s.
Proof.
  intros G H. unfold diffs, on_line, mk_covar. cbn [c_dt]. rewrite !mean_Rmean. pose proof (good_dt times i G H) as D.
  assert (E : forall k, (k < length times)%nat -> nth k (map (fun g => Rmean (map (fun t => a + s * t) g)) times) (fzero RF) = a + s * Rmean (nth k times [])).
  { intros k K. set (h := fun g => Rmean (map (fun t => a + s * t) g)). rewrite (nth_indep _ _ (h [])) by (rewrite map_length; exact K). rewrite map_nth. unfold h. apply Rmean_lin.
    destruct G as [G _]. rewrite Forall_forall in G. apply G, nth_In, K. }
  rewrite !E by lia. exact (line_quot a s _ _ D).
Qed.
(** Linear ramp, with or without its ZEROFRAME sample: all differences are the rate, so the fit returns it whatever the mask,
    the guess and the noise. *)
Theorem C107_recovers : forall a s times (zf : bool) nframes words guess gain rn root use r,
  (zf = true -> nframes = length (nth 0 times [])) -> good_times times ->
  let z := if zf then Some (a + s * nth 0 (nth 0 times []) 0) else None in
  let '(data', words', times') := likely_input RF nframes z (on_line a s times) words times in
  sane times' guess gain rn root use ->
  fit_ramps RF (length times' - 1) (mk_covar RF times') root gain rn (Some guess) (diffs RF data' times') use = Some r ->
  f_rate RF r = s /\ f_chisq RF r = 0.
Proof.
  intros a s times zf nframes words guess gain rn root use r Hn G. cbv zeta.
  assert (C : exists times' words', likely_input RF nframes (if zf then Some (a + s * nth 0 (nth 0 times []) 0) else None) (on_line a s times) words times = (on_line a s times', words', times') /\ good_times times').
  { destruct zf; [|exists times, words; split; [reflexivity|exact G]]. specialize (Hn eq_refl).
    destruct times as [|[|t0 [|t1 ts]] gs]; try (exists ([] : list (list R)), words; split; [reflexivity|exact G]); try (eexists; exists words; split; [reflexivity|exact G]).
    exists ([t0] :: (t1 :: ts) :: gs), (zf_words words). split; [|apply split_times, G]. unfold likely_input. cbn [nth] in Hn |- *. rewrite Hn, zf_on_line. reflexivity. }
  destruct C as (times' & words' & E & G'). match goal with |- context [likely_input ?a1 ?a2 ?a3 ?a4 ?a5 ?a6] => assert (E' : likely_input a1 a2 a3 a4 a5 a6 = (on_line a s times', words', times')) by exact E; rewrite E' end. clear E E' Hn. intros OK Fit.
  rewrite (b_r _ _ _ _ _ _ _ _ Fit).
  apply C38_constant_rate; [apply (b_n _ _ _ _ _ _ OK)|apply (b_pd _ _ _ _ _ _ OK)|apply (b_s _ _ _ _ _ _ OK)|destruct OK; assumption|].
  intros i Hi _. apply line_diffs; [exact G'|lia].
Qed.
Print Assumptions C107_first_group. Print Assumptions C107_recovers.
(** the ZEROFRAME sample is used only with a clean first group; all later differences are masked as without it *)
Theorem C107_masks : forall nframes z data w0 ws (t0 t1 : R) ts gs i,
  let words' := snd (fst (likely_input RF nframes (Some z) data (w0 :: ws) ((t0 :: t1 :: ts) :: gs))) in let use l := diffs2use (fun k => nth k l 0%N) in
  (use words' 0%nat = true <-> (w0 mod 256 = 0)%N) /\ use words' (S i) = use (w0 :: ws) i.
Proof.
  intros nframes z data w0 ws t0 t1 ts gs i. unfold likely_input. cbn [snd fst zf_words]. unfold diffs2use. cbn [nth]. split; [|reflexivity]. rewrite andb_diag. apply N.eqb_eq.
Qed.
Print Assumptions C107_masks.
(** the default read times: groups are nframes + groupgap frames apart *)
Theorem C107_readtimes : forall frame nframes gap ng i, (1 <= nframes)%nat -> (S i < ng)%nat ->
  c_dt RF (mk_covar RF (readtimes RF frame nframes gap ng)) i = INR (nframes + gap) * frame /\ length (nth i (readtimes RF frame nframes gap ng) []) = nframes.
Proof.
  intros frame nframes gap ng i N1 H. unfold mk_covar. cbn [c_dt]. rewrite !mean_Rmean. unfold readtimes.
  set (h := fun k => map (fun j => fmul RF (fofZ RF (Z.of_nat (j + k * (nframes + gap)))) frame) (seq 1 nframes)).
  assert (E : forall k, (k < ng)%nat -> nth k (map h (seq 0 ng)) [] = h k).
  { intros k K. rewrite (nth_indep _ _ (h 0%nat)) by (rewrite map_length, seq_length; exact K). rewrite map_nth, seq_nth by exact K. reflexivity. }
  rewrite !E by lia. split; [|unfold h; rewrite map_length, seq_length; reflexivity].
  assert (T : h (S i) = map (fun t => INR (nframes + gap) * frame + 1 * t) (h i)).
  { unfold h. rewrite map_map. apply map_ext. intro j. cbn [fmul fofZ RF]. eqR. rewrite <- !INR_IZR_INZ, !plus_INR, !mult_INR, !plus_INR, S_INR. ring. }
  rewrite T. rewrite Rmean_lin. { cbn [fsub RF]. eqR. ring. } unfold h. destruct nframes; [lia|]. discriminate.
Qed.
Print Assumptions C107_readtimes.
(** a ZEROFRAME sample of zero, the mark of an unusable one (the OLS fit skips it), enters the likelihood fit *)
Theorem C107_unusable_refuted : exists a s times words, good_times times /\ (forall w, In w words -> w = 0%N) /\
  let '(data', words', times') := likely_input RF 2 (Some 0) (on_line a s times) words times in
  diffs2use (fun k => nth k words' 0%N) 0 = true /\ diffs RF data' times' 0 <> s.
Proof.
  exists 100, 1, [[1; 2]; [3; 4]; [5; 6]; [7; 8]], [0; 0; 0; 0]%N. split.
  { split; [repeat constructor; discriminate|]. cbn. repeat constructor; lra. }
  split; [intros w I; cbn in I; intuition|]. unfold likely_input. split; [reflexivity|]. unfold diffs, mk_covar. cbn [c_dt]. rewrite !mean_Rmean. unfold Rmean. cbn. unfold Rmean. cbn. intro H. replace ((2 + 0) / 1 - (1 + 0) / 1) with 1 in H by field. lra.
Qed.
Print Assumptions C107_unusable_refuted.
Ltac lists := match goal with |- (_ :: _) = (_ :: _) => apply (f_equal2 cons); [try reflexivity; try (cbn; eqR; field)|lists] | |- _ => reflexivity end.
Example C107_example : let times := [[1; 2]; [3; 4]; [5; 6]; [7; 8]] in good_times times /\ on_line 100 1 times = [101 + 1 / 2; 103 + 1 / 2; 105 + 1 / 2; 107 + 1 / 2] /\
  likely_input RF 2 (Some (100 + 1 * 1)) (on_line 100 1 times) [0; 0; 4; 0]%N times = ([101; 102; 103 + 1 / 2; 105 + 1 / 2; 107 + 1 / 2], [0; 0; 0; 4; 0]%N, [[1]; [2]; [3; 4]; [5; 6]; [7; 8]]).
Proof.
  cbv zeta. split; [split; [repeat constructor; discriminate|cbn; repeat constructor; lra]|].
  assert (L : on_line 100 1 [[1; 2]; [3; 4]; [5; 6]; [7; 8]] = [101 + 1 / 2; 103 + 1 / 2; 105 + 1 / 2; 107 + 1 / 2]) by (unfold on_line, Rmean; cbn; lists).
  split; [exact L|]. rewrite L. unfold likely_input, zf_data, zf_words. apply (f_equal2 pair); [apply (f_equal2 pair)|]; lists.
Qed.

(** * C109: no difference can be used *)
(** Arithmetic in which products with zero are zeros or NaN: IEEE of any precision with a proper one, and [RN]. *)
Record zlaws (fo : FOps) (zn : fo -> Prop) : Prop := {
  z_zero : zn (fzero fo); z_mul : forall x, zn (fmul fo x (fzero fo)); z_mul2 : forall x y, zn x -> zn y -> zn (fmul fo x y);
  z_add : forall x y, zn x -> zn y -> zn (fadd fo x y);
  z_div : forall x y, zn x -> zn y -> fisnan fo (fdiv fo x y) = true; z_inv : forall x y, zn x -> zn y -> fisnan fo (fmul fo x (fdiv fo (fone fo) y)) = true;
  z_sqrt : forall x y, zn y -> fisfinite fo (fsqrt fo (fdiv fo x y)) = false;
  z_al : forall x y, fisnan fo x = true -> fisnan fo (fadd fo x y) = true; z_ar : forall x y, fisnan fo y = true -> fisnan fo (fadd fo x y) = true;
  z_ml : forall x y, fisnan fo x = true -> fisnan fo (fmul fo x y) = true; z_sr : forall x y, fisnan fo y = true -> fisnan fo (fsub fo x y) = true;
  z_dl : forall x y, fisnan fo x = true -> fisnan fo (fdiv fo x y) = true }.
Definition szn (x : spec_float) : Prop := match x with S754_zero _ | S754_nan => True | _ => False end.
Lemma szn_laws prec emax m e : fone (ieee prec emax) = S754_finite false m e -> zlaws (ieee prec emax) szn.
Proof.
  intro O. assert (L := FLaws.ieee_laws prec emax). constructor; try (intros x y; first [apply (FLaws.add_nan_l _ L)|apply (FLaws.add_nan_r _ L)|apply (FLaws.mul_nan_l _ L)|apply (FLaws.sub_nan_r _ L)|apply (FLaws.div_nan_l _ L)]).
  - exact I.
  - intros [[]|[]| |[] mx ex]; exact I.
  - intros [[]|[]| |[] mx ex] [[]|[]| |[] my ey]; cbn; tauto.
  - intros [[]|[]| |[] mx ex] [[]|[]| |[] my ey]; cbn; tauto.
  - intros [[]|[]| |[] mx ex] [[]|[]| |[] my ey]; cbn; tauto.
  - intros x y. rewrite O. destruct x as [[]|[]| |[] mx ex], y as [[]|[]| |[] my ey]; cbn; tauto.
  - intros [[]|[]| |[] mx ex] [[]|[]| |[] my ey]; cbn; tauto.
Qed.
Lemma B32_zlaws : zlaws B32 szn. Proof. eapply szn_laws. vm_compute. reflexivity. Qed.
Lemma B64_zlaws : zlaws B64 szn. Proof. eapply szn_laws. vm_compute. reflexivity. Qed.
Lemma RN_zlaws : zlaws RN (fun x => x = None \/ x = Some 0).
Proof.
  assert (Q : Reqb 0 0 = true) by (apply Reqb_spec; reflexivity).
  constructor; cbn.
  - tauto.
  - intros [x|]; cbn; [right; f_equal; ring|tauto].
  - intros x y [->| ->] [->| ->]; cbn; try tauto. right; f_equal; ring.
  - intros x y [->| ->] [->| ->]; cbn; try tauto. right; f_equal; ring.
  - intros x y [->| ->] [->| ->]; try reflexivity. rewrite Q. reflexivity.
  - intros x y [->| ->] [->| ->]; try reflexivity. rewrite Q. reflexivity.
  - intros [x|] y [->| ->]; try reflexivity. rewrite Q. reflexivity.
  - intros [x|] [y|]; cbn; congruence.
  - intros [x|] [y|]; cbn; congruence.
  - intros [x|] [y|]; cbn; congruence.
  - intros [x|] [y|]; cbn; congruence.
  - intros [x|] [y|]; cbn; congruence.
Qed.
Section Masked.
  Context {fo : FOps} {zn : fo -> Prop} (Z : zlaws fo zn).
  Lemma lsum_zn a n : (forall i, (i < n)%nat -> zn (a i)) -> zn (lsum fo a n).
  Proof.
    intro H. unfold lsum. assert (G : forall l x, zn x -> Forall zn l -> zn (fold_left (fadd fo) l x)).
    { induction l as [|y l IH]; intros x X F; [exact X|]. inversion F; subst. apply IH; [apply (z_add _ _ Z); assumption|assumption]. }
    apply G; [apply (z_zero _ _ Z)|]. apply Forall_forall. intros x I. apply in_map_iff in I. destruct I as (i & <- & J). apply in_seq in J. apply H. lia.
  Qed.
  Lemma fold_nan l : forall x, fisnan fo x = true -> fisnan fo (fold_left (fadd fo) l x) = true.
  Proof. induction l as [|y l IH]; intros x X; [exact X|]. apply IH, (z_al _ _ Z), X. Qed.
  Lemma lsum_nan a n : (1 <= n)%nat -> fisnan fo (a 0%nat) = true -> fisnan fo (lsum fo a n) = true.
  Proof. intros N A. unfold lsum. destruct n; [lia|]. cbn [seq map fold_left]. apply fold_nan, (z_ar _ _ Z), A. Qed.
  Lemma all_masked n c scale d use : (1 <= n)%nat -> (forall i, (i < n)%nat -> use i = false) -> let r := fit_ramp fo n c scale d use in
    fisnan fo (f_rate fo r) = true /\ fisnan fo (f_vp fo r) = true /\ fisnan fo (f_vr fo r) = true /\ fisnan fo (f_chisq fo r) = true /\ fisfinite fo (f_uncert fo r) = false.
  Proof.
    intros N U. cbv zeta. unfold fit_ramp, fit_mats. set (al := fun i => fdiv fo (p_alpha fo c i) scale). set (be := masked_beta fo _ use). set (dm := masked_diff fo d use).
    assert (DC : forall i, (i < n)%nat -> zn (k_dC fo (matrices fo n al be dm use) i)) by (intros i H; unfold matrices; cbn [k_dC]; rewrite (U i H); apply (z_mul _ _ Z)).
    assert (DM : forall i, (i < n)%nat -> zn (dm i)) by (intros i H; unfold dm, masked_diff; rewrite (U i H); apply (z_mul _ _ Z)).
    assert (KC : zn (k_C fo (matrices fo n al be dm use))) by (change (zn (lsum fo (k_dC fo (matrices fo n al be dm use)) n)); apply lsum_zn, DC).
    assert (KB : zn (k_B fo (matrices fo n al be dm use))) by (change (zn (lsum fo (fun i => fmul fo (dm i) (k_dC fo (matrices fo n al be dm use) i)) n)); apply lsum_zn; intros i H; apply (z_mul2 _ _ Z); [apply DM, H|apply DC, H]).
    set (M := matrices fo n al be dm use) in *. clearbody M. clear DM. unfold ramp_result. cbn [f_rate f_vp f_vr f_chisq f_uncert].
    assert (W : fisnan fo (fdiv fo (k_dC fo M 0%nat) (k_C fo M)) = true) by (apply (z_div _ _ Z); [apply DC; lia|exact KC]).
    repeat split.
    - apply (z_inv _ _ Z); assumption.
    - apply (z_al _ _ Z), lsum_nan; [exact N|]. apply (z_ml _ _ Z), (z_ml _ _ Z), W.
    - apply (z_al _ _ Z), lsum_nan; [exact N|]. apply (z_ml _ _ Z), (z_ml _ _ Z), W.
    - apply (z_dl _ _ Z), (z_sr _ _ Z), (z_div _ _ Z); [apply (z_mul2 _ _ Z); assumption|exact KC].
    - apply (z_sqrt _ _ Z), KC.
  Qed.
End Masked.
(** what the fit of a pixel without usable differences reports, in single, double and exact arithmetic *)
Definition no_result (fo : FOps) (r : lfit fo) : Prop :=
  fisnan fo (f_rate fo r) = true /\ fisnan fo (f_vp fo r) = true /\ fisnan fo (f_vr fo r) = true /\ fisnan fo (f_chisq fo r) = true /\ fisfinite fo (f_uncert fo r) = false.
Theorem C109_no_difference : forall fo, fo = B32 \/ fo = B64 \/ fo = RN -> forall n cv root gain rn guess d use r, (1 <= n)%nat ->
  (forall i, (i < n)%nat -> use i = false) -> fit_ramps fo n cv root gain rn guess d use = Some r -> no_result fo r.
Proof.
  intros fo FO n cv root gain rn [g|] d use r N U H; [|discriminate H]. injection H as <-.
  destruct FO as [->|[->| ->]]; [apply (all_masked B32_zlaws)|apply (all_masked B64_zlaws)|apply (all_masked RN_zlaws)]; assumption.
Qed.
Print Assumptions C109_no_difference.
(** an integration that gets DO_NOT_USE from its groups has no result, whatever the jump search does to the mask *)
Theorem C109_flagged : forall fo, fo = B32 \/ fo = B64 \/ fo = RN -> forall dnu jump sat pers ngval chg words n cv root gain rn guess d use r,
  NoDup [dnu; jump; sat] -> (dnu < 8)%N -> (sat < 8)%N -> (1 <= n)%nat -> length words = S n ->
  N.testbit (dq_compress_sect (flags_at dnu jump sat pers ngval chg) words 0) dnu = true ->
  (forall i, use i = true -> diffs2use (fun k => nth k words 0%N) i = true) ->
  fit_ramps fo n cv root gain rn guess d use = Some r -> no_result fo r.
Proof.
  intros fo FO dnu jump sat pers ngval chg words n cv root gain rn guess d use r ND D8 S8 N LW W U H.
  refine (C109_no_difference fo FO n cv root gain rn guess d use r N _ H). intros i Hi. destruct (use i) eqn:E; [|reflexivity]. exfalso. specialize (U i E).
  apply (OlsPyProps.C32_compress_groups dnu jump sat pers ngval chg words 0 ND) in W. rewrite N.bits_0 in W. destruct W as [W|W]; [discriminate|].
  assert (IL : (i < length words)%nat) by lia. specialize (W (nth i words 0%N) (nth_In words 0%N IL)). unfold diffs2use in U. apply andb_true_iff in U. destruct U as [_ U]. apply N.eqb_eq in U. set (w := nth i words 0%N) in *. clearbody w.
  assert (T : forall k, (k < 8)%N -> N.testbit w k = true -> False).
  { intros k K B. assert (X : N.testbit (w mod 2 ^ 8) k = N.testbit w k) by (apply N.mod_pow2_bits_low, K). change (2 ^ 8)%N with 256%N in X. rewrite U, N.bits_0 in X. congruence. }
  destruct W as [W|W]; [exact (T dnu D8 W)|exact (T sat S8 W)].
Qed.
Print Assumptions C109_flagged.
(** the converse fails: groups usable only one at a time leave the rate NaN and the integration not flagged DO_NOT_USE *)
Theorem C109_unflagged_refuted : exists words, (forall i, diffs2use (fun k => nth k words 4%N) i = false) /\ (exists w, In w words /\ w = 0%N) /\
  forall pers ngval chg, N.testbit (dq_compress_sect (flags_at 0 2 1 pers ngval chg) words 0) 0 = false.
Proof.
  exists [0; 4; 0; 4; 0]%N. split; [|split; [exists 0%N; cbn; tauto|reflexivity]]. intro i. do 5 (destruct i as [|i]; [reflexivity|]). unfold diffs2use. destruct i; reflexivity.
Qed.
(** and the error of such a pixel is infinite, not NaN *)
Definition b64 := fofZ B64.
Theorem C109_error_refuted : exists cv root d r, fit_ramps B64 3 cv root (b64 1) (b64 10) (Some (b64 0)) d (fun _ => false) = Some r /\ f_uncert B64 r = S754_infinity false.
Proof.
  exists (mk_covar B64 (map (fun k => [b64 k]) [1; 2; 3; 4]%Z)), (fun _ _ => b64 1), (fun _ => b64 5). eexists. split; [reflexivity|]. vm_compute. reflexivity.
Qed.
Print Assumptions C109_unflagged_refuted. Print Assumptions C109_error_refuted.
Example C109_example : let words := [1; 3; 2; 1]%N in let use := diffs2use (fun k => nth k words 0%N) in
  N.testbit (dq_compress_sect (flags_at 0 2 1 3 4 7) words 0) 0 = true /\
  exists r, fit_ramps B64 3 (mk_covar B64 (map (fun k => [b64 k]) [1; 2; 3; 4]%Z)) (fun _ _ => b64 1) (b64 1) (b64 10) (Some (b64 3)) (fun _ => b64 5) use = Some r /\ f_rate B64 r = S754_nan.
Proof. cbv zeta. split; [reflexivity|]. eexists. split; [reflexivity|]. vm_compute. reflexivity. Qed.
