(** C119: a constant added to all groups changes neither jump detection, nor the optimal-weighting fit, nor the likelihood fit. *)
From Verif Require Import Base BaseLemmas FLaws RBase RNBase LikelyModel Cas22Model Cas22Fit JumpModel DrvModel JumpProps.
From Coq Require Import Reals Lra Lia FunctionalExtensionality.

(** ** Specification: the same exposure with a pedestal, one value for each pixel and integration *)
Definition raised4 (c : nat -> nat -> nat -> R) (dat : arr4 RN) : arr4 RN := fun i g r k => fadd RN (dat i g r k) (Some (c i r k)).

(** ** Two-point differences *)
Lemma pedestal_diff (x y : option R) (c : R) : fsub RN (fadd RN x (Some c)) (fadd RN y (Some c)) = fsub RN x y.
Proof. destruct x as [x|], y as [y|]; try reflexivity. cbn. f_equal. ring. Qed.
Lemma raised_diffs P c dat gdq : first_diffs RN P (mask_data RN P (raised4 c dat) gdq) = first_diffs RN P (mask_data RN P dat gdq).
Proof.
  extensionality i. extensionality j. extensionality r. extensionality k. unfold first_diffs, mask_data, raised4. f_equal.
  destruct (has (gdq i (j + 1)%nat r k) _), (has (gdq i j r k) _); try reflexivity; [destruct (dat i (j + 1)%nat r k); reflexivity|apply pedestal_diff].
Qed.
Theorem C119_find_crs : forall med sigclip crowded P nints ng nr nc c dat gdq rn,
  find_crs RN med sigclip crowded P nints ng nr nc (raised4 c dat) gdq rn = find_crs RN med sigclip crowded P nints ng nr nc dat gdq rn.
Proof. intros. unfold find_crs, run_jump_detection. rewrite raised_diffs. reflexivity. Qed.
(** the whole detection stage, in any number of slices *)
Theorem C119_detection : forall med sigclip crowded P nints ng nrows ncols c dat gdq rn n,
  detection_stage RN med sigclip crowded P nints ng nrows ncols (raised4 c dat) gdq rn n = detection_stage RN med sigclip crowded P nints ng nrows ncols dat gdq rn n.
Proof.
  intros. unfold detection_stage. rewrite C119_find_crs. destruct (Nat.eqb n 1); [reflexivity|]. do 2 f_equal. unfold twopoint_diff_multi. f_equal. apply map_ext. intros [off h]. cbn [fst snd].
  exact (C119_find_crs _ _ _ _ _ _ _ _ (fun i r k => c i (off + r)%nat k) (rows4 off dat) (rows4 off gdq) (rows_from off rn)).
Qed.
Print Assumptions C119_find_crs.
Print Assumptions C119_detection.

(** ** The optimal-weighting fit *)
Section Cas.
  Variable pow : R -> R -> R.
  Variables (y t tau : nat -> R) (nr : nat -> nat) (rn c : R).
  Notation y' := (fun i => y i + c)%R.
  Lemma power_pedestal r : ramp_power RF y' rn r = ramp_power RF y rn r.
  Proof. unfold ramp_power. cbv zeta. replace (fsub RF (y (snd r) + c)%R (y (fst r) + c)%R) with (fsub RF (y (snd r)) (y (fst r))) by (cbn; ring). reflexivity. Qed.
  Lemma weight_pedestal r : wt pow y' t nr rn r = wt pow y t nr rn r.
  Proof. extensionality i. unfold wt, weight_at. cbv zeta. rewrite power_pedestal. reflexivity. Qed.
  Lemma fit_pedestal : fit_ramp RF pow y' t tau nr rn = fit_ramp RF pow y t tau nr rn.
  Proof.
    extensionality r. destruct (Nat.lt_ge_cases (fst r) (snd r)) as [H|H].
    - rewrite !fit_ramp_R by assumption. assert (D : det pow y' t nr rn r = det pow y t nr rn r) by (unfold det; rewrite weight_pedestal; reflexivity).
      rewrite D. destruct (Reqb _ 0) eqn:Z; [reflexivity|]. assert (C : co pow y' t nr rn r = co pow y t nr rn r) by (unfold co; rewrite weight_pedestal; reflexivity).
      unfold fitR. rewrite C. f_equal. set (k := co pow y t nr rn r).
      rewrite (Rsum_ext _ (fun i => k i * y i + c * k i)%R) by (intros; ring). rewrite Rsum_plus, Rsum_scal. unfold k, co. rewrite cf_sum0. ring.
    - unfold fit_ramp. destruct (Nat.leb_spec (snd r + 1 - fst r) 1); [reflexivity|lia].
  Qed.
  Lemma pixel_pedestal d i : pixel_at RF y' t tau nr rn d i = pixel_at RF y t tau nr rn d i.
  Proof. unfold pixel_at. cbv zeta. replace (fsub RF (y (i + d)%nat + c)%R (y i + c)%R) with (fsub RF (y (i + d)%nat) (y i)) by (cbn; ring). reflexivity. Qed.
  Lemma fill_pedestal n b : fill_pixel RF y' t tau nr rn n b = fill_pixel RF y t tau nr rn n b.
  Proof. extensionality d. extensionality i. unfold fill_pixel. rewrite !pixel_pedestal. reflexivity. Qed.
  Theorem C119_cas22_pixel : forall lg use_jump ic cc n dq b, fit_jumps RF pow lg use_jump ic cc t tau nr n y' dq rn b = fit_jumps RF pow lg use_jump ic cc t tau nr n y dq rn b.
  Proof. intros. unfold fit_jumps. rewrite fit_pedestal, fill_pedestal. reflexivity. Qed.
End Cas.
Theorem C119_cas22 : forall pow lg use_jump ic cc read_time pattern n np y dq rn b (c : nat -> R),
  fit_ramps RF pow lg use_jump ic cc read_time pattern n np (fun i p => y i p + c p)%R dq rn b = fit_ramps RF pow lg use_jump ic cc read_time pattern n np y dq rn b.
Proof.
  intros. unfold fit_ramps. destruct (_ || _); [reflexivity|]. f_equal. f_equal. extensionality st. extensionality p. destruct st as [outs b'].
  rewrite (C119_cas22_pixel pow (fun i => y i p)). reflexivity.
Qed.
Print Assumptions C119_cas22.

(** ** The likelihood fit: the rates between consecutive samples, all that it sees of the data *)
Definition raised_list (c : R) (l : list RN) : list RN := map (fun x => fadd RN x (Some c)) l.
Lemma nth_raised c l i : (i < length l)%nat -> nth i (raised_list c l) (fzero RN) = fadd RN (nth i l (fzero RN)) (Some c).
Proof. intro H. unfold raised_list. rewrite (nth_indep _ _ ((fun x => fadd RN x (Some c)) (fzero RN))) by (rewrite map_length; exact H). exact (map_nth (fun x => fadd RN x (Some c)) l (fzero RN) i). Qed.
Lemma zf_raised nframes (z : RN) data c : (2 <= nframes)%nat -> zf_data RN nframes (fadd RN z (Some c)) (raised_list c data) = raised_list c (zf_data RN nframes z data).
Proof.
  intro H. destruct data as [|d0 ds]; [reflexivity|]. cbn [raised_list map zf_data]. do 2 f_equal.
  assert (N0 : (IZR (Z.of_nat nframes - 1) <> 0)%R) by (apply not_0_IZR; lia).
  assert (B : Reqb (IZR (Z.of_nat nframes - 1)) 0 = false) by (apply not_true_is_false; intro X; apply Reqb_spec in X; contradiction).
  destruct z as [z|], d0 as [d|]; try reflexivity. cbn. rewrite B. cbn. f_equal. rewrite minus_IZR in *. field. exact N0.
Qed.
Theorem C119_likely : forall nframes zf data words times c i, (zf <> None -> (2 <= nframes)%nat) ->
  let inp := likely_input RN nframes zf data words times in
  let inp' := likely_input RN nframes (option_map (fun z => fadd RN z (Some c)) zf) (raised_list c data) words times in
  snd inp' = snd inp /\ snd (fst inp') = snd (fst inp) /\ length (fst (fst inp')) = length (fst (fst inp)) /\
  ((S i < length (fst (fst inp)))%nat -> diffs RN (fst (fst inp')) (snd inp') i = diffs RN (fst (fst inp)) (snd inp) i).
Proof.
  intros nframes zf data words times c i H inp inp'.
  assert (E : inp' = (raised_list c (fst (fst inp)), snd (fst inp), snd inp)).
  { unfold inp, inp', likely_input. destruct zf as [z|]; cbn [option_map]; [|reflexivity]. destruct times as [|[|t0 [|t1 ts]] gs]; try reflexivity. cbn [fst snd]. rewrite zf_raised by (apply H; discriminate). reflexivity. }
  rewrite E. cbn [fst snd]. split; [reflexivity|]. split; [reflexivity|]. split; [apply map_length|]. intro L. unfold diffs. f_equal. rewrite !nth_raised by lia. apply pedestal_diff.
Qed.
Print Assumptions C119_likely.

(** ** In binary64 the same holds only as long as nothing is rounded: a small pedestal leaves the jumps of the example alone, an enormous one
    hides them *)
Definition pj_dat (c : Z) : arr4 B64 := fun i g r k => fadd B64 (nth g (map z64 [0; 10; 21; 531; 541; 581; 592]%Z) (z64 0)) (z64 c).
Definition pj_flags (c : Z) : list N := map (fun g => detection_stage B64 med64 nosig nocrowd (exP 3 100 true) 1 7 1 1 (pj_dat c) (fun _ _ _ _ => 0%N) (fun _ _ => z64 1) 1 0 g 0 0) (seq 0 7).
Theorem C119_rounding_refuted : exists c, pj_flags c <> pj_flags 0.
Proof. exists (2 ^ 70)%Z. vm_compute. discriminate. Qed.
Print Assumptions C119_rounding_refuted.
Example C119_detection_example : pj_flags 0 = [0; 0; 0; 4; 0; 4; 0]%N /\ pj_flags 1000 = pj_flags 0.
Proof. split; vm_compute; reflexivity. Qed.
(** three resultants of one read, 5 8 12 and 105 108 112: the same slope *)
Example C119_cas22_example : let f (c : Z) := match fit_ramps B64 (fun _ _ => fone B64) (fun x => x) false (fzero B64) (fzero B64) (fone B64) [[1]; [2]; [3]]%Z 3 1
      (fun i _ => fofZ B64 (nth i [5; 8; 12] 0 + c)%Z) (fun _ _ => 0%Z) (fun _ => fone B64) (fun _ _ => (fzero B64, fzero B64)) with Some [(f, _, _)] => Some (f_slope f) | _ => None end in
  f 0%Z = f 100%Z /\ f 0%Z <> None.
Proof. vm_compute. split; [reflexivity|discriminate]. Qed.
(** two reads in the first group, with a ZEROFRAME *)
Example C119_likely_example : forall c : R, diffs RN (fst (fst (likely_input RN 2 (Some (Some (3 + c)%R)) [Some (4 + c)%R; Some (9 + c)%R] [0%N; 0%N] [[Some 1; Some 2]; [Some 3; Some 4]]%R)))
    (snd (likely_input RN 2 (Some (Some (3 + c)%R)) [Some (4 + c)%R; Some (9 + c)%R] [0%N; 0%N] [[Some 1; Some 2]; [Some 3; Some 4]]%R)) 0 =
  diffs RN [Some 3; Some 5; Some 9]%R [[Some 1]; [Some 2]; [Some 3; Some 4]]%R 0.
Proof.
  intro c. pose proof (C119_likely 2 (Some (Some 3%R)) [Some 4%R; Some 9%R] [0%N; 0%N] [[Some 1; Some 2]; [Some 3; Some 4]]%R c 0 (fun _ => le_n 2)) as H. cbv zeta in H. destruct H as (_ & _ & _ & H). specialize (H ltac:(cbn; lia)).
  refine (eq_trans H _). cbn [likely_input fst snd zf_data]. unfold diffs. f_equal. cbn [nth]. cbn. change (IZR (Z.of_nat 2 - 1)) with 1%R. destruct (Reqb 1 0) eqn:B; [apply Reqb_spec in B; lra|]. f_equal. cbn. f_equal. field.
Qed.
