(** C46, C47: drizzle weights and the pixel range of resampling. *)
From Verif Require Import Base BaseLemmas SFLemmas RBase RNBase ResUtilModel.
From Coq Require Import Reals Lra Lia ZArith SpecFloat String.
Local Open Scope R_scope.

(** *** C46, specification: a pixel is bad when its DQ word has a bit outside good_bits *)
Definition bad_pixel (dq : N) (good_bits : option N) : Prop := match good_bits with None => False | Some g => exists k, N.testbit dq k = true /\ N.testbit g k = false end.
Lemma mask_bad fo dq g : bad_pixel dq g -> dq_mask fo dq g = fzero fo.
Proof.
  unfold bad_pixel, dq_mask. destruct g as [g|]; [|tauto]. intros [k [H1 H2]]. destruct (N.eqb_spec (N.ldiff dq g) 0) as [E|_]; [|reflexivity]. exfalso. apply (f_equal (fun w => N.testbit w k)) in E. rewrite N.ldiff_spec, H1, H2, N.bits_0 in E. discriminate.
Qed.
Lemma mask_good fo dq g : ~ bad_pixel dq g -> dq_mask fo dq g = fone fo.
Proof.
  unfold bad_pixel, dq_mask. destruct g as [g|]; [|reflexivity]. intro H. destruct (N.eqb_spec (N.ldiff dq g) 0) as [_|E]; [reflexivity|]. exfalso. apply H. apply N.bits_inj_0 in E || (
    assert (X : exists k, N.testbit (N.ldiff dq g) k = true) by (exists (N.log2 (N.ldiff dq g)); apply N.bit_log2, E);
    destruct X as [k X]; exists k; rewrite N.ldiff_spec in X; apply andb_prop in X; destruct X as [X1 X2]; split; [exact X1|destruct (N.testbit g k); [discriminate|reflexivity]]).
Qed.
Definition sf_is_zero (x : spec_float) : bool := match x with S754_zero _ => true | _ => false end.
Lemma SFmul_zero_r prec emax x s : sf_isfinite x = true -> sf_is_zero (SFmul prec emax x (S754_zero s)) = true.
Proof. destruct x; cbn; try discriminate; reflexivity. Qed.
(** C46, bad pixels, IEEE arithmetic of any precision that has 1 (binary32, binary64): the weight is zero, for every weight
    type and whatever the variances; with exptime weighting when the time is a finite number *)
Theorem C46_bad prec emax wt dq g rn sky t w : sf_isfinite (fone (ieee prec emax)) = true -> bad_pixel dq g ->
  (wt = Some "exptime"%string -> exists x, t = Some x /\ sf_isfinite x = true) ->
  driz_weight (ieee prec emax) wt dq g rn sky t = Some w -> sf_is_zero w = true.
Proof.
  intros One B T. assert (Inv : forall v, sf_isfinite (inverse_variance (ieee prec emax) v) = true).
  { intros [v|]; [|exact One]. unfold inverse_variance. cbn [fisfinite ieee]. destruct (sf_isfinite (fdiv (ieee prec emax) (fone (ieee prec emax)) v)) eqn:E; [exact E|reflexivity]. }
  unfold driz_weight. rewrite (mask_bad _ _ _ B). destruct wt as [wt|].
  - destruct (String.eqb_spec wt "ivm"); [intro H; injection H as <-; apply SFmul_zero_r, Inv|]. destruct (String.eqb_spec wt "ivm-sky"); [intro H; injection H as <-; apply SFmul_zero_r, Inv|]. destruct (String.eqb_spec wt "exptime") as [->|]; [|discriminate].
    destruct (T eq_refl) as [x [-> Fx]]. intro H. injection H as <-. apply SFmul_zero_r, Fx.
  - intro H. injection H as <-. reflexivity.
Qed.
(** specification of the weight of a good pixel, exact numbers, None: not a number *)
Definition inv_spec (v : option (option R)) : R := match v with None => 1 | Some (Some x) => if Req_EM_T x 0 then 0 else / x | Some None => 0 end.
(** C46, good pixels, exact arithmetic *)
Theorem C46_good wt dq g (rn sky t : option RN) : ~ bad_pixel dq g ->
  driz_weight RN wt dq g rn sky t =
    match wt with
    | None => Some (Some 1)
    | Some w => if String.eqb w "ivm" then Some (Some (inv_spec rn)) else if String.eqb w "ivm-sky" then Some (Some (inv_spec sky))
                else if String.eqb w "exptime" then Some (match t with Some (Some x) => Some x | _ => None end) else None
    end.
Proof.
  intro G. assert (Inv : forall v : option RN, fmul RN (inverse_variance RN v) (fone RN) = Some (inv_spec v)).
  { intros [[v|]|]; unfold inverse_variance, inv_spec; cbn [fdiv fone RN fisfinite fmul fzero]; [unfold Reqb; destruct (Req_EM_T v 0) as [Z|Z]; cbn [fisfinite rn2]; f_equal; try lra; field; exact Z|cbn [rn2]; f_equal; lra|cbn [rn2]; f_equal; lra]. }
  unfold driz_weight. rewrite (mask_good _ _ _ G). destruct wt as [w|]; [|reflexivity].
  destruct (String.eqb w "ivm"); [rewrite Inv; reflexivity|]. destruct (String.eqb w "ivm-sky"); [rewrite Inv; reflexivity|]. destruct (String.eqb w "exptime"); [|reflexivity].
  destruct t as [[x|]|]; cbn [fmul RN rn2 fone fnan]; f_equal. f_equal. lra.
Qed.
(** C46, good pixels, IEEE arithmetic: the multiplication by the mask changes nothing (k: the exponent of the number 1, 23 in binary32, 52 in binary64) *)
Lemma SFmul_comm prec emax x y : SFmul prec emax x y = SFmul prec emax y x.
Proof. destruct x, y; cbn [SFmul]; try reflexivity; rewrite ?(xorb_comm s s0), ?(Pos.mul_comm m m0), ?(Z.add_comm e e0); reflexivity. Qed.
Theorem C46_good_ieee prec emax k dq g rn sky t : fone (ieee prec emax) = sf_one k -> ~ bad_pixel dq g -> valid_binary prec emax (inverse_variance (ieee prec emax) rn) = true ->
  driz_weight (ieee prec emax) (Some "ivm"%string) dq g rn sky t = Some (inverse_variance (ieee prec emax) rn).
Proof.
  intros One G V. unfold driz_weight. rewrite (mask_good _ _ _ G), One. change (String.eqb "ivm" "ivm") with true. cbv iota. change (fmul (ieee prec emax)) with (SFmul prec emax). rewrite SFmul_comm. f_equal. apply SFmul_one, V.
Qed.

(** a bad pixel with exptime weighting and no time at all gets NaN, not 0; an infinite time too *)
Theorem C46_bad_time_refuted : exists dq g, bad_pixel dq g /\ driz_weight B32 (Some "exptime"%string) dq g None None None = Some (S754_nan : B32).
Proof. exists 1%N, (Some 0%N). split; [exists 0%N; split; reflexivity|]. reflexivity. Qed.
(** weight types the Resample class accepts and then cannot use *)
Theorem C46_type_refuted : exists w, type_accepted w = true /\ forall fo dq g rn sky t, driz_weight fo (Some w) dq g rn sky t = None.
Proof. exists "ivm_sky"%string. split; [reflexivity|]. intros. reflexivity. Qed.
(** a negative variance gives a negative weight *)
Theorem C46_negative_refuted : exists v w, driz_weight B32 (Some "ivm"%string) 0 (Some 0%N) (Some v) None None = Some w /\ flt B32 w (fzero B32) = true.
Proof. exists (fofZ B32 (-2)). eexists. split; [reflexivity|]. vm_compute. reflexivity. Qed.
Print Assumptions C46_bad.
Print Assumptions C46_good.
Print Assumptions C46_good_ieee.
Print Assumptions C46_bad_time_refuted.
Print Assumptions C46_type_refuted.
Print Assumptions C46_negative_refuted.
(** binary32 and binary64 meet the hypotheses; saturated (bit 1) and jump (bit 2) flags, only jump is ignorable *)
Example ex_one : sf_isfinite (fone B32) = true /\ sf_isfinite (fone B64) = true /\ fone B32 = (sf_one 23 : B32) /\ fone B64 = (sf_one 52 : B64). Proof. repeat split; vm_compute; reflexivity. Qed.
Example ex_bad : bad_pixel 6 (Some 4%N) /\ ~ bad_pixel 4 (Some 4%N). Proof. split; [exists 1%N; split; reflexivity|]. intros [k [H1 H2]]. destruct (N.eq_dec k 2) as [->|E]; [discriminate|]. change 4%N with (2 ^ 2)%N in H1. rewrite N.pow2_bits_false in H1 by congruence. discriminate. Qed.
Example ex_weight : driz_weight B32 (Some "ivm"%string) 6 (Some 4%N) (Some (fofZ B32 4)) None None = Some (fzero B32) /\ driz_weight B32 (Some "ivm"%string) 4 (Some 4%N) (Some (fofZ B32 4)) None None = Some (fdiv B32 (fone B32) (fofZ B32 4)) /\
  valid_binary 24 128 (inverse_variance B32 (Some (fofZ B32 4))) = true.
Proof. repeat split; vm_compute; reflexivity. Qed.

(** *** C47 *)
(** python's int(): towards zero *)
Definition Rtrunc (x : R) : Z := if Rle_dec 0 x then Int_part x else (- Int_part (- x))%Z.
Lemma trunc_nonneg x : 0 <= x -> (0 <= Rtrunc x)%Z /\ IZR (Rtrunc x) <= x < IZR (Rtrunc x) + 1.
Proof.
  intro H. unfold Rtrunc. destruct (Rle_dec 0 x); [|lra]. destruct (base_Int_part x) as [A B]. split; [|lra]. apply le_IZR. assert (IZR (-1) < IZR (Int_part x)) by (cbn; lra). apply lt_IZR in H0. apply IZR_le. lia.
Qed.
Lemma trunc_neg x : x < 0 -> (Rtrunc x <= 0)%Z.
Proof.
  intro H. unfold Rtrunc. destruct (Rle_dec 0 x); [lra|]. destruct (base_Int_part (- x)) as [A B]. assert (IZR (-1) < IZR (Int_part (- x))) by (cbn; lra). apply lt_IZR in H0. lia.
Qed.
(** C47: when the box starts before the right edge of the image the range is a non-empty range of valid indices, and when it also
    reaches the image it is exactly the set of pixels whose area [i - 1/2, i + 1/2) meets the box *)
Theorem C47_range (n : Z) (x1 x2 : R) lo hi : (1 <= n)%Z -> x1 < IZR n - 1 / 2 -> range1 RF Rtrunc n (Some (x1 : RF, x2 : RF)) = (lo, hi) ->
  (0 <= lo <= hi /\ hi <= n - 1)%Z /\
  (x1 <= x2 -> - (1 / 2) <= x2 -> forall i, (0 <= i <= n - 1)%Z -> ((lo <= i <= hi)%Z <-> x1 < IZR i + 1 / 2 /\ IZR i - 1 / 2 <= x2)).
Proof.
  intros Hn H1 H. unfold range1, half in H. cbn [fadd fdiv fone fofZ RF F] in H. injection H as <- <-.
  assert (Lo : (Rtrunc (x1 + 1 / 2) <= n - 1)%Z).
  { destruct (Rle_dec 0 (x1 + 1 / 2)) as [P|P]; [|pose proof (trunc_neg (x1 + 1 / 2)); assert (x1 + 1 / 2 < 0) by lra; lia]. destruct (trunc_nonneg _ P) as [_ [A _]]. assert (IZR (Rtrunc (x1 + 1 / 2)) < IZR n) by lra. apply lt_IZR in H. lia. }
  split; [lia|]. intros H12 H2 i Hi. assert (P2 : 0 <= x2 + 1 / 2) by lra. destruct (trunc_nonneg _ P2) as [T2 [A2 B2]].
  assert (Ilo : (Rtrunc (x1 + 1 / 2) <= i)%Z <-> x1 < IZR i + 1 / 2).
  { destruct (Rle_dec 0 (x1 + 1 / 2)) as [P|P].
    - destruct (trunc_nonneg _ P) as [_ [A B]]. split; intro Q.
      + apply IZR_le in Q. lra.
      + apply Z.lt_succ_r. apply lt_IZR. unfold Z.succ. rewrite plus_IZR. lra.
    - split; intros _; [|pose proof (trunc_neg (x1 + 1 / 2)); assert (x1 + 1 / 2 < 0) by lra; lia]. assert (0 <= IZR i) by (apply IZR_le; lia). lra. }
  assert (Ihi : (i <= Rtrunc (x2 + 1 / 2))%Z <-> IZR i - 1 / 2 <= x2).
  { split; intro Q; [apply IZR_le in Q; lra|]. apply Z.lt_succ_r. apply lt_IZR. unfold Z.succ. rewrite plus_IZR. lra. }
  assert (Mono : (Rtrunc (x1 + 1 / 2) <= Rtrunc (x2 + 1 / 2))%Z).
  { destruct (Rle_dec 0 (x1 + 1 / 2)) as [P|P]; [|pose proof (trunc_neg (x1 + 1 / 2)); assert (x1 + 1 / 2 < 0) by lra; lia]. destruct (trunc_nonneg _ P) as [_ [A B]]. apply Z.lt_succ_r. apply lt_IZR. unfold Z.succ. rewrite plus_IZR. lra. }
  rewrite <- Ilo, <- Ihi. lia.
Qed.
(** without a bounding box every pixel is used *)
Theorem C47_no_box (fo : FOps) tr n lo hi : (1 <= n)%Z -> range1 fo tr n None = (lo, hi) -> forall i, (lo <= i <= hi <-> 0 <= i <= n - 1)%Z.
Proof. intros Hn H i. unfold range1 in H. injection H as <- <-. lia. Qed.
(** machine numbers *)
Definition sf_trunc (x : spec_float) : Z := match x with S754_finite s m e => let z := if (0 <=? e)%Z then (Zpos m * 2 ^ e)%Z else (Zpos m / 2 ^ (- e))%Z in if s then (- z)%Z else z | _ => 0%Z end.
(** a box to the right of the image gives an index outside the image *)
Theorem C47_right_refuted : exists n x1 x2, let '(lo, hi) := range1 B64 sf_trunc n (Some (fofZ B64 x1, fofZ B64 x2)) in (lo = hi /\ n - 1 < hi)%Z.
Proof. exists 10%Z, 15%Z, 20%Z. vm_compute. split; reflexivity. Qed.
(** a box to the left of the image gives pixel 0 *)
Theorem C47_left_refuted : exists n x1 x2, (x1 < x2 < 0)%Z /\ range1 B64 sf_trunc n (Some (fofZ B64 x1, fofZ B64 x2)) = (0, 0)%Z.
Proof. exists 10%Z, (-9)%Z, (-5)%Z. split; [lia|]. vm_compute. reflexivity. Qed.
Print Assumptions C47_range.
Print Assumptions C47_no_box.
Print Assumptions C47_right_refuted.
Print Assumptions C47_left_refuted.
Example ex_range : range1 B64 sf_trunc 10 (Some (fdiv B64 (fofZ B64 (-1)) (fofZ B64 2), fdiv B64 (fofZ B64 13) (fofZ B64 2))) = (0, 7)%Z. Proof. vm_compute. reflexivity. Qed.
Example ex_range_hyps : (1 <= 10)%Z /\ - (1 / 2) < IZR 10 - 1 / 2 /\ - (1 / 2) <= 13 / 2. Proof. split; [lia|]. split; lra. Qed.
