(** C49 (cosine test, directories), C50 (trimming by brightness) *)
From Verif Require Import Base TwModel RBase.
From Coq Require Import Permutation Sorted Reals Lra Lia.
Import ListNotations.

(** ** C49: the final test keeps exactly the sources within the radius *)
Section Sep.
  Local Open Scope R_scope.
  (** Specification: direction of (ra, dec) in degrees, angle between two directions in degrees *)
  Definition rad (x : R) : R := x * PI / 180.
  Definition dir (ra dec : R) : R * R * R := (cos (rad dec) * cos (rad ra), cos (rad dec) * sin (rad ra), sin (rad dec)).
  Definition dot (a b : R * R * R) : R := let '(a1, a2, a3) := a in let '(b1, b2, b3) := b in a1 * b1 + a2 * b2 + a3 * b3.
  Definition separation (ra dec ra0 dec0 : R) : R := acos (dot (dir ra dec) (dir ra0 dec0)) * 180 / PI.

  Lemma dot_formula ra dec ra0 dec0 :
    dot (dir ra dec) (dir ra0 dec0) = sin (rad dec) * sin (rad dec0) + cos (rad dec) * cos (rad dec0) * cos (rad (ra - ra0)).
  Proof.
    unfold dot, dir. replace (rad (ra - ra0)) with (rad ra - rad ra0) by (unfold rad; lra). rewrite cos_minus. ring.
  Qed.
  Lemma dot_dir_bound ra dec ra0 dec0 : -1 <= dot (dir ra dec) (dir ra0 dec0) <= 1.
  Proof.
    rewrite dot_formula. pose proof (sin2_cos2 (rad dec)) as H1. pose proof (sin2_cos2 (rad dec0)) as H2. unfold Rsqr in *.
    pose proof (COS_bound (rad (ra - ra0))) as H3.
    set (s := sin (rad dec)) in *. set (c := cos (rad dec)) in *. set (s0 := sin (rad dec0)) in *. set (c0 := cos (rad dec0)) in *.
    set (t := cos (rad (ra - ra0))) in *. clearbody s c s0 c0 t.
    assert (Hcs : Rsqr (s * s0 + c * (c0 * t)) <= 1).
    { unfold Rsqr. assert (0 <= (s * (c0 * t) - c * s0) * (s * (c0 * t) - c * s0)) by apply Rle_0_sqr.
      assert ((s * s0 + c * (c0 * t)) * (s * s0 + c * (c0 * t)) + (s * (c0 * t) - c * s0) * (s * (c0 * t) - c * s0) = (s * s + c * c) * (s0 * s0 + c0 * c0 * (t * t))) by ring.
      rewrite H1 in H0. assert (t * t <= 1) by nra. assert (0 <= c0 * c0) by apply Rle_0_sqr. nra. }
    replace (s * s0 + c * c0 * t) with (s * s0 + c * (c0 * t)) by ring.
    replace 1 with (Rsqr 1) in Hcs by (unfold Rsqr; ring).
    split; [apply (Rsqr_neg_pos_le_0 _ 1 Hcs); lra|apply (Rsqr_incr_0_var _ 1 Hcs); lra].
  Qed.

  Theorem C49_cone ra dec ra0 dec0 radius : 0 <= radius <= 180 ->
    near_test RF (fun x => cos (rad x)) (fun x => sin (rad x)) ra dec ra0 dec0 radius = true <-> separation ra dec ra0 dec0 <= radius.
  Proof.
    intros Hr. unfold near_test, fge. cbn [RF fadd fsub fmul flt fle fone fofZ].
    pose proof (dot_dir_bound ra dec ra0 dec0) as Hb. rewrite <- dot_formula.
    set (x := dot _ _) in *. assert (PIp := PI_RGT_0).
    replace (Rltb x (IZR (-1))) with false by (symmetry; apply Bool.not_true_iff_false; rewrite Rltb_spec; lra).
    replace (Rltb 1 x) with false by (symmetry; apply Bool.not_true_iff_false; rewrite Rltb_spec; lra).
    rewrite Rleb_spec. unfold separation. fold x.
    assert (Hrad : 0 <= rad radius <= PI). { unfold rad. split; [apply Rmult_le_reg_r with 180; [lra|]; nra|]. apply Rmult_le_reg_r with 180; [lra|]. unfold Rdiv. rewrite Rmult_assoc, Rinv_l by lra. nra. }
    pose proof (acos_bound x) as Ha.
    transitivity (acos x <= rad radius).
    - rewrite <- (cos_acos x) at 1 by lra. split; intros H.
      + destruct (Rle_or_lt (acos x) (rad radius)) as [|H']; [assumption|]. pose proof (cos_decreasing_1 (rad radius) (acos x)). lra.
      + destruct H as [H| ->]; [|lra]. left. apply cos_decreasing_1; lra.
    - unfold rad. split; intros H.
      + apply Rmult_le_reg_r with (PI / 180); [lra|]. replace (acos x * 180 / PI * (PI / 180)) with (acos x) by (field; lra).
        unfold Rdiv in *; nra.
      + apply Rmult_le_reg_r with (180 / PI); [apply Rdiv_lt_0_compat; lra|].
        replace (radius * PI / 180 * (180 / PI)) with radius by (field; lra). unfold Rdiv in *; nra.
  Qed.
End Sep.
Print Assumptions C49_cone.
Example C49_cone_ex : (separation 10 20 10 20 <= 1)%R.
Proof.
  unfold separation. rewrite dot_formula. replace (10 - 10)%R with 0%R by lra. unfold rad at 5. replace (0 * PI / 180)%R with 0%R by lra.
  rewrite cos_0. pose proof (sin2_cos2 (rad 20)) as H. unfold Rsqr in H.
  replace (_ + _)%R with 1%R by lra. rewrite acos_1. unfold Rdiv. lra.
Qed.

(** ** C49: the directory named in a path holds the cell's number.  int() of a float is truncation; [trunc] on the reals *)
Section Dir.
  Definition trunc (x : R) : Z := if Rleb 0 x then (up x - 1)%Z else (1 - up (- x))%Z.
  Lemma trunc_nonneg x : (0 <= x)%R -> (IZR (trunc x) <= x < IZR (trunc x) + 1)%R.
  Proof.
    intros H. unfold trunc. replace (Rleb 0 x) with true by (symmetry; now apply Rleb_spec).
    destruct (archimed x) as [H1 H2]. rewrite minus_IZR. lra.
  Qed.
  Theorem C49_directory n : (0 <= n)%Z -> let d := directory RF trunc n in (d <= n < d + 10000 /\ d mod 10000 = 0)%Z.
  Proof.
    intros Hn. unfold directory. cbn [RF fdiv fofZ]. assert (Hn' : (0 <= IZR n)%R) by now apply (IZR_le 0).
    pose proof (trunc_nonneg (IZR n / IZR 10000)) as H. set (q := trunc _) in *.
    assert (H0 : (0 <= IZR n / IZR 10000)%R). { apply Rmult_le_reg_r with 10000%R; [lra|]. unfold Rdiv. rewrite Rmult_assoc, Rinv_l by lra. lra. }
    specialize (H H0). destruct H as [Ha Hb].
    assert (E : (IZR n = IZR n / IZR 10000 * 10000)%R) by (field; lra).
    split; [split|].
    - apply le_IZR. rewrite mult_IZR. lra.
    - apply lt_IZR. rewrite plus_IZR, mult_IZR. lra.
    - apply Z.mod_mul. lia.
  Qed.
End Dir.
Print Assumptions C49_directory.
Example C49_directory_ex : directory RF trunc 123456 = 120000%Z.
Proof.
  destruct (C49_directory 123456 ltac:(lia)) as [H1 H2]. apply Z.mod_divide in H2 as [k Hk]; [|lia]. rewrite Hk in *. lia.
Qed.
(** in binary64 the directory can be wrong from depth 26 on (12 * 4^28 cells at depth 28): the path then names no file.  [tr64]: int() *)
Definition tr64 (x : SpecFloat.spec_float) : Z :=
  match x with
  | SpecFloat.S754_finite s m e => let v := if (0 <=? e)%Z then (Zpos m * 2 ^ e)%Z else (Zpos m / 2 ^ (- e))%Z in if s then (- v)%Z else v
  | _ => 0%Z end.
Theorem C49_directory_float_refuted : exists n, (0 <= n < 12 * 4 ^ 28)%Z /\ (n < directory B64 tr64 n)%Z.
Proof. exists (10 ^ 17 - 1)%Z. split; [lia|vm_compute; reflexivity]. Qed.
Print Assumptions C49_directory_float_refuted.
Example tr64_ex : directory B64 tr64 123456 = 120000%Z. Proof. vm_compute. reflexivity. Qed.

(** ** C50 *)
Section Trim.
  Context {A : Type} (mag : A -> R).
  Lemma py_idx_take n l : (n < 0)%Z -> py_take (-1 * n) l = firstn (Z.to_nat (- n)) l :> list A.
  Proof.
    intros Hn. unfold py_take, py_idx. replace (-1 * n <? 0)%Z with false by (symmetry; apply Z.ltb_ge; lia).
    destruct (Nat.le_gt_cases (Z.to_nat (- n)) (length l)) as [H|H]; [f_equal; lia|].
    rewrite !firstn_all2; [reflexivity|lia|lia].
  Qed.
  Lemma py_idx_drop n l : (0 < n)%Z -> py_drop (-1 * n) l = skipn (length l - Z.to_nat n) l :> list A.
  Proof.
    intros Hn. unfold py_drop, py_idx. replace (-1 * n <? 0)%Z with true by (symmetry; apply Z.ltb_lt; lia). f_equal. lia.
  Qed.
  Lemma sorted_split (R0 : A -> A -> Prop) l1 l2 : StronglySorted R0 (l1 ++ l2) -> forall a b, In a l1 -> In b l2 -> R0 a b.
  Proof.
    induction l1 as [|x l1 IH]; cbn; [intros _ a b []|]. intros H a b Ha Hb. inversion H as [|? ? Hs Hf]; subst.
    destruct Ha as [<-|Ha]; [|now apply IH]. rewrite Forall_forall in Hf. apply Hf, in_app_iff. now right.
  Qed.

  (** [table]: the query's answer; [sorted]: the same rows, faintest first.  A positive count keeps the brightest, a negative one the
      faintest, no count everything *)
  Theorem C50_trim_partial (table sorted : list A) (num : option Z) : num <> Some 0%Z ->
    Permutation table sorted -> StronglySorted (fun a b => (mag b <= mag a)%R) sorted ->
    exists dropped, Permutation table (trim num sorted ++ dropped) /\
      match num with
      | None => dropped = []
      | Some k => length (trim num sorted) = Nat.min (Z.to_nat (Z.abs k)) (length table) /\
          forall a b, In a (trim num sorted) -> In b dropped -> if (k <? 0)%Z then (mag b <= mag a)%R else (mag a <= mag b)%R
      end.
  Proof.
    intros H0 HP HS. pose proof (Permutation_length HP) as HL. destruct num as [k|]; cbn [trim].
    2: { exists []. rewrite app_nil_r. now split. }
    destruct (Z.ltb_spec k 0) as [Hk|Hk].
    - rewrite py_idx_take by assumption. exists (skipn (Z.to_nat (- k)) sorted). rewrite firstn_skipn. split; [assumption|]. split.
      + rewrite firstn_length, HL. f_equal. lia.
      + rewrite <- (firstn_skipn (Z.to_nat (- k)) sorted) in HS. intros a b Ha Hb. exact (sorted_split _ _ _ HS a b Ha Hb).
    - assert (Hk' : (0 < k)%Z). { destruct (Z.eq_dec k 0) as [->|]; [now destruct H0|lia]. }
      rewrite py_idx_drop by assumption. exists (firstn (length sorted - Z.to_nat k) sorted). split; [|split].
      + rewrite HP. rewrite <- (firstn_skipn (length sorted - Z.to_nat k) sorted) at 1. apply Permutation_app_comm.
      + rewrite skipn_length, HL. lia.
      + rewrite <- (firstn_skipn (length sorted - Z.to_nat k) sorted) in HS. intros a b Ha Hb. exact (sorted_split _ _ _ HS b a Hb Ha).
  Qed.
End Trim.
Print Assumptions C50_trim_partial.
Example C50_trim_ex : trim (Some 2%Z) [9; 8; 7] = [8; 7] /\ trim (Some (-2)%Z) [9; 8; 7] = [9; 8] /\ trim (Some 7%Z) [9; 8; 7] = [9; 8; 7].
Proof. repeat split. Qed.
(** asking for no source returns all of them *)
Theorem C50_zero_refuted : exists l : list nat, l <> [] /\ trim (Some 0%Z) l = l.
Proof. exists [1; 2]. split; [discriminate|reflexivity]. Qed.
Theorem C50_zero_all (A : Type) (l : list A) : trim (Some 0%Z) l = l.
Proof. unfold trim, py_drop, py_idx. cbn. rewrite Z.min_l by lia. reflexivity. Qed.
Print Assumptions C50_zero_refuted.
Print Assumptions C50_zero_all.
