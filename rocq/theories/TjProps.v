(** Addition to C48 found by mutation: where the search for the pixel area starts. *)
From Verif Require Import Base RBase ResUtilModel.
From Coq Require Import Reals Lra Lia.
Local Open Scope R_scope.

(** ** Specification *)
(** int() of Python: truncation towards zero *)
Definition truncates (tr : R -> Z) : Prop := (forall x, 0 <= x -> IZR (tr x) <= x < IZR (tr x) + 1) /\ (forall x, x <= 0 -> x <= IZR (tr x) < x + 1).
Lemma trunc_nonneg tr x : truncates tr -> -1 < x -> (0 <= tr x)%Z.
Proof.
  intros [P N] H. destruct (Rle_dec 0 x) as [A|A].
  - destruct (P x A) as [_ B]. assert (-1 < tr x)%Z by (apply lt_IZR; lra). lia.
  - destruct (N x ltac:(lra)) as [B _]. assert (-1 < tr x)%Z by (apply lt_IZR; lra). lia.
Qed.
Lemma trunc_int tr n : truncates tr -> tr (IZR n) = n.
Proof.
  intros [P N]. destruct (Rle_dec 0 (IZR n)) as [A|A].
  - destruct (P _ A) as [B C]. rewrite <- plus_IZR in C. apply le_IZR in B. apply lt_IZR in C. lia.
  - destruct (N (IZR n) ltac:(lra)) as [B C]. rewrite <- plus_IZR in C. apply le_IZR in B. apply lt_IZR in C. lia.
Qed.
(** without a bounding box the search starts from the whole axis; with one, from pixels inside the image: the first is the pixel that holds the lower
    edge, the last is the last pixel with all of itself below the upper edge, both clipped to the image.  The edges may come in either order. *)
Theorem C48_start_whole : forall tr n, truncates tr -> (1 <= n)%Z -> start1 RF tr n None = (0, n - 1)%Z.
Proof.
  intros tr n T Hn. unfold start1, fgt, half. cbn [RF fsub fadd fzero fofZ flt fdiv fone F]. assert (1 <= IZR n) by (apply IZR_le in Hn; exact Hn).
  replace (Rltb (IZR n - 1 / 2) (0 - 1 / 2)) with false by (symmetry; apply not_true_iff_false; rewrite Rltb_spec; lra).
  replace (0 - 1 / 2 + 1 / 2) with (IZR 0) by lra. replace (IZR n - 1 / 2 - 1 / 2) with (IZR (n - 1)) by (rewrite minus_IZR; lra). rewrite !trunc_int by assumption. f_equal; lia.
Qed.
Theorem C48_start : forall tr n a b, truncates tr -> let lo := Rmin a b in let hi := Rmax a b in let '(u, v) := start1 RF tr n (Some (a, b)) in
  (0 <= u)%Z /\ (v <= n - 1)%Z /\ (-1 / 2 <= lo -> IZR u - 1 / 2 <= lo < IZR u + 1 / 2) /\ (lo < -1 / 2 -> u = 0%Z) /\
  (1 / 2 <= hi -> IZR v + 1 / 2 <= hi /\ ((v < n - 1)%Z -> hi < IZR v + 3 / 2)).
Proof.
  intros tr n a b T lo hi. unfold start1, fgt, half. cbn [RF fsub fadd fofZ flt fdiv fone F].
  assert (E : (if Rltb b a then (b, a) else (a, b)) = (lo, hi)).
  { unfold lo, hi. destruct (Rltb b a) eqn:C; [apply Rltb_spec in C; rewrite Rmin_right, Rmax_left by lra; reflexivity|]. apply not_true_iff_false in C. rewrite Rltb_spec in C. rewrite Rmin_left, Rmax_right by lra. reflexivity. }
  rewrite E. destruct T as [P N]. split; [lia|]. split; [lia|]. split; [|split].
  - intro H. destruct (P (lo + 1 / 2) ltac:(lra)) as [A B]. assert (0 <= tr (lo + 1 / 2)%R)%Z by (apply trunc_nonneg; [split; assumption|lra]). rewrite Z.max_r by lia. lra.
  - intro H. destruct (N (lo + 1 / 2) ltac:(lra)) as [A B]. assert (tr (lo + 1 / 2)%R < 1)%Z by (apply lt_IZR; lra). lia.
  - intro H. destruct (P (hi - 1 / 2) ltac:(lra)) as [A B]. assert (IZR (Z.min (n - 1) (tr (hi - 1 / 2)%R)) <= IZR (tr (hi - 1 / 2))) by (apply IZR_le; lia). split; [lra|].
    intro L. rewrite Z.min_r by lia. lra.
Qed.
Print Assumptions C48_start_whole.
Print Assumptions C48_start.

(** ** Example: a truncation, and the box (2.3, 7.5) on an axis of 10 pixels *)
Definition rtrunc (x : R) : Z := if Rltb x 0 then (1 - up (- x))%Z else (up x - 1)%Z.
Example rtrunc_ok : truncates rtrunc.
Proof.
  split; intros x H; unfold rtrunc; destruct (Rltb x 0) eqn:E; [apply Rltb_spec in E; lra| |..].
  - destruct (archimed x). rewrite minus_IZR. lra.
  - destruct (archimed (- x)). rewrite minus_IZR. lra.
  - apply not_true_iff_false in E. rewrite Rltb_spec in E. assert (x = 0) by lra. subst x. destruct (archimed 0). rewrite minus_IZR. assert (0 < up 0)%Z by (apply lt_IZR; lra). assert (up 0 <= 1)%Z by (apply le_IZR; lra). assert (up 0 = 1%Z) by lia. rewrite H4. lra.
Qed.
Example C48_start_example : start1 RF rtrunc 10 (Some (75 / 10, 23 / 10)) = (2, 7)%Z.
Proof.
  pose proof (C48_start rtrunc 10 (75 / 10) (23 / 10) rtrunc_ok) as H. rewrite Rmin_right, Rmax_left in H by lra. destruct (start1 _ _ _ _) as [u v]. destruct H as (A & B & C & _ & D).
  specialize (C ltac:(lra)). specialize (D ltac:(lra)). destruct D as [D D'].
  assert (u < 3)%Z by (apply lt_IZR; lra). assert (1 < u)%Z by (apply lt_IZR; lra). assert (v < 8)%Z by (apply lt_IZR; lra). specialize (D' ltac:(lia)). assert (6 - 1 < v)%Z by (apply lt_IZR; rewrite minus_IZR; lra). 
  assert (75/10 < IZR v + 3/2) by lra. assert (v = 6 \/ v = 7)%Z as [-> | ->] by lia; [exfalso; lra|]. f_equal. lia.
Qed.
