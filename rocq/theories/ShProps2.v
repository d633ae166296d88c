(** Theorems about the smoothing of the shower search (C97). *)
From Verif Require Import Base BaseLemmas FLaws JumpModel SnowModel ShModel.
From Coq Require Import Reals Lra Psatz SpecFloat.
From Verif Require Import RBase RNBase Cas22Fit LikelyNoise.
Local Open Scope R_scope.

(** * C97: smoothing with missing pixels *)
(** ** Specification *)
Definition pixels (nr nc : nat) : list (nat * nat) := list_prod (seq 0 nr) (seq 0 nc).
Definition zof (n : nat) : Z := Z.of_nat n.
(** the weight of the pixel [dr] rows and [dc] columns away: the kernel, of half width [n], turned round *)
Definition kweight (n : nat) (k : nat -> nat -> R) (dr dc : Z) : R :=
  if Z.leb (Z.abs dr) (zof n) && Z.leb (Z.abs dc) (zof n) then k (Z.to_nat (zof n - dr)) (Z.to_nat (zof n - dc)) else 0.
Definition off (p q : nat * nat) (h : Z -> Z -> R) : R := h (zof (fst q) - zof (fst p))%Z (zof (snd q) - zof (snd p))%Z.
Definition total (n : nat) (k : nat -> nat -> R) : R := Rsum (map (fun ij => k (fst ij) (snd ij)) (pixels (2 * n + 1) (2 * n + 1))).
(** the weighted sum of the pixels that have a value, and the weight of those that do not; what lies outside counts as zero *)
Definition val_sum (n : nat) k nr nc (a : img (option R)) p : R :=
  Rsum (map (fun q => match a (fst q) (snd q) with Some v => off p q (kweight n k) * v | None => 0 end) (pixels nr nc)).
Definition missing (n : nat) k nr nc (a : img (option R)) p : R :=
  Rsum (map (fun q => match a (fst q) (snd q) with Some _ => 0 | None => off p q (kweight n k) end) (pixels nr nc)).
Definition smooth_spec (n : nat) k nr nc (a : img (option R)) (r c : nat) : option R :=
  let W := total n k - missing n k nr nc a (r, c) in
  match a r c with
  | Some _ => if Rlt_dec (total n k / (1000 * (INR (2 * n + 1) * INR (2 * n + 1)))) W then Some (val_sum n k nr nc a (r, c) / W) else None
  | None => None
  end.

(** ** Reindexing *)
Lemma Rsum_prod {A B} (f : A * B -> R) l m : Rsum (map f (list_prod l m)) = Rsum (map (fun x => Rsum (map (fun y => f (x, y)) m)) l).
Proof. induction l as [|x l IH]; [reflexivity|]. cbn [list_prod map]. rewrite map_app, Rsum_app, map_map, Rsum_cons, IH. reflexivity. Qed.
Lemma delta (f : nat -> R) j0 N s : Rsum (map (fun j => if Nat.eqb j j0 then f j else 0) (seq s N)) = if Nat.leb s j0 && Nat.ltb j0 (s + N) then f j0 else 0.
Proof.
  revert s. induction N as [|N IH]; intro s; cbn [seq map]; [rewrite Rsum_nil; destruct (Nat.leb_spec s j0), (Nat.ltb_spec j0 (s + 0)); try reflexivity; lia|].
  rewrite Rsum_cons, IH. destruct (Nat.eqb_spec s j0) as [->|NE].
  - replace (Nat.leb (S j0) j0) with false by (symmetry; apply Nat.leb_gt; lia). replace (Nat.leb j0 j0) with true by (symmetry; apply Nat.leb_le; lia).
    replace (Nat.ltb j0 (j0 + S N)) with true by (symmetry; apply Nat.ltb_lt; lia). cbn. lra.
  - replace (Nat.leb (S s) j0) with (Nat.leb s j0) by (destruct (Nat.leb_spec s j0), (Nat.leb_spec (S s) j0); try reflexivity; lia).
    replace (S s + N)%nat with (s + S N)%nat by lia. lra.
Qed.
Definition inr (x : Z) (N : nat) : bool := Z.leb 0 x && Z.ltb x (zof N).
Lemma delta_z (f : nat -> R) (x : Z) N : Rsum (map (fun j => if Z.eqb (zof j) x then f j else 0) (seq 0 N)) = if inr x N then f (Z.to_nat x) else 0.
Proof.
  unfold inr, zof. destruct (Z.leb_spec 0 x) as [P|P]; cbn [andb].
  - rewrite (Rsum_ext _ (fun j => if Nat.eqb j (Z.to_nat x) then f j else 0)).
    + rewrite delta. cbn [Nat.leb andb]. rewrite Nat.add_0_l. destruct (Nat.ltb_spec (Z.to_nat x) N), (Z.ltb_spec x (Z.of_nat N)); try reflexivity; lia.
    + intros j _. destruct (Z.eqb_spec (Z.of_nat j) x), (Nat.eqb_spec j (Z.to_nat x)); try reflexivity; lia.
  - rewrite (Rsum_ext _ (fun _ => 0)); [rewrite Rsum_const; lra|]. intros j _. destruct (Z.eqb_spec (Z.of_nat j) x); [lia|reflexivity].
Qed.
Lemma reindex (H : nat -> nat -> R) K N (s : Z) :
  Rsum (map (fun i => if inr (s - zof i) N then H i (Z.to_nat (s - zof i)) else 0) (seq 0 K)) =
  Rsum (map (fun j => if inr (s - zof j) K then H (Z.to_nat (s - zof j)) j else 0) (seq 0 N)).
Proof.
  transitivity (Rsum (map (fun i => Rsum (map (fun j => if Z.eqb (zof j) (s - zof i) then H i j else 0) (seq 0 N))) (seq 0 K))).
  - apply Rsum_ext. intros i _. rewrite delta_z. reflexivity.
  - rewrite Rsum_swap. apply Rsum_ext. intros j _. rewrite <- (delta_z (fun i => H i j)). apply Rsum_ext. intros i _.
    destruct (Z.eqb_spec (zof j) (s - zof i)), (Z.eqb_spec (zof i) (s - zof j)); try reflexivity; lia.
Qed.
Lemma kweight_in n k (s s' : Z) (j j' : nat) :
  (if inr (s + zof n - zof j) (2 * n + 1) then if inr (s' + zof n - zof j') (2 * n + 1) then k (Z.to_nat (s + zof n - zof j)) (Z.to_nat (s' + zof n - zof j')) else 0 else 0)
  = kweight n k (zof j - s) (zof j' - s').
Proof.
  unfold kweight, inr, zof. replace (Z.of_nat n - (Z.of_nat j - s))%Z with (s + Z.of_nat n - Z.of_nat j)%Z by lia. replace (Z.of_nat n - (Z.of_nat j' - s'))%Z with (s' + Z.of_nat n - Z.of_nat j')%Z by lia.
  destruct (Z.leb_spec 0 (s + Z.of_nat n - Z.of_nat j)), (Z.ltb_spec (s + Z.of_nat n - Z.of_nat j) (Z.of_nat (2 * n + 1))), (Z.leb_spec (Z.abs (Z.of_nat j - s)) (Z.of_nat n)); cbn [andb]; try reflexivity; try lia;
  destruct (Z.leb_spec 0 (s' + Z.of_nat n - Z.of_nat j')), (Z.ltb_spec (s' + Z.of_nat n - Z.of_nat j') (Z.of_nat (2 * n + 1))), (Z.leb_spec (Z.abs (Z.of_nat j' - s')) (Z.of_nat n)); cbn [andb]; try reflexivity; lia.
Qed.
(** the sum over the kernel is the sum over the image *)
Lemma window n (k : nat -> nat -> R) (G : nat -> nat -> R) nr nc (r c : nat) :
  Rsum (map (fun i => Rsum (map (fun j => k i j * (if inr (zof r + zof n - zof i) nr && inr (zof c + zof n - zof j) nc
      then G (Z.to_nat (zof r + zof n - zof i)) (Z.to_nat (zof c + zof n - zof j)) else 0)) (seq 0 (2 * n + 1)))) (seq 0 (2 * n + 1)))
  = Rsum (map (fun q => off (r, c) q (kweight n k) * G (fst q) (snd q)) (pixels nr nc)).
Proof.
  unfold pixels. rewrite Rsum_prod. cbn [fst snd].
  transitivity (Rsum (map (fun i => if inr (zof r + zof n - zof i) nr then
     Rsum (map (fun j => if inr (zof c + zof n - zof j) nc then k i j * G (Z.to_nat (zof r + zof n - zof i)) (Z.to_nat (zof c + zof n - zof j)) else 0) (seq 0 (2 * n + 1))) else 0) (seq 0 (2 * n + 1)))).
  { apply Rsum_ext. intros i _. destruct (inr (zof r + zof n - zof i) nr).
    - apply Rsum_ext. intros j _. cbn [andb]. destruct (inr _ nc); lra.
    - rewrite (Rsum_ext _ (fun _ => 0)); [rewrite Rsum_const; lra|]. intros j _. cbn [andb]. lra. }
  rewrite (reindex (fun i r' => Rsum (map (fun j => if inr (zof c + zof n - zof j) nc then k i j * G r' (Z.to_nat (zof c + zof n - zof j)) else 0) (seq 0 (2 * n + 1))))).
  apply Rsum_ext. intros r' _.
  destruct (inr (zof r + zof n - zof r') (2 * n + 1)) eqn:E.
  - rewrite (reindex (fun j c' => k (Z.to_nat (zof r + zof n - zof r')) j * G r' c')). apply Rsum_ext. intros c' _. unfold off. cbn [fst snd].
    rewrite <- kweight_in, E. destruct (inr (zof c + zof n - zof c') (2 * n + 1)); lra.
  - rewrite (Rsum_ext _ (fun _ => 0)); [rewrite Rsum_const; lra|]. intros c' _. unfold off. cbn [fst snd]. rewrite <- kweight_in, E. lra.
Qed.
Lemma total_double n k : total n k = Rsum (map (fun i => Rsum (map (fun j => k i j) (seq 0 (2 * n + 1)))) (seq 0 (2 * n + 1))).
Proof. unfold total, pixels. rewrite Rsum_prod. reflexivity. Qed.

(** ** Sums in the model *)
Lemma fsum_some {A} (f : A -> R) l : fsum RN (map (fun x => Some (f x)) l) = Some (Rsum (map f l)).
Proof. induction l as [|x l IH]; [reflexivity|]. cbn [map]. unfold fsum in *. cbn [fold_right]. rewrite IH. reflexivity. Qed.
Lemma fsum_ext (fo : FOps) {A} (f g : A -> fo) l : (forall x, In x l -> f x = g x) -> fsum fo (map f l) = fsum fo (map g l).
Proof. intro H. f_equal. apply map_ext_in. exact H. Qed.
Lemma sum2_some n m (f : nat -> nat -> R) (g : nat -> nat -> RN) : (forall i j, g i j = Some (f i j)) ->
  sum2 RN n m g = Some (Rsum (map (fun i => Rsum (map (fun j => f i j) (seq 0 m))) (seq 0 n))).
Proof.
  intro H. unfold sum2. rewrite (fsum_ext RN _ (fun i => Some (Rsum (map (fun j => f i j) (seq 0 m))))); [apply fsum_some|].
  intros i _. rewrite (fsum_ext RN _ (fun j => Some (f i j))); [apply fsum_some|]. intros j _. apply H.
Qed.
Section Conv.
  Variables (nr nc n : nat) (k : nat -> nat -> R) (a : img (option R)).
  Let kn : img RN := fun i j => Some (k i j).
  Definition v0 (r c : nat) : R := match a r c with Some v => v | None => 0 end.
  Lemma half_odd : ((2 * n + 1 - 1) / 2 = n /\ (2 * n + 1) / 2 = n)%nat.
  Proof. split; [rewrite Nat.add_sub, Nat.mul_comm; apply Nat.div_mul; lia|]. rewrite Nat.add_comm, Nat.mul_comm, Nat.div_add by lia. reflexivity. Qed.
  Lemma at0_some (G : nat -> nat -> R) (g : img RN) r c : (forall r c, g r c = Some (G r c)) ->
    at0 RN nr nc g r c = Some (if inr r nr && inr c nc then G (Z.to_nat r) (Z.to_nat c) else 0).
  Proof. intro H. unfold at0, inr, zof. rewrite !andb_assoc. destruct (_ && _)%bool; [apply H|reflexivity]. Qed.
  Lemma same_val r c : conv_same RN nr nc (2 * n + 1) (2 * n + 1) kn (fun r c => if fisfinite RN (a r c) then a r c else fzero RN) r c = Some (val_sum n k nr nc a (r, c)).
  Proof.
    unfold conv_same. rewrite (proj1 half_odd).
    assert (A : forall r c, (if fisfinite RN (a r c) then a r c else fzero RN) = Some (v0 r c)) by (intros; unfold v0; destruct (a r0 c0); reflexivity).
    erewrite sum2_some; [|intros i j; rewrite (at0_some v0) by exact A; unfold kn; cbn [fmul RN rn2]; reflexivity].
    f_equal. etransitivity; [exact (window n k v0 nr nc r c)|]. unfold val_sum. apply Rsum_ext. intros q _. unfold v0. destruct (a (fst q) (snd q)); lra.
  Qed.
  Definition bad01 (r c : nat) : R := match a r c with Some _ => 0 | None => 1 end.
  Lemma padded_val p q : padded RN nr nc n (fun r c => fisfinite RN (a r c)) p q =
    Some (1 - (if inr (zof p - zof n) nr && inr (zof q - zof n) nc then bad01 (Z.to_nat (zof p - zof n)) (Z.to_nat (zof q - zof n)) else 0)).
  Proof.
    unfold padded, inr, zof, bad01.
    replace (Z.to_nat (Z.of_nat p - Z.of_nat n)) with (p - n)%nat by lia. replace (Z.to_nat (Z.of_nat q - Z.of_nat n)) with (q - n)%nat by lia.
    destruct (Nat.leb_spec n p), (Nat.ltb_spec p (n + nr)), (Nat.leb_spec n q), (Nat.ltb_spec q (n + nc)),
      (Z.leb_spec 0 (Z.of_nat p - Z.of_nat n)), (Z.ltb_spec (Z.of_nat p - Z.of_nat n) (Z.of_nat nr)),
      (Z.leb_spec 0 (Z.of_nat q - Z.of_nat n)), (Z.ltb_spec (Z.of_nat q - Z.of_nat n) (Z.of_nat nc)); cbn [andb]; try lia;
      try (cbn; f_equal; lra). destruct (a (p - n)%nat (q - n)%nat); cbn; f_equal; lra.
  Qed.
  Lemma valid_val r c : conv_valid RN (2 * n + 1) (2 * n + 1) kn (padded RN nr nc n (fun r c => fisfinite RN (a r c))) r c =
    Some (total n k - missing n k nr nc a (r, c)).
  Proof.
    unfold conv_valid, sum2.
    rewrite (fsum_ext RN _ (fun i => Some (Rsum (map (fun j => k i j - k i j * (if inr (zof r + zof n - zof i) nr && inr (zof c + zof n - zof j) nc
      then bad01 (Z.to_nat (zof r + zof n - zof i)) (Z.to_nat (zof c + zof n - zof j)) else 0)) (seq 0 (2 * n + 1)))))).
    - rewrite fsum_some. f_equal.
      transitivity (Rsum (map (fun i => Rsum (map (fun j => k i j) (seq 0 (2 * n + 1))) + (-1) * Rsum (map (fun j => k i j * (if inr (zof r + zof n - zof i) nr && inr (zof c + zof n - zof j) nc
        then bad01 (Z.to_nat (zof r + zof n - zof i)) (Z.to_nat (zof c + zof n - zof j)) else 0)) (seq 0 (2 * n + 1)))) (seq 0 (2 * n + 1)))).
      + apply Rsum_ext. intros i _. rewrite <- Rsum_scal, <- Rsum_plus. apply Rsum_ext. intros j _. lra.
      + rewrite Rsum_plus, Rsum_scal, <- total_double, (window n k bad01 nr nc r c). unfold missing.
        replace (Rsum (map (fun q => match a (fst q) (snd q) with Some _ => 0 | None => off (r, c) q (kweight n k) end) (pixels nr nc)))
          with (Rsum (map (fun q => off (r, c) q (kweight n k) * bad01 (fst q) (snd q)) (pixels nr nc))); [lra|].
        apply Rsum_ext. intros q _. unfold bad01. destruct (a (fst q) (snd q)); lra.
    - intros i I. apply in_seq in I. rewrite (fsum_ext RN _ (fun j => Some (k i j - k i j * (if inr (zof r + zof n - zof i) nr && inr (zof c + zof n - zof j) nc
        then bad01 (Z.to_nat (zof r + zof n - zof i)) (Z.to_nat (zof c + zof n - zof j)) else 0)))); [apply fsum_some|].
      intros j J. apply in_seq in J. rewrite padded_val. unfold kn. cbn [fmul RN rn2]. f_equal.
      replace (zof (r + (2 * n + 1 - 1) - i) - zof n)%Z with (zof r + zof n - zof i)%Z by (unfold zof; lia).
      replace (zof (c + (2 * n + 1 - 1) - j) - zof n)%Z with (zof c + zof n - zof j)%Z by (unfold zof; lia). lra.
  Qed.
  Hypothesis N1 : (1 <= n)%nat.
  Hypothesis Hk : forall i j, 0 <= k i j.
  Lemma total_pos : 0 <= total n k.
  Proof. unfold total. apply Rsum_nonneg. intros; apply Hk. Qed.
  Theorem smooth_ok : exists out, convolve_fast RN nr nc (2 * n + 1) (2 * n + 1) kn a = Some out /\ forall r c, out r c = smooth_spec n k nr nc a r c.
  Proof.
    unfold convolve_fast.
    assert (F : kernel_fits (2 * n + 1) (2 * n + 1) = true).
    { unfold kernel_fits. rewrite (proj2 half_odd), !andb_true_iff, !Nat.ltb_lt, !Nat.eqb_eq. lia. }
    rewrite F, (proj2 half_odd). eexists. split; [reflexivity|]. intros r c. cbv beta.
    rewrite same_val, valid_val. unfold smooth_spec.
    assert (T : sum2 RN (2 * n + 1) (2 * n + 1) kn = Some (total n k)) by (rewrite total_double; apply sum2_some; reflexivity). rewrite T.
    destruct (a r c) as [v|] eqn:A; cbn [fisfinite RN andb]; [|reflexivity].
    cbn [fdiv fone fofZ RN fmul rn2 flt rncmp fnan].
    assert (K0 : 0 < INR (2 * n + 1)) by (apply lt_0_INR; lia).
    assert (KK : IZR (zn ((2 * n + 1) * (2 * n + 1))) = INR (2 * n + 1) * INR (2 * n + 1)) by (unfold zn; rewrite <- INR_IZR_INZ, mult_INR; reflexivity).
    rewrite KK. assert (K2 : 0 < INR (2 * n + 1) * INR (2 * n + 1)) by (apply Rmult_lt_0_compat; assumption).
    destruct (Reqb 1000 0) eqn:B1; [apply Reqb_spec in B1; lra|]. destruct (Reqb (INR (2 * n + 1) * INR (2 * n + 1)) 0) eqn:B2; [apply Reqb_spec in B2; lra|]. cbn [rn2 rncmp].
    assert (E : 1 / 1000 * (total n k / (INR (2 * n + 1) * INR (2 * n + 1))) = total n k / (1000 * (INR (2 * n + 1) * INR (2 * n + 1)))) by (field; lra).
    rewrite E. assert (P : 0 <= total n k / (1000 * (INR (2 * n + 1) * INR (2 * n + 1)))).
    { unfold Rdiv. apply Rmult_le_pos; [exact total_pos|]. apply Rlt_le, Rinv_0_lt_compat. lra. }
    destruct (Rlt_dec _ _) as [L|L].
    - rewrite (proj2 (Rltb_spec _ _) L). destruct (Reqb (total n k - missing n k nr nc a (r, c)) 0) eqn:B3; [apply Reqb_spec in B3; lra|]. reflexivity.
    - destruct (Rltb _ _) eqn:B3; [apply Rltb_spec in B3; lra|reflexivity].
  Qed.
End Conv.
(** Every pixel with a value gets the kernel-weighted mean of the pixels with a value (zero beyond the edges), unless their
    weight is a thousandth of the kernel's mean or less; pixels without a value stay without. *)
Theorem C97_weighted_mean : forall nr nc n k a, (1 <= n)%nat -> (forall i j, 0 <= k i j) ->
  exists out, convolve_fast RN nr nc (2 * n + 1) (2 * n + 1) (fun i j => Some (k i j)) a = Some out /\ forall r c, out r c = smooth_spec n k nr nc a r c.
Proof. intros. apply smooth_ok; assumption. Qed.
Print Assumptions C97_weighted_mean.

(** ** Consequences *)
Definition used (n : nat) k nr nc (a : img (option R)) p : R :=
  Rsum (map (fun q => match a (fst q) (snd q) with Some _ => off p q (kweight n k) | None => 0 end) (pixels nr nc)).
Lemma kweight_nonneg n k dr dc : (forall i j, 0 <= k i j) -> 0 <= kweight n k dr dc.
Proof. intro H. unfold kweight. destruct (_ && _)%bool; [apply H|lra]. Qed.
Lemma all_weights n k nr nc r c : (forall i j, 0 <= k i j) ->
  Rsum (map (fun q => off (r, c) q (kweight n k)) (pixels nr nc)) <= total n k /\
  ((n <= r)%nat -> (r + n < nr)%nat -> (n <= c)%nat -> (c + n < nc)%nat -> Rsum (map (fun q => off (r, c) q (kweight n k)) (pixels nr nc)) = total n k).
Proof.
  intro Hk. assert (E : Rsum (map (fun q => off (r, c) q (kweight n k)) (pixels nr nc)) = Rsum (map (fun q => off (r, c) q (kweight n k) * 1) (pixels nr nc))) by (apply Rsum_ext; intros; lra).
  rewrite E, <- (window n k (fun _ _ => 1) nr nc r c), total_double. split.
  - apply Rsum_le. intros i _. apply Rsum_le. intros j _. specialize (Hk i j). destruct (_ && _)%bool; lra.
  - intros. apply Rsum_ext. intros i I. apply in_seq in I. apply Rsum_ext. intros j J. apply in_seq in J.
    replace (inr (zof r + zof n - zof i) nr && inr (zof c + zof n - zof j) nc)%bool with true; [lra|].
    symmetry. unfold inr, zof. rewrite !andb_true_iff, !Z.leb_le, !Z.ltb_lt. lia.
Qed.
Lemma used_missing n k nr nc a p : used n k nr nc a p + missing n k nr nc a p = Rsum (map (fun q => off p q (kweight n k)) (pixels nr nc)).
Proof. unfold used, missing. rewrite <- Rsum_plus. apply Rsum_ext. intros q _. destruct (a _ _); lra. Qed.
(** whether the window of half width n around a pixel reaches q *)
Definition near (n : nat) (p q : nat * nat) : Prop := (Z.abs (zof (fst q) - zof (fst p)) <= zof n)%Z /\ (Z.abs (zof (snd q) - zof (snd p)) <= zof n)%Z.
Definition interior (n nr nc r c : nat) : Prop := (n <= r /\ r + n < nr /\ n <= c /\ c + n < nc)%nat.
Lemma far_zero n k p q : ~ near n p q -> off p q (kweight n k) = 0.
Proof. intro H. unfold off, kweight. destruct (Z.leb_spec (Z.abs (zof (fst q) - zof (fst p))) (zof n)), (Z.leb_spec (Z.abs (zof (snd q) - zof (snd p))) (zof n)); cbn [andb]; try reflexivity. contradict H. split; assumption. Qed.
Lemma val_le n k nr nc a r c hi : (forall i j, 0 <= k i j) ->
  (forall q v, (fst q < nr)%nat -> (snd q < nc)%nat -> near n (r, c) q -> a (fst q) (snd q) = Some v -> v <= hi) -> val_sum n k nr nc a (r, c) <= hi * used n k nr nc a (r, c).
Proof.
  intros Hk H. unfold val_sum, used. rewrite <- Rsum_scal. apply Rsum_le. intros q Q. unfold pixels in Q. rewrite (surjective_pairing q) in Q. apply in_prod_iff in Q. destruct Q as [Q1 Q2]. apply in_seq in Q1, Q2.
  destruct (a (fst q) (snd q)) as [v|] eqn:A; [|lra]. pose proof (kweight_nonneg n k (zof (fst q) - zof (fst (r, c))) (zof (snd q) - zof (snd (r, c))) Hk) as P. fold (off (r, c) q (kweight n k)) in P.
  destruct (Z.leb_spec (Z.abs (zof (fst q) - zof r)) (zof n)) as [N1|N1]; [destruct (Z.leb_spec (Z.abs (zof (snd q) - zof c)) (zof n)) as [N2|N2]|].
  - assert (v <= hi) by (apply (H q); [lia|lia|split; assumption|exact A]). nra.
  - rewrite far_zero by (intros [_ X]; cbn in X; lia). lra.
  - rewrite far_zero by (intros [X _]; cbn in X; lia). lra.
Qed.
Definition negi (a : img (option R)) : img (option R) := fun r c => option_map Ropp (a r c).
Lemma val_ge n k nr nc a r c lo : (forall i j, 0 <= k i j) ->
  (forall q v, (fst q < nr)%nat -> (snd q < nc)%nat -> near n (r, c) q -> a (fst q) (snd q) = Some v -> lo <= v) -> lo * used n k nr nc a (r, c) <= val_sum n k nr nc a (r, c).
Proof.
  intros Hk H. pose proof (val_le n k nr nc (negi a) r c (- lo) Hk) as X.
  assert (E1 : val_sum n k nr nc (negi a) (r, c) = - val_sum n k nr nc a (r, c)).
  { unfold val_sum. replace (- Rsum (map (fun q => match a (fst q) (snd q) with Some v => off (r, c) q (kweight n k) * v | None => 0 end) (pixels nr nc)))
      with (-1 * Rsum (map (fun q => match a (fst q) (snd q) with Some v => off (r, c) q (kweight n k) * v | None => 0 end) (pixels nr nc))) by lra. rewrite <- Rsum_scal.
    apply Rsum_ext. intros q _. unfold negi. destruct (a (fst q) (snd q)); cbn [option_map]; lra. }
  assert (E2 : used n k nr nc (negi a) (r, c) = used n k nr nc a (r, c)).
  { unfold used. apply Rsum_ext. intros q _. unfold negi. destruct (a (fst q) (snd q)); reflexivity. }
  rewrite E1, E2 in X. cut (- val_sum n k nr nc a (r, c) <= - lo * used n k nr nc a (r, c)); [lra|]. apply X.
  intros q v Q1 Q2 Nq A. unfold negi in A. destruct (a (fst q) (snd q)) as [w|] eqn:B; [|discriminate]. injection A as <-. pose proof (H q w Q1 Q2 Nq B). lra.
Qed.
(** Smoothing stays within the range of the values in reach, with zero added to the range near the edges. *)
Theorem C97_range : forall nr nc n k a r c out v, (1 <= n)%nat -> (forall i j, 0 <= k i j) ->
  convolve_fast RN nr nc (2 * n + 1) (2 * n + 1) (fun i j => Some (k i j)) a = Some out -> out r c = Some v -> forall lo hi,
  interior n nr nc r c \/ lo <= 0 <= hi ->
  (forall q w, (fst q < nr)%nat -> (snd q < nc)%nat -> near n (r, c) q -> a (fst q) (snd q) = Some w -> lo <= w <= hi) -> lo <= v <= hi.
Proof.
  intros nr nc n k a r c out v N1 Hk E O lo hi I B. destruct (C97_weighted_mean nr nc n k a N1 Hk) as (out' & E' & S).
  rewrite E in E'. injection E' as <-. rewrite S in O. unfold smooth_spec in O. destruct (a r c); [|discriminate].
  destruct (Rlt_dec _ _) as [L|]; [|discriminate]. injection O as <-.
  pose proof (total_pos n k Hk) as T0. assert (K0 : 0 < INR (2 * n + 1)) by (apply lt_0_INR; lia).
  assert (P : 0 <= total n k / (1000 * (INR (2 * n + 1) * INR (2 * n + 1)))).
  { unfold Rdiv. apply Rmult_le_pos; [exact T0|]. apply Rlt_le, Rinv_0_lt_compat. apply Rmult_lt_0_compat; [lra|]. apply Rmult_lt_0_compat; assumption. }
  set (W := total n k - missing n k nr nc a (r, c)) in *. assert (W0 : 0 < W) by lra.
  pose proof (used_missing n k nr nc a (r, c)) as UM. destruct (all_weights n k nr nc r c Hk) as [A1 A2].
  pose proof (val_le n k nr nc a r c hi Hk (fun q w a1 a2 a3 a4 => proj2 (B q w a1 a2 a3 a4))) as V1. pose proof (val_ge n k nr nc a r c lo Hk (fun q w a1 a2 a3 a4 => proj1 (B q w a1 a2 a3 a4))) as V2.
  assert (U : lo * W <= lo * used n k nr nc a (r, c) /\ hi * used n k nr nc a (r, c) <= hi * W).
  { destruct I as [(I1 & I2 & I3 & I4)|[I1 I2]]; [specialize (A2 I1 I2 I3 I4); replace (used n k nr nc a (r, c)) with W by (unfold W; lra); lra|].
    assert (used n k nr nc a (r, c) <= W) by (unfold W; lra). split; nra. }
  split.
  - apply (Rmult_le_reg_r W); [exact W0|]. unfold Rdiv. rewrite Rmult_assoc, Rinv_l by lra. lra.
  - apply (Rmult_le_reg_r W); [exact W0|]. unfold Rdiv. rewrite Rmult_assoc, Rinv_l by lra. lra.
Qed.
Print Assumptions C97_range.
(** in particular a flat stretch stays flat, whatever is missing from it *)
Theorem C97_flat : forall nr nc n k a r c out v x, (1 <= n)%nat -> (forall i j, 0 <= k i j) ->
  convolve_fast RN nr nc (2 * n + 1) (2 * n + 1) (fun i j => Some (k i j)) a = Some out -> out r c = Some v -> interior n nr nc r c ->
  (forall q w, (fst q < nr)%nat -> (snd q < nc)%nat -> near n (r, c) q -> a (fst q) (snd q) = Some w -> w = x) -> v = x.
Proof.
  intros nr nc n k a r c out v x N1 Hk E O I B. assert (x <= v <= x); [|lra].
  apply (C97_range nr nc n k a r c out v N1 Hk E O x x); [left; exact I|]. intros q w Q1 Q2 Q3 A. rewrite (B q w Q1 Q2 Q3 A). lra.
Qed.
Print Assumptions C97_flat.
(** What a pixel without a finite value contains does not matter, in any arithmetic. *)
Theorem C97_missing_irrelevant : forall (fo : FOps) nr nc kr kc k (a b : img fo),
  (forall r c, (r < nr)%nat -> (c < nc)%nat -> fisfinite fo (a r c) = fisfinite fo (b r c) /\ (fisfinite fo (a r c) = true -> a r c = b r c)) ->
  match convolve_fast fo nr nc kr kc k a, convolve_fast fo nr nc kr kc k b with
  | Some x, Some y => forall r c, (r < nr)%nat -> (c < nc)%nat -> x r c = y r c
  | None, None => True
  | _, _ => False
  end.
Proof.
  intros fo nr nc kr kc k a b H. unfold convolve_fast. destruct (kernel_fits kr kc); [|exact I]. intros r c R C. cbv beta.
  rewrite (proj1 (H r c R C)).
  assert (E1 : forall r c, conv_same fo nr nc kr kc k (fun r c => if fisfinite fo (a r c) then a r c else fzero fo) r c = conv_same fo nr nc kr kc k (fun r c => if fisfinite fo (b r c) then b r c else fzero fo) r c).
  { intros r0 c0. unfold conv_same, sum2. apply fsum_ext. intros i _. apply fsum_ext. intros j _. f_equal. unfold at0.
    destruct (Z.leb_spec 0 (zn r0 + zn ((kr - 1) / 2) - zn i)), (Z.ltb_spec (zn r0 + zn ((kr - 1) / 2) - zn i) (Z.of_nat nr)), (Z.leb_spec 0 (zn c0 + zn ((kc - 1) / 2) - zn j)), (Z.ltb_spec (zn c0 + zn ((kc - 1) / 2) - zn j) (Z.of_nat nc)); cbn [andb]; try reflexivity.
    destruct (H (Z.to_nat (zn r0 + zn ((kr - 1) / 2) - zn i)) (Z.to_nat (zn c0 + zn ((kc - 1) / 2) - zn j))) as [A B]; [lia|lia|]. rewrite <- A. destruct (fisfinite fo (a _ _)); auto. }
  assert (E2 : forall r c, conv_valid fo kr kc k (padded fo nr nc (kr / 2) (fun r c => fisfinite fo (a r c))) r c = conv_valid fo kr kc k (padded fo nr nc (kr / 2) (fun r c => fisfinite fo (b r c))) r c).
  { intros r0 c0. unfold conv_valid, sum2. apply fsum_ext. intros i _. apply fsum_ext. intros j _. f_equal. unfold padded.
    set (p := (r0 + (kr - 1) - i)%nat). set (q := (c0 + (kc - 1) - j)%nat). set (m := (kr / 2)%nat).
    destruct (Nat.leb_spec m p), (Nat.ltb_spec p (m + nr)), (Nat.leb_spec m q), (Nat.ltb_spec q (m + nc)); cbn [andb]; try reflexivity.
    rewrite (proj1 (H (p - m)%nat (q - m)%nat ltac:(lia) ltac:(lia))). reflexivity. }
  rewrite E1, E2. reflexivity.
Qed.
Print Assumptions C97_missing_irrelevant.
(** "Both dimensions must be odd" is not enough: a 3 x 5 kernel raises. *)
Theorem C97_odd_kernel_refuted : exists kr kc, Nat.odd kr = true /\ Nat.odd kc = true /\ forall (fo : FOps) nr nc k a, convolve_fast fo nr nc kr kc k a = None.
Proof. exists 3%nat, 5%nat. repeat split. Qed.
Print Assumptions C97_odd_kernel_refuted.
(** a 5 x 5 image, box kernel, one missing pixel beside the centre and an outlier far away *)
Example C97_example : let a : img (option R) := fun r c => if Nat.eqb r 2 && Nat.eqb c 3 then None else if Nat.eqb r 0 then Some 9 else Some 7 in
  exists out, convolve_fast RN 5 5 3 3 (fun i j => Some 1) a = Some out /\ out 2%nat 2%nat = Some 7 /\ out 2%nat 3%nat = None /\ interior 1 5 5 2 2.
Proof.
  intro a. destruct (C97_weighted_mean 5 5 1 (fun _ _ => 1) a (le_n 1) ltac:(intros; lra)) as (out & E & S). exists out. split; [exact E|].
  assert (O : out 2%nat 3%nat = None) by (rewrite S; reflexivity).
  assert (V : exists v, out 2%nat 2%nat = Some v).
  { rewrite S. unfold smooth_spec. cbn -[total missing val_sum]. destruct (Rlt_dec _ _) as [L|L]; [eexists; reflexivity|]. exfalso. apply L.
    unfold total, missing, pixels, kweight, off, a, zof. cbn. lra. }
  destruct V as (v & V). split; [|split; [exact O|unfold interior; lia]]. rewrite V. f_equal.
  apply (C97_flat 5 5 1 (fun _ _ => 1) a 2 2 out v 7 (le_n 1) ltac:(intros; lra) E V ltac:(unfold interior; lia)).
  intros q w Q1 Q2 [N1 N2] A. unfold a in A. destruct (_ && _)%bool; [discriminate|]. destruct (Nat.eqb_spec (fst q) 0) as [Z|_]; [|congruence]. unfold zof in N1. cbn in N1. lia.
Qed.
