(** Theorems about the median of a stack and the outliers found against it (C130).  Exact arithmetic with missing values:
    [None] is a NaN sample (an infinite sample is not represented). *)
From Verif Require Import Base BaseLemmas RBase RNBase MedianModel MedianProps NmModel OutlierModel.
From Coq Require Import Reals Lra Permutation Sorted Lia.
Local Open Scope R_scope.

(** ** Specification *)
(** the samples that are present *)
Definition present (l : list RN) : list R := flat_map (fun x : RN => match x with Some v => [v] | None => [] end) l.
(** how many values have a property *)
Definition count (p : R -> bool) (l : list R) : nat := length (filter p l).
Definition within (a b x : R) : bool := Rleb a x && Rleb x b.
(** the samples of a pixel in a stack of images *)
Definition samples (imgs : list (image RN)) (r c : nat) : list RN := map (fun d => i_px d r c) imgs.
(** the median image of a stack from either computer: in memory, or on disk with any buffer size *)
Definition stack_median (in_memory : bool) (n NR NC itemsize dt : nat) (buffer : Z) (imgs : list (image RN)) (o : image RN) : Prop :=
  Forall (fits NR NC dt) imgs /\ length imgs = n /\ n <> 0%nat /\
  exists uninit m0 m m', computer_new RN in_memory uninit n NR NC itemsize dt buffer = Some m0 /\ append_all RN m0 imgs = Some m /\
    computer_evaluate RN (None : RN) (np_nanmedian RN) m = Some (o, m').

(** ** Ascending order of real numbers *)
Fixpoint rins (x : R) (l : list R) : list R := match l with [] => [x] | y :: l' => if Rleb x y then x :: l else y :: rins x l' end.
Definition rsort (l : list R) : list R := fold_right rins [] l.
Lemma rins_perm x l : Permutation (x :: l) (rins x l).
Proof. induction l as [|y l IH]; cbn; [reflexivity|]. destruct (Rleb x y); [reflexivity|]. rewrite perm_swap. constructor. exact IH. Qed.
Lemma rsort_perm l : Permutation l (rsort l).
Proof. induction l as [|x l IH]; cbn; [reflexivity|]. rewrite <- rins_perm. constructor. exact IH. Qed.
Lemma rins_sorted x l : StronglySorted Rle l -> StronglySorted Rle (rins x l).
Proof.
  induction 1 as [|y l S IH F]; cbn; [repeat constructor|]. destruct (Rleb x y) eqn:E.
  - apply Rleb_spec in E. constructor; [constructor; assumption|]. constructor; [exact E|]. eapply Forall_impl; [|exact F]. intros; cbn in *; lra.
  - assert (y <= x) by (destruct (Rle_dec y x); [assumption|]; assert (x <= y) by lra; apply Rleb_spec in H; congruence).
    constructor; [exact IH|]. apply (Permutation_Forall (rins_perm x l)). constructor; assumption.
Qed.
Lemma rsort_sorted l : StronglySorted Rle (rsort l).
Proof. induction l; cbn; [constructor|apply rins_sorted; assumption]. Qed.
Lemma sorted_unique : forall l l', StronglySorted Rle l -> StronglySorted Rle l' -> Permutation l l' -> l = l'.
Proof.
  induction l as [|x l IH]; intros l' S S' P; [apply Permutation_nil in P; congruence|].
  destruct l' as [|y l']; [symmetry in P; apply Permutation_nil in P; congruence|].
  inversion S as [|? ? S1 F1]; inversion S' as [|? ? S2 F2]; subst. rewrite Forall_forall in F1, F2.
  assert (x = y).
  { assert (A : In x (y :: l')) by (apply (Permutation_in x P); left; reflexivity). assert (B : In y (x :: l)) by (apply (Permutation_in y (Permutation_sym P)); left; reflexivity).
    destruct A as [A|A]; [congruence|]. destruct B as [B|B]; [congruence|]. specialize (F1 y B). specialize (F2 x A). lra. }
  subst. f_equal. apply IH; try assumption. eapply Permutation_cons_inv. exact P.
Qed.
Lemma sorted_nth l : StronglySorted Rle l -> forall i j, (i <= j)%nat -> (j < length l)%nat -> nth i l 0 <= nth j l 0.
Proof.
  induction 1 as [|x l S IH F]; intros i j L J; cbn in J; [lia|]. destruct i, j; cbn; try lra; try lia.
  - rewrite Forall_forall in F. apply F. apply nth_In. lia.
  - apply IH; lia.
Qed.

(** ** The median in real numbers *)
Definition rmed (l : list R) : RN := let s := rsort l in let n := length s in
  if Nat.eqb n 0 then None else if Nat.odd n then Some (nth (n / 2) s 0) else Some ((nth (n / 2 - 1) s 0 + nth (n / 2) s 0) / 2).
Lemma rsort_length l : length (rsort l) = length l.
Proof. symmetry. apply Permutation_length, rsort_perm. Qed.
Lemma ins_some x l : ins RN (Some x : RN) (map Some l) = map Some (rins x l).
Proof. induction l as [|y l IH]; cbn [ins map rins]; [reflexivity|]. change (fle RN (Some x : RN) (Some y : RN)) with (Rleb x y). destruct (Rleb x y); [reflexivity|]. rewrite IH. reflexivity. Qed.
Lemma ascending_some l : ascending RN (map Some l) = map Some (rsort l).
Proof. unfold ascending, rsort. induction l as [|x l IH]; cbn [fold_right map]; [reflexivity|]. rewrite IH. apply ins_some. Qed.
Lemma nth_some (l : list R) i : (i < length l)%nat -> nth i (map Some l) (None : RN) = Some (nth i l 0).
Proof. intro H. rewrite (nth_indep _ (None : RN) (Some 0)) by (rewrite map_length; exact H). apply (map_nth (@Some R)). Qed.
Lemma filter_present (l : list RN) : filter (fun x => negb (fisnan RN x)) l = map Some (present l).
Proof. induction l as [|[v|] l IH]; cbn; [reflexivity| |exact IH]. f_equal. exact IH. Qed.
Lemma nanmedian_real l : np_nanmedian RN l = rmed (present l).
Proof.
  unfold np_nanmedian, np_median, rmed. rewrite filter_present, ascending_some, map_length. set (s := rsort (present l)).
  destruct (Nat.eqb_spec (length s) 0) as [E|E]; [reflexivity|]. assert (H : (length s / 2 < length s)%nat) by (apply Nat.div_lt; lia).
  destruct (Nat.odd (length s)); [apply nth_some; exact H|]. change (fnan RN) with (None : RN). rewrite !nth_some by lia. cbn. destruct (Reqb 2 0) eqn:Z; [apply Reqb_spec in Z; lra|reflexivity].
Qed.

(** ** Counting in a sorted list *)
Lemma count_perm p l l' : Permutation l l' -> count p l = count p l'.
Proof. unfold count. induction 1; cbn; [reflexivity|destruct (p x); cbn; congruence|destruct (p x), (p y); reflexivity|congruence]. Qed.
Lemma count_app p l l' : count p (l ++ l') = (count p l + count p l')%nat.
Proof. unfold count. rewrite filter_app, app_length. reflexivity. Qed.
Lemma count_le p l : (count p l <= length l)%nat.
Proof. unfold count. induction l as [|x l IH]; cbn; [lia|]. destruct (p x); cbn; lia. Qed.
Lemma count_none p l : (forall x, In x l -> p x = false) -> count p l = 0%nat.
Proof. intro H. unfold count. induction l as [|x l IH]; [reflexivity|]. cbn. rewrite (H x) by (left; reflexivity). apply IH. intros y Y. apply H. right; exact Y. Qed.
Lemma count_all p l : (forall x, In x l -> p x = true) -> count p l = length l.
Proof. intro H. unfold count. induction l as [|x l IH]; [reflexivity|]. cbn. rewrite (H x) by (left; reflexivity). cbn. f_equal. apply IH. intros y Y. apply H. right; exact Y. Qed.
Lemma low_side s p a i : StronglySorted Rle s -> (i < length s)%nat -> (forall x, p x = true -> a <= x) -> (length s - i <= count p s)%nat -> a <= nth i s 0.
Proof.
  intros S I P C. destruct (Rle_dec a (nth i s 0)) as [|N]; [assumption|exfalso].
  assert (Z : count p (firstn (i + 1) s) = 0%nat).
  { apply count_none. intros x X. destruct (p x) eqn:E; [|reflexivity]. specialize (P x E). apply In_nth with (d := 0) in X. destruct X as (j & J & <-).
    rewrite firstn_length in J. assert (Q : nth j (firstn (i + 1) s) 0 = nth j s 0). { rewrite <- (firstn_skipn (i + 1) s) at 2. rewrite app_nth1; [reflexivity|]. rewrite firstn_length. lia. }
    rewrite Q in P. pose proof (sorted_nth s S j i ltac:(lia) I). lra. }
  rewrite <- (firstn_skipn (i + 1) s) in C at 2. rewrite count_app, Z in C. pose proof (count_le p (skipn (i + 1) s)). rewrite skipn_length in H. lia.
Qed.
Lemma high_side s p b i : StronglySorted Rle s -> (i < length s)%nat -> (forall x, p x = true -> x <= b) -> (i < count p s)%nat -> nth i s 0 <= b.
Proof.
  intros S I P C. destruct (Rle_dec (nth i s 0) b) as [|N]; [assumption|exfalso].
  assert (Z : count p (skipn i s) = 0%nat).
  { apply count_none. intros x X. destruct (p x) eqn:E; [|reflexivity]. specialize (P x E). apply In_nth with (d := 0) in X. destruct X as (j & J & <-). rewrite skipn_length in J.
    assert (Q : nth j (skipn i s) 0 = nth (i + j) s 0). { rewrite <- (firstn_skipn i s) at 2. rewrite app_nth2; rewrite firstn_length; [f_equal; lia|lia]. }
    rewrite Q in P. pose proof (sorted_nth s S i (i + j) ltac:(lia) ltac:(lia)). lra. }
  rewrite <- (firstn_skipn i s) in C. rewrite count_app, Z in C. pose proof (count_le p (firstn i s)). rewrite firstn_length in H. lia.
Qed.

(** the middle positions *)
Lemma middle_odd n : Nat.odd n = true -> n = (2 * (n / 2) + 1)%nat.
Proof. intro H. apply Nat.odd_spec in H. destruct H as (k & ->). replace (2 * k + 1)%nat with (1 + k * 2)%nat by lia. rewrite Nat.div_add by lia. cbn. lia. Qed.
Lemma middle_even n : Nat.odd n = false -> n = (2 * (n / 2))%nat.
Proof. intro H. assert (E : Nat.even n = true) by (rewrite <- Nat.negb_odd, H; reflexivity). apply Nat.even_spec in E. destruct E as (k & ->). rewrite (Nat.mul_comm 2 k), Nat.div_mul by lia. lia. Qed.
Lemma rmed_range l a b : (length l < 2 * count (within a b) l)%nat -> exists v, rmed l = Some v /\ a <= v <= b.
Proof.
  intro M. pose proof (rsort_sorted l) as S. pose proof (rsort_length l) as L. rewrite (count_perm _ _ _ (rsort_perm l)), <- L in M. pose proof (count_le (within a b) (rsort l)). unfold rmed. set (s := rsort l) in *. set (n := length s) in *.
  assert (W : forall x, within a b x = true -> a <= x /\ x <= b) by (intros x X; unfold within in X; apply andb_true_iff in X; rewrite !Rleb_spec in X; exact X).
  destruct (Nat.eqb_spec n 0) as [E|E]; [lia|]. destruct (Nat.odd n) eqn:O.
  - apply middle_odd in O. eexists; split; [reflexivity|]. split; [eapply low_side with (p := within a b)|eapply high_side with (p := within a b)]; try exact S; try (fold n; lia); intros x X; apply W; exact X.
  - apply middle_even in O. eexists; split; [reflexivity|].
    assert (A : forall i, (n / 2 - 1 <= i <= n / 2)%nat -> a <= nth i s 0 <= b).
    { intros i I. split; [eapply low_side with (p := within a b)|eapply high_side with (p := within a b)]; try exact S; try (fold n; lia); intros x X; apply W; exact X. }
    pose proof (A (n / 2 - 1)%nat ltac:(lia)). pose proof (A (n / 2)%nat ltac:(lia)). lra.
Qed.
Lemma count_ge_nth s p (i : nat) : (forall j, (i <= j < length s)%nat -> p (nth j s 0) = true) -> (length s - i <= count p s)%nat.
Proof.
  intro H. rewrite <- (firstn_skipn i s) at 2. rewrite count_app. assert (E : count p (skipn i s) = (length s - i)%nat); [|lia].
  rewrite count_all; [apply skipn_length|]. intros x X. apply In_nth with (d := 0) in X. destruct X as (j & J & <-). rewrite skipn_length in J.
  assert (Q : nth j (skipn i s) 0 = nth (i + j) s 0). { rewrite <- (firstn_skipn i s) at 2. rewrite app_nth2; rewrite firstn_length; [f_equal; lia|lia]. } rewrite Q. apply H. lia.
Qed.
Lemma count_lt_nth s p (i : nat) : (i <= length s)%nat -> (forall j, (j < i)%nat -> p (nth j s 0) = true) -> (i <= count p s)%nat.
Proof.
  intros I H. rewrite <- (firstn_skipn i s). rewrite count_app. assert (E : count p (firstn i s) = i); [|lia].
  rewrite count_all; [rewrite firstn_length; lia|]. intros x X. apply In_nth with (d := 0) in X. destruct X as (j & J & <-). rewrite firstn_length in J.
  assert (Q : nth j (firstn i s) 0 = nth j s 0). { rewrite <- (firstn_skipn i s) at 2. rewrite app_nth1; [reflexivity|]. rewrite firstn_length. lia. } rewrite Q. apply H. lia.
Qed.

(** ** What either computer returns *)
Lemma stack_value im n R C it dt buf imgs o : stack_median im n R C it dt buf imgs o ->
  forall r c, (r < R)%nat -> (c < C)%nat -> i_px o r c = rmed (present (samples imgs r c)).
Proof.
  intros (HG & HL & HN & un & m0 & m & m' & H0 & HA & HE) r c Hr Hc. rewrite <- nanmedian_real. destruct im.
  - cbn [computer_new] in H0. injection H0 as <-.
    destruct (MedianProofs.append_all_memory RN n R C dt imgs [] un 0 HG eq_refl ltac:(lia) ltac:(intros; lia)) as (arr & Hk & Harr).
    unfold append_all in HA. pose proof (eq_trans (eq_sym Hk) HA) as HQ. injection HQ as <-. cbn [computer_evaluate] in HE. injection HE as <- <-. cbn [i_px]. unfold nanmedian3D, samples. f_equal.
    destruct imgs as [|i0 imgs']; [cbn in HL; congruence|]. subst n. apply MedianProofs.map_seq_nth with (d0 := i0). intros k Hkk. apply (Harr k); assumption.
  - assert (NE : imgs <> []) by (intros ->; cbn in HL; congruence).
    destruct (C15_disk_median_of_appended RN (None : RN) (np_nanmedian RN) _ _ _ _ _ _ _ _ _ _ H0 HG NE HA) as (o' & m1 & He & _ & _ & _ & Hv). rewrite He in HE. injection HE as <- _. apply Hv; assumption.
Qed.

(** ** The theorems *)
Section Stack.
  Variables (im : bool) (n NR NC it dt : nat) (buf : Z) (imgs : list (image RN)) (o : image RN) (r c : nat).
  Hypothesis HM : stack_median im n NR NC it dt buf imgs o.
  Hypothesis Hr : (r < NR)%nat.
  Hypothesis Hc : (c < NC)%nat.
  Notation v := (present (samples imgs r c)).

  (** a pixel of the median image: missing exactly if every sample is; otherwise at least half of the samples present are not
      above it and at least half are not below it *)
  Theorem C130_median : (i_px o r c = None <-> v = []) /\
    forall m, i_px o r c = Some m -> (length v <= 2 * count (fun x => Rleb x m) v)%nat /\ (length v <= 2 * count (fun x => Rleb m x) v)%nat.
  Proof.
    rewrite (stack_value _ _ _ _ _ _ _ _ _ HM r c Hr Hc). set (l := v). pose proof (rsort_sorted l) as S. pose proof (rsort_length l) as L. unfold rmed. rewrite <- L. set (s := rsort l) in *.
    destruct (Nat.eqb_spec (length s) 0) as [E|E].
    { split; [|discriminate]. split; [|reflexivity]. intros _. apply length_zero_iff_nil. lia. }
    split. { split; [destruct (Nat.odd _); discriminate|]. intro Z. apply (f_equal (@length _)) in Z. cbn in Z. lia. }
    intros m M. rewrite !(count_perm _ _ _ (rsort_perm l)). fold s. set (k := (length s / 2)%nat) in *. destruct (Nat.odd (length s)) eqn:O; injection M as <-.
    - apply middle_odd in O. fold k in O. split.
      + assert (k + 1 <= count (fun x => Rleb x (nth k s 0%R)) s)%nat; [|lia]. apply count_lt_nth; [lia|]. intros j J. apply Rleb_spec. apply sorted_nth; [exact S|lia|lia].
      + assert (length s - k <= count (fun x => Rleb (nth k s 0%R) x) s)%nat; [|lia]. apply count_ge_nth. intros j J. apply Rleb_spec. apply sorted_nth; [exact S|lia|lia].
    - apply middle_even in O. fold k in O. pose proof (sorted_nth s S (k - 1) k ltac:(lia) ltac:(lia)). split.
      + assert (k <= count (fun x => Rleb x ((nth (k - 1)%nat s 0 + nth k s 0) / 2)%R) s)%nat; [|lia]. apply count_lt_nth; [lia|]. intros j J. apply Rleb_spec. pose proof (sorted_nth s S j (k - 1) ltac:(lia) ltac:(lia)). lra.
      + assert (length s - k <= count (fun x => Rleb ((nth (k - 1)%nat s 0 + nth k s 0) / 2)%R x) s)%nat; [|lia]. apply count_ge_nth. intros j J. apply Rleb_spec. pose proof (sorted_nth s S k j ltac:(lia) ltac:(lia)). lra.
  Qed.

  (** samples outside a range that holds more than half of them cannot move the median out of that range *)
  Theorem C130_majority : forall a b, (length v < 2 * count (within a b) v)%nat -> exists m, i_px o r c = Some m /\ a <= m <= b.
  Proof. intros a b M. rewrite (stack_value _ _ _ _ _ _ _ _ _ HM r c Hr Hc). apply rmed_range. exact M. Qed.

  (** against the median, a sample further above (or below) the range of the majority than the noise allows is flagged, a sample
      of the majority is not if the range is no wider than that, and a missing sample never is *)
  Theorem C130_detects : forall a b fm (sci err : img RN) (snr x e : R), (length v < 2 * count (within a b) v)%nat ->
    sci r c = Some x -> err r c = Some e -> (x > b + snr * e \/ x < a - snr * e) -> 0 <= snr * e ->
    flag_crs RN fm sci err (i_px o) (Some snr : RN) r c = true.
  Proof.
    intros a b fm sci err snr x e M Hx He D P. destruct (C130_majority a b M) as (m & Hm & B). unfold flag_crs, fgt. rewrite Hm, Hx, He. cbn. apply Rltb_spec.
    destruct D; [rewrite Rabs_pos_eq by lra; lra|rewrite Rabs_left by lra; lra].
  Qed.
  Theorem C130_keeps : forall a b fm (sci err : img RN) (snr x e : R), (length v < 2 * count (within a b) v)%nat ->
    sci r c = Some x -> err r c = Some e -> a <= x <= b -> b - a <= snr * e ->
    flag_crs RN fm sci err (i_px o) (Some snr : RN) r c = false.
  Proof.
    intros a b fm sci err snr x e M Hx He D P. destruct (C130_majority a b M) as (m & Hm & B). unfold flag_crs, fgt. rewrite Hm, Hx, He. cbn. apply not_true_iff_false. rewrite Rltb_spec. intro K.
    unfold Rabs in K. destruct (Rcase_abs (x - m)); lra.
  Qed.
  Theorem C130_missing : forall fm (sci err : img RN) (snr : RN), sci r c = None \/ v = [] -> flag_crs RN fm sci err (i_px o) snr r c = false.
  Proof.
    intros fm sci err snr D. unfold flag_crs, fgt. destruct D as [->|D]; [cbn; destruct (rn2 _ _ _); reflexivity|]. destruct (proj1 C130_median) as [_ K]. rewrite (K D). destruct (sci r c); cbn; destruct (rn2 _ _ _); reflexivity.
  Qed.
End Stack.
Print Assumptions C130_median.
Print Assumptions C130_majority.
Print Assumptions C130_detects.
Print Assumptions C130_keeps.
Print Assumptions C130_missing.

(** ** Order, unit and zero point *)
Lemma rsort_of l s : StronglySorted Rle s -> Permutation l s -> rsort l = s.
Proof. intros S P. apply sorted_unique; [apply rsort_sorted|exact S|]. rewrite <- rsort_perm. exact P. Qed.
Lemma rmed_perm l l' : Permutation l l' -> rmed l = rmed l'.
Proof. intro P. unfold rmed. rewrite (rsort_of l (rsort l') (rsort_sorted l')); [reflexivity|]. rewrite P. apply rsort_perm. Qed.
Lemma present_perm l l' : Permutation l l' -> Permutation (present l) (present l').
Proof. unfold present. induction 1 as [| x l l' P IH|x y l|]; cbn; [reflexivity|apply Permutation_app_head; exact IH| |etransitivity; eassumption]. rewrite !app_assoc. apply Permutation_app_tail, Permutation_app_comm. Qed.
(** the images may come in any order, from either computer, with any buffer *)
Theorem C130_order : forall im im' n n' NR NC it it' dt dt' buf buf' imgs imgs' o o', stack_median im n NR NC it dt buf imgs o -> stack_median im' n' NR NC it' dt' buf' imgs' o' ->
  Permutation imgs imgs' -> forall r c, (r < NR)%nat -> (c < NC)%nat -> i_px o r c = i_px o' r c.
Proof.
  intros im im' n n' NR NC it it' dt dt' buf buf' imgs imgs' o o' H H' P r c Hr Hc. rewrite (stack_value _ _ _ _ _ _ _ _ _ H r c Hr Hc), (stack_value _ _ _ _ _ _ _ _ _ H' r c Hr Hc).
  apply rmed_perm, present_perm. unfold samples. apply Permutation_map. exact P.
Qed.
Print Assumptions C130_order.

(** [u] times the sample plus [b] *)
Definition affine (u b : R) (x : RN) : RN := match x with Some v => Some (u * v + b) | None => None end.
Definition affine_image (u b : R) (d : image RN) : image RN := {| i_rows := i_rows d; i_cols := i_cols d; i_dtype := i_dtype d; i_px := fun r c => affine u b (i_px d r c) |}.
Lemma present_affine u b l : present (map (affine u b) l) = map (fun v => u * v + b) (present l).
Proof. induction l as [|[v|] l IH]; cbn; [reflexivity|f_equal; exact IH|exact IH]. Qed.
Lemma sorted_up u b l : 0 <= u -> StronglySorted Rle l -> StronglySorted Rle (map (fun v => u * v + b) l).
Proof.
  intros U. induction 1 as [|x l S IH F]; cbn; [constructor|]. constructor; [exact IH|]. apply Forall_map. eapply Forall_impl; [|exact F]. intros y Y. cbn in *. apply Rplus_le_compat_r, Rmult_le_compat_l; assumption.
Qed.
Lemma sorted_snoc l x : StronglySorted Rle l -> Forall (fun y => y <= x) l -> StronglySorted Rle (l ++ [x]).
Proof.
  induction 1 as [|y l S IH F]; intro H; cbn; [repeat constructor|]. inversion H; subst. constructor; [apply IH; assumption|]. apply Forall_app. split; [exact F|]. constructor; [assumption|constructor].
Qed.
Lemma sorted_down u b l : u <= 0 -> StronglySorted Rle l -> StronglySorted Rle (rev (map (fun v => u * v + b) l)).
Proof.
  intros U. induction 1 as [|x l S IH F]; cbn; [constructor|]. apply sorted_snoc; [exact IH|]. apply Forall_rev, Forall_map. eapply Forall_impl; [|exact F]. intros y Y. cbn in *. nra.
Qed.
Lemma rmed_affine u b l : rmed (map (fun v => u * v + b) l) = affine u b (rmed l).
Proof.
  pose proof (rsort_sorted l) as S. pose proof (rsort_perm l) as P. assert (N : forall i t, (i < length t)%nat -> nth i (map (fun v => u * v + b) t) 0 = u * nth i t 0 + b).
  { intros i t I. rewrite (nth_indep _ 0 (u * 0 + b)) by (rewrite map_length; exact I). apply (map_nth (fun v => u * v + b)). }
  destruct (Rle_dec 0 u) as [U|U].
  - unfold rmed. rewrite (rsort_of _ (map (fun v => u * v + b) (rsort l)) (sorted_up u b _ U S)) by (apply Permutation_map; exact P). rewrite map_length. set (s := rsort l) in *. destruct (Nat.eqb_spec (length s) 0) as [E|E]; [reflexivity|].
    assert (H : (length s / 2 < length s)%nat) by (apply Nat.div_lt; lia). destruct (Nat.odd _); cbn [affine]; rewrite !N by lia; f_equal; lra.
  - unfold rmed. rewrite (rsort_of _ (rev (map (fun v => u * v + b) (rsort l))) (sorted_down u b _ ltac:(lra) S)) by (etransitivity; [apply Permutation_map; exact P|apply Permutation_rev]). rewrite rev_length, map_length. set (s := rsort l) in *.
    destruct (Nat.eqb_spec (length s) 0) as [E|E]; [reflexivity|]. assert (H : (length s / 2 < length s)%nat) by (apply Nat.div_lt; lia).
    assert (V : forall i, (i < length s)%nat -> nth i (rev (map (fun v => u * v + b) s)) 0 = u * nth (length s - 1 - i) s 0 + b). { intros i I. rewrite rev_nth by (rewrite map_length; exact I). rewrite map_length, N by lia. do 3 f_equal. lia. }
    destruct (Nat.odd _) eqn:O; cbn [affine]; rewrite !V by lia; f_equal.
    + apply middle_odd in O. replace (length s - 1 - length s / 2)%nat with (length s / 2)%nat by lia. lra.
    + apply middle_even in O. replace (length s - 1 - (length s / 2 - 1))%nat with (length s / 2)%nat by lia. replace (length s - 1 - length s / 2)%nat with (length s / 2 - 1)%nat by lia. lra.
Qed.
(** another unit (even a negative one) and a constant added to all images: the median image changes in the same way *)
Theorem C130_unit : forall im im' n n' NR NC it it' dt dt' buf buf' imgs o o' u b, stack_median im n NR NC it dt buf imgs o -> stack_median im' n' NR NC it' dt' buf' (map (affine_image u b) imgs) o' ->
  forall r c, (r < NR)%nat -> (c < NC)%nat -> i_px o' r c = affine u b (i_px o r c).
Proof.
  intros im im' n n' NR NC it it' dt dt' buf buf' imgs o o' u b H H' r c Hr Hc. rewrite (stack_value _ _ _ _ _ _ _ _ _ H r c Hr Hc), (stack_value _ _ _ _ _ _ _ _ _ H' r c Hr Hc).
  rewrite <- rmed_affine, <- present_affine. f_equal. f_equal. unfold samples. rewrite !map_map. reflexivity.
Qed.
Print Assumptions C130_unit.

(** ** Examples *)
Definition im1 (x : RN) : image RN := {| i_rows := 1; i_cols := 1; i_dtype := 0; i_px := fun _ _ => x |}.
(** three exposures of one pixel, one hit by a cosmic ray; a fourth exposure has no sample *)
Definition ex_stack : list (image RN) := [im1 (Some 10); im1 (Some 500); im1 None; im1 (Some 12)].
Lemma ex_present : present (samples ex_stack 0 0) = [10; 500; 12].
Proof. reflexivity. Qed.
Lemma leb_t x y : x <= y -> Rleb x y = true. Proof. apply Rleb_spec. Qed.
Lemma leb_f x y : y < x -> Rleb x y = false. Proof. intro H. apply not_true_iff_false. rewrite Rleb_spec. lra. Qed.
Example C130_example : exists o, stack_median true 4 1 1 4 0 0 ex_stack o /\ i_px o 0%nat 0%nat = Some 12 /\
  (length (present (samples ex_stack 0 0)) < 2 * count (within 10 12) (present (samples ex_stack 0 0)))%nat /\
  flag_crs RN (None : RN) (i_px (im1 (Some 500))) (fun _ _ => Some 2) (i_px o) (Some 5 : RN) 0%nat 0%nat = true /\
  flag_crs RN (None : RN) (i_px (im1 (Some 10))) (fun _ _ => Some 2) (i_px o) (Some 5 : RN) 0%nat 0%nat = false.
Proof.
  assert (W : (length (present (samples ex_stack 0 0)) < 2 * count (within 10 12) (present (samples ex_stack 0 0)))%nat).
  { rewrite ex_present. unfold count, within. cbn [filter]. rewrite (leb_t 10 10), (leb_t 10 12), (leb_f 500 12), (leb_t 12 12), (leb_t 10 500) by lra. cbn. lia. }
  assert (M : exists o, stack_median true 4 1 1 4 0 0 ex_stack o).
  { eexists. split; [repeat constructor|]. split; [reflexivity|]. split; [lia|]. exists (fun _ _ _ => None). do 3 eexists. split; [reflexivity|]. split; [reflexivity|]. cbn [computer_evaluate]. reflexivity. }
  destruct M as (o & M). exists o. split; [exact M|]. split.
  { rewrite (stack_value _ _ _ _ _ _ _ _ _ M 0 0 ltac:(lia) ltac:(lia)), ex_present. unfold rmed. rewrite (rsort_of [10; 500; 12] [10; 12; 500]); [reflexivity| |constructor; apply perm_swap]. repeat (constructor; try lra). }
  split; [exact W|]. split.
  - apply (C130_detects _ _ _ _ _ _ _ _ _ 0%nat 0%nat M Nat.lt_0_1 Nat.lt_0_1 10 12 _ _ _ _ 500 2 W); try reflexivity; [left; lra|lra].
  - apply (C130_keeps _ _ _ _ _ _ _ _ _ 0%nat 0%nat M Nat.lt_0_1 Nat.lt_0_1 10 12 _ _ _ _ 10 2 W); try reflexivity; lra.
Qed.
(** the hypotheses of the order and unit theorems: a permuted and a converted stack, and the disk-backed computer *)
Example C130_order_example : (exists o, stack_median true 4 1 1 4 0 0 (rev ex_stack) o) /\ (exists o, stack_median true 4 1 1 4 0 0 (map (affine_image (-2) 3) ex_stack) o) /\
  exists o, stack_median false 1 1 1 4 0 0 [im1 (Some 10)] o.
Proof.
  repeat split; eexists; (split; [repeat constructor|]); (split; [reflexivity|]); (split; [lia|]); exists (fun _ _ _ => None); do 3 eexists; (split; [reflexivity|]); (split; [reflexivity|]); reflexivity.
Qed.
(** half of the exposures is not a majority: the median leaves the range of the clean ones *)
Example C130_half : exists o m, stack_median true 2 1 1 4 0 0 [im1 (Some 10); im1 (Some 500)] o /\ i_px o 0%nat 0%nat = Some m /\ 10 < m.
Proof.
  assert (M : exists o, stack_median true 2 1 1 4 0 0 [im1 (Some 10); im1 (Some 500)] o).
  { eexists. split; [repeat constructor|]. split; [reflexivity|]. split; [lia|]. exists (fun _ _ _ => None). do 3 eexists. split; [reflexivity|]. split; [reflexivity|]. reflexivity. }
  destruct M as (o & M). exists o, ((10 + 500) / 2). split; [exact M|]. split; [|lra]. rewrite (stack_value _ _ _ _ _ _ _ _ _ M 0 0 ltac:(lia) ltac:(lia)).
  unfold rmed. change (present _) with [10; 500]. rewrite (rsort_of [10; 500] [10; 500]); [reflexivity| |reflexivity]. repeat (constructor; try lra).
Qed.

(** ** The median meets what the theorems on jump detection assume of it *)
From Verif Require JdUnits.
Lemma ins_map (h : RN -> RN) : (forall x y, fle RN (h x) (h y) = fle RN x y) -> forall x l, ins RN (h x) (map h l) = map h (ins RN x l).
Proof. intros H x. induction l as [|y l IH]; cbn [ins map]; [reflexivity|]. rewrite H. destruct (fle RN x y); [reflexivity|]. cbn [map]. rewrite IH. reflexivity. Qed.
Lemma ascending_map (h : RN -> RN) : (forall x y, fle RN (h x) (h y) = fle RN x y) -> forall l, ascending RN (map h l) = map h (ascending RN l).
Proof. intros H l. unfold ascending. induction l as [|x l IH]; cbn [fold_right map]; [reflexivity|]. rewrite IH. apply ins_map. exact H. Qed.
(** the assumption of C122_units, C120 and C123 holds of np.median *)
Theorem C130_follows_unit : JdUnits.follows_unit (np_median RN).
Proof.
  intros k l K. set (h := fun x : RN => fdiv RN x (Some k : RN)).
  assert (HK : Reqb k 0 = false) by (apply not_true_iff_false; rewrite Reqb_spec; lra).
  assert (HS : forall x, h x = match x with Some v => Some (v / k) | None => None end) by (intros [v|]; unfold h; cbn; rewrite ?HK; reflexivity).
  assert (HL : forall x y, fle RN (h x) (h y) = fle RN x y).
  { intros x y. rewrite !HS. destruct x as [x|], y as [y|]; try reflexivity. cbn. apply eq_true_iff_eq. rewrite !Rleb_spec. split; intro A.
    - apply (Rmult_le_reg_r (/ k)); [apply Rinv_0_lt_compat; exact K|exact A].
    - apply Rmult_le_compat_r; [left; apply Rinv_0_lt_compat; exact K|exact A]. }
  unfold np_median. fold h. rewrite (ascending_map h HL), map_length. set (s := ascending RN l). change (fnan RN) with (None : RN).
  assert (N : forall i, nth i (map h s) (None : RN) = h (nth i s (None : RN))) by (intro i; exact (map_nth h s None i)).
  destruct (Nat.eqb (length s) 0); [reflexivity|]. destruct (Nat.odd (length s)); [apply N|]. rewrite !N. generalize (nth (length s / 2 - 1) s (None : RN)), (nth (length s / 2) s (None : RN)). intros x y.
  rewrite !HS. destruct x as [x|], y as [y|]; cbn; rewrite ?HK; try reflexivity. destruct (Reqb 2 0) eqn:Z; [apply Reqb_spec in Z; lra|]. cbn. rewrite ?HK. f_equal. field. lra.
Qed.
Print Assumptions C130_follows_unit.
