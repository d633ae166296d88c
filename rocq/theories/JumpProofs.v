(** Lemmas about the jump-detection model. *)
From Verif Require Import Base BaseLemmas FLaws JumpModel JumpSpec.
From Coq Require Import ZifyBool ZifyNat ZifyN.

(** ** booleans over ranges *)
Lemma existsb_seq n (p : nat -> bool) : existsb p (seq 0 n) = true <-> exists i, i < n /\ p i = true.
Proof. rewrite existsb_exists. split; intros (i & H & K); exists i; split; try exact K; rewrite in_seq in *; lia. Qed.
Lemma forallb_seq n (p : nat -> bool) : forallb p (seq 0 n) = true <-> forall i, i < n -> p i = true.
Proof. rewrite forallb_forall. split; intros H i Hi; apply H; rewrite in_seq in *; lia. Qed.
Lemma any2_spec n m p : any2 n m p = true <-> exists i j, i < n /\ j < m /\ p i j = true.
Proof. unfold any2. rewrite existsb_seq. split.
  - intros (i & Hi & H). rewrite existsb_seq in H. destruct H as (j & Hj & H). exists i, j; auto.
  - intros (i & j & Hi & Hj & H). exists i; split; [exact Hi|]. rewrite existsb_seq. exists j; auto. Qed.
Lemma any_pix_spec n m p : any_pix n m p = true <-> exists i j, i < n /\ j < m /\ p i j = true.
Proof. apply any2_spec. Qed.
Lemma all_pix_spec n m p : all_pix n m p = true <-> forall i j, i < n -> j < m -> p i j = true.
Proof. unfold all_pix. rewrite forallb_seq. split.
  - intros H i j Hi Hj. specialize (H i Hi). rewrite forallb_seq in H. auto.
  - intros H i Hi. rewrite forallb_seq. auto. Qed.
Lemma any2_ext n m p q : (forall i j, i < n -> j < m -> p i j = q i j) -> any2 n m p = any2 n m q.
Proof. intro H. apply eq_true_iff_eq. rewrite !any2_spec.
  split; intros (i & j & Hi & Hj & E); exists i, j; (split; [exact Hi|split; [exact Hj|]]);
  [rewrite <- H|rewrite H]; assumption. Qed.
Lemma all_pix_ext n m p q : (forall i j, i < n -> j < m -> p i j = q i j) -> all_pix n m p = all_pix n m q.
Proof. intro H. apply eq_true_iff_eq. rewrite !all_pix_spec.
  split; intros E i j Hi Hj; [rewrite <- H|rewrite H]; auto. Qed.

(** ** propagate_flags *)
Lemma option_a_spec J f k r c : option_a J f k r c = true <-> exists g, g <= k /\ k <= g + J /\ f g r c = true.
Proof.
  unfold option_a. revert k. induction J as [|J IH]; intro k.
  - cbn. split; [intro H; exists k; split; [lia|split; [lia|exact H]]|].
    intros (g & H1 & H2 & H3). replace k with g by lia. exact H3.
  - rewrite seq_S, fold_left_app. cbn [fold_left]. unfold shift_from at 1. cbn [plus].
    rewrite orb_true_iff, andb_true_iff, !IH, Nat.leb_le. split.
    + intros [(g & H1 & H2 & H3)|(H0 & g & H1 & H2 & H3)]; exists g; (split; [lia|split; [lia|exact H3]]).
    + intros (g & H1 & H2 & H3). destruct (le_lt_dec k (g + J)) as [H|H].
      * left. exists g; auto.
      * right. split; [lia|]. exists g. split; [lia|split; [lia|exact H3]].
Qed.
Lemma fold_or {A} (contrib : A -> nat -> nat -> nat -> bool) l (f : cube bool) k r c :
  fold_left (fun acc p => fun k r c => acc k r c || contrib p k r c) l f k r c
  = f k r c || existsb (fun p => contrib p k r c) l.
Proof. revert f. induction l as [|x l IH]; intro f; cbn; [rewrite orb_false_r; reflexivity|].
  rewrite IH, orb_assoc. reflexivity. Qed.
Lemma fold_left_ext {A B} (f g : A -> B -> A) l a : (forall x y, f x y = g x y) -> fold_left f l a = fold_left g l a.
Proof. intro H. revert a. induction l as [|x l IH]; intro a; cbn; [reflexivity|]. rewrite H. apply IH. Qed.
Lemma option_b_spec ng nr nc n f k r c : r < nr -> c < nc ->
  option_b ng nr nc n f k r c = true <->
  f k r c = true \/ (k < ng /\ exists g, g < ng /\ g <= k /\ (Z.of_nat k <= Z.of_nat g + n)%Z /\ f g r c = true).
Proof.
  intros Hr Hc. unfold option_b.
  rewrite (fold_left_ext _ (fun acc p => fun k' r' c' => acc k' r' c' ||
     (fun p k' r' c' => let '(g, r, c) := p in (Nat.eqb r' r && Nat.eqb c' c && Nat.leb g k'
        && Z.ltb (Z.of_nat k') (Z.of_nat g + n + 1) && Nat.ltb k' ng)) p k' r' c'))
    by (intros x [[g r0] c0]; reflexivity).
  rewrite fold_or, orb_true_iff, existsb_exists. apply or_iff_compat_l. split.
  - intros ([[g r0] c0] & Hin & H). rewrite !andb_true_iff, !Nat.eqb_eq, Nat.leb_le, Z.ltb_lt, Nat.ltb_lt in H.
    destruct H as ((((-> & ->) & H1) & H2) & H3). split; [exact H3|]. exists g.
    rewrite in_flat_map in Hin. destruct Hin as (g' & Hg' & Hin). rewrite in_flat_map in Hin.
    destruct Hin as (r' & Hr' & Hin). rewrite in_flat_map in Hin. destruct Hin as (c' & Hc' & Hin).
    destruct (f g' r' c') eqn:E; [|destruct Hin]. destruct Hin as [Hin|[]]. injection Hin as -> -> ->.
    rewrite in_seq in Hg'. split; [lia|split; [exact H1|split; [lia|exact E]]].
  - intros (H3 & g & Hg & H1 & H2 & E). exists (g, r, c). split.
    + apply in_flat_map. exists g. split; [rewrite in_seq; lia|].
      apply in_flat_map. exists r. split; [rewrite in_seq; lia|].
      apply in_flat_map. exists c. split; [rewrite in_seq; lia|]. rewrite E. left; reflexivity.
    + rewrite !Nat.eqb_refl. cbn [andb]. rewrite !andb_true_iff, Nat.leb_le, Z.ltb_lt, Nat.ltb_lt. lia.
Qed.
Lemma propagate_spec crowded ng nr nc f n k r c :
  (forall r c, f 0 r c = false) -> k < ng -> r < nr -> c < nc ->
  propagate_flags crowded ng nr nc f n k r c = true <->
  f k r c = true \/ exists g, g < k /\ (Z.of_nat k <= Z.of_nat g + n)%Z /\ f g r c = true.
Proof.
  intros H0 Hk Hr Hc. unfold propagate_flags. cbv zeta.
  assert (HA : option_a (Z.to_nat (Z.min n (Z.of_nat ng - 2))) f k r c = true <->
     f k r c = true \/ exists g, g < k /\ (Z.of_nat k <= Z.of_nat g + n)%Z /\ f g r c = true).
  { rewrite option_a_spec. split.
    - intros (g & H1 & H2 & H3). destruct (Nat.eq_dec g k) as [->|Hn]; [left; exact H3|right].
      exists g. split; [lia|split; [lia|exact H3]].
    - intros [H|(g & H1 & H2 & H3)]; [exists k; split; [lia|split; [lia|exact H]]|].
      assert (g <> 0) by (intros ->; rewrite H0 in H3; discriminate).
      exists g. split; [lia|split; [lia|exact H3]]. }
  destruct (_ || crowded ng nr nc f) eqn:E; [exact HA|].
  destruct (Z.ltb_spec 0 (Z.min n (Z.of_nat ng - 2))) as [H|H].
  - rewrite option_b_spec by assumption. split.
    + intros [H1|(_ & g & _ & H1 & H2 & H3)]; [left; exact H1|].
      destruct (Nat.eq_dec g k) as [->|Hn]; [left; exact H3|right]. exists g. split; [lia|auto].
    + intros [H1|(g & H1 & H2 & H3)]; [left; exact H1|]. right. split; [exact Hk|].
      exists g. split; [lia|split; [lia|auto]].
  - replace (Z.to_nat (Z.min n (Z.of_nat ng - 2))) with 0 in HA by lia.
    rewrite <- HA. unfold option_a. cbn. reflexivity.
Qed.

(** ** DQ words *)
Lemma has_or w j k : has w (N.lor (bit j) (bit k)) = N.testbit w j || N.testbit w k.
Proof.
  unfold has. destruct (N.eqb_spec (N.land w (N.lor (bit j) (bit k))) 0) as [H|H]; cbn.
  - assert (A : forall i, N.testbit (N.land w (N.lor (bit j) (bit k))) i = false) by (intro; rewrite H; apply N.bits_0).
    pose proof (A j) as Aj. pose proof (A k) as Ak. rewrite N.land_spec, N.lor_spec, !bit_testbit in Aj, Ak.
    rewrite N.eqb_refl in Aj. rewrite N.eqb_refl, orb_true_r, andb_true_r in Ak. cbn [orb] in Aj.
    rewrite andb_true_r in Aj. rewrite Aj, Ak. reflexivity.
  - destruct (N.testbit w j) eqn:E1; [reflexivity|]. destruct (N.testbit w k) eqn:E2; [reflexivity|].
    exfalso. apply H. apply N.bits_inj. intro i. rewrite N.bits_0, N.land_spec, N.lor_spec, !bit_testbit.
    destruct (N.eqb_spec j i) as [->|]; [rewrite E1; reflexivity|].
    destruct (N.eqb_spec k i) as [->|]; [rewrite E2; reflexivity|]. apply andb_false_r.
Qed.
Lemma lor_flag_testbit w b kj k : N.testbit (N.lor w (flag_if b (bit kj))) k = N.testbit w k || (b && N.eqb kj k).
Proof. rewrite N.lor_spec, flag_if_testbit, bit_testbit. reflexivity. Qed.
Lemma strip_flag_testbit kj kf w k : kj <> kf ->
  N.testbit (strip_flag (bit kj) (bit kf) w) k =
  N.testbit w k && negb (N.eqb kj k && N.testbit w kj && N.testbit w kf).
Proof.
  intro Hn. unfold strip_flag.
  destruct (N.eqb_spec (N.land w (N.lor (bit kj) (bit kf))) (N.lor (bit kj) (bit kf))) as [H|H].
  - assert (A : forall i, (N.eqb kj i || N.eqb kf i) = true -> N.testbit w i = true).
    { intros i Hi. assert (Q : N.testbit (N.land w (N.lor (bit kj) (bit kf))) i = true)
        by (rewrite H, N.lor_spec, !bit_testbit; exact Hi).
      rewrite N.land_spec in Q. apply andb_true_iff in Q. tauto. }
    rewrite (A kj), (A kf) by (rewrite ?N.eqb_refl, ?orb_true_r; reflexivity).
    rewrite N.lxor_spec, bit_testbit, !andb_true_r.
    destruct (N.eqb_spec kj k) as [->|]; cbn; [|destruct (N.testbit w k); reflexivity].
    rewrite (A k) by (rewrite N.eqb_refl; reflexivity). reflexivity.
  - destruct (N.testbit w kj) eqn:E1, (N.testbit w kf) eqn:E2; cbn; rewrite ?andb_false_r, ?andb_true_r; cbn; rewrite ?andb_true_r; try reflexivity.
    exfalso. apply H. apply N.bits_inj. intro i. rewrite N.land_spec, N.lor_spec, !bit_testbit.
    destruct (N.eqb_spec kj i) as [<-|]; [rewrite E1; reflexivity|].
    destruct (N.eqb_spec kf i) as [<-|]; [rewrite E2; reflexivity|]. apply andb_false_r.
Qed.

(** ** np.nanmax *)
Section NanMax.
  Variable fo : FOps.
  Variable L : FLaws fo.
  Lemma fold_max l x : fisnan fo x = false -> (forall y, In y l -> fisnan fo y = false) ->
    let m := fold_left (fun m y => if flt fo m y then y else m) l x in
    In m (x :: l) /\ (forall y, In y (x :: l) -> flt fo m y = false).
  Proof.
    revert x. induction l as [|y l IH]; intros x Hx Hl; cbn [fold_left].
    - split; [left; reflexivity|]. intros y [<-|[]]. apply (flt_irrefl fo L).
    - set (x' := if flt fo x y then y else x).
      assert (Hx' : fisnan fo x' = false) by (unfold x'; destruct (flt fo x y); [apply Hl; left; reflexivity|exact Hx]).
      destruct (IH x' Hx') as [H1 H2]; [intros z Hz; apply Hl; right; exact Hz|].
      cbv zeta in *. set (m := fold_left _ l x') in *. split.
      + destruct H1 as [H1|H1]; [|right; right; exact H1]. rewrite <- H1. unfold x'.
        destruct (flt fo x y); [right; left|left]; reflexivity.
      + assert (Hm' : flt fo m x' = false) by (apply H2; left; reflexivity).
        intros z [<-|[<-|Hz]]; [| |apply H2; right; exact Hz].
        * apply (nflt_trans fo L m x' x Hx' Hm'). unfold x'. destruct (flt fo x y) eqn:E; [apply (flt_asym fo L); exact E|apply (flt_irrefl fo L)].
        * apply (nflt_trans fo L m x' y Hx' Hm'). unfold x'. destruct (flt fo x y) eqn:E; [apply (flt_irrefl fo L)|exact E].
  Qed.
  Lemma nanmax_notnan l : (exists x, In x l /\ fisnan fo x = false) ->
    In (nanmax fo l) l /\ fisnan fo (nanmax fo l) = false /\ forall y, In y l -> flt fo (nanmax fo l) y = false.
  Proof.
    intros (x & Hin & Hx). unfold nanmax.
    assert (Hf : forall y, In y (nonnan fo l) <-> In y l /\ fisnan fo y = false).
    { intro y. unfold nonnan. rewrite filter_In. destruct (fisnan fo y); cbn; intuition congruence. }
    destruct (nonnan fo l) as [|a l'] eqn:E; [destruct (proj2 (Hf x)); split; assumption|].
    assert (Ha : fisnan fo a = false) by (apply (proj1 (Hf a)); left; reflexivity).
    assert (Hl' : forall y, In y l' -> fisnan fo y = false) by (intros y Hy; apply (proj1 (Hf y)); right; exact Hy).
    pose proof (fold_max l' a Ha Hl') as [H1 H2]. cbv zeta in *.
    set (m := fold_left _ l' a) in *.
    split; [apply (Hf m); exact H1|]. split; [apply (Hf m); exact H1|].
    intros y Hy. destruct (fisnan fo y) eqn:Ey; [apply (lt_nan_r fo L); exact Ey|].
    apply H2. apply (proj2 (Hf y)). split; assumption.
  Qed.
  (** [x == np.nanmax(l)] for an element of [l] *)
  Lemma eq_nanmax l x : In x l ->
    feq fo x (nanmax fo l) = true <-> fisnan fo x = false /\ forall y, In y l -> flt fo x y = false.
  Proof.
    intro Hin. rewrite (feq_spec fo L), !andb_true_iff, !negb_true_iff. split.
    - intros (((Hx & Hm) & H1) & H2). split; [exact Hx|]. intros y Hy.
      destruct (nanmax_notnan l) as (_ & _ & Hmax); [exists x; auto|].
      apply (nflt_trans fo L x _ y Hm H1). apply Hmax; exact Hy.
    - intros (Hx & Hall). destruct (nanmax_notnan l) as (Hinm & Hm & Hmax); [exists x; auto|].
      split; [split; [split; assumption|]|].
      + apply Hall; exact Hinm.
      + apply Hmax; exact Hin.
  Qed.
End NanMax.

(** ** The iterative search *)
Lemma flat_map_ext_in {A B} (f g : A -> list B) l : (forall x, In x l -> f x = g x) -> flat_map f l = flat_map g l.
Proof. induction l as [|x l IH]; intro H; cbn; [reflexivity|]. rewrite (H x) by (left; reflexivity).
  rewrite IH by (intros; apply H; right; assumption). reflexivity. Qed.
Lemma filter_length_lt {A} (p q : A -> bool) l : (forall x, In x l -> q x = true -> p x = true) ->
  (exists x, In x l /\ p x = true /\ q x = false) -> length (filter q l) < length (filter p l).
Proof.
  assert (LE : forall l, (forall x, In x l -> q x = true -> p x = true) -> length (filter q l) <= length (filter p l)).
  { induction l0 as [|x l0 IH]; intro H; cbn; [lia|]. specialize (IH (fun y Hy => H y (or_intror Hy))).
    pose proof (H x (or_introl eq_refl)) as Hx. destruct (q x); [rewrite Hx by reflexivity; cbn; lia|].
    destruct (p x); cbn; lia. }
  induction l as [|x l IH]; intros H (y & Hy & Hp & Hq); [destruct Hy|]. cbn.
  pose proof (LE l (fun z Hz => H z (or_intror Hz))) as Hle.
  destruct Hy as [<-|Hy].
  - rewrite Hp, Hq. cbn. lia.
  - specialize (IH (fun z Hz => H z (or_intror Hz)) (ex_intro _ y (conj Hy (conj Hp Hq)))).
    pose proof (H x (or_introl eq_refl)) as Hx. destruct (q x); [rewrite Hx by reflexivity; cbn; lia|].
    destruct (p x); cbn; lia.
Qed.
Lemma filter_ext_in' {A} (p q : A -> bool) l : (forall x, In x l -> p x = q x) -> filter p l = filter q l.
Proof. induction l as [|x l IH]; intro H; cbn; [reflexivity|]. rewrite (H x) by (left; reflexivity).
  rewrite IH by (intros; apply H; right; assumption). reflexivity. Qed.
Lemma forallb_ext_in' {A} (p q : A -> bool) l : (forall x, In x l -> p x = q x) -> forallb p l = forallb q l.
Proof. induction l as [|x l IH]; intro H; cbn; [reflexivity|]. rewrite (H x) by (left; reflexivity).
  rewrite IH by (intros; apply H; right; assumption). reflexivity. Qed.
Lemma filter_len_le {A} (p : A -> bool) l : length (filter p l) <= length l.
Proof. induction l as [|x l IH]; cbn; [lia|]. destruct (p x); cbn; lia. Qed.
