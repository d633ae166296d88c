(** The jump-masking loop of the likelihood fit. *)
From Verif Require Import Base BaseLemmas FLaws LikelyModel.
From Coq Require Import Lia SpecFloat.

Section Mask.
  Variable fo : FOps.
  Variables (n nc : nat) (nreads : nat -> nat) (h : thresholds fo) (fit : nat -> (nat -> bool) -> jfit fo).
  Notation loop := (mask_loop fo n nc nreads h fit).
  Notation rnd c := (round_pixel fo n nreads h (fit c)).
  Notation dropg c := (dropping fo n nreads h (fit c)).
  Lemma loop_S k s : loop (S k) s = if anyb (fun c => dropg c (s c)) nc then loop k (fun c => rnd c (s c)) else s.
  Proof. reflexivity. Qed.
  Lemma round_use c s i : m_use fo (rnd c s) i = true -> m_use fo s i = true.
  Proof.
    unfold round_pixel. destruct (m_re fo s); [|auto]. cbn [m_use]. unfold mask_use. intro H.
    rewrite !andb_true_iff in H. tauto.
  Qed.
  Lemma loop_use k : forall s c i, m_use fo (loop k s c) i = true -> m_use fo (s c) i = true.
  Proof.
    induction k as [|k IH]; intros s c i H; [exact H|]. rewrite loop_S in H. destruct (anyb _ nc); [|exact H].
    apply IH in H. apply round_use in H. exact H.
  Qed.
  (** a pixel searched again has more than three differences left *)
  Definition inv (s : nat -> mstate fo) : Prop := forall c, m_re fo (s c) = true -> 3 < count_used (m_use fo (s c)) n.
  Lemma round_re c s : m_re fo s = true -> m_re fo (rnd c s) = true -> 3 < count_used (m_use fo (rnd c s)) n.
  Proof.
    intros R. unfold round_pixel. rewrite R. cbn [m_re m_use]. intro H. apply andb_true_iff in H. destruct H as [_ H].
    apply negb_true_iff, Nat.leb_gt in H. exact H.
  Qed.
  Lemma round_off c s : m_re fo s = false -> rnd c s = s.
  Proof. unfold round_pixel. intros ->. reflexivity. Qed.
  Lemma inv_step s : inv s -> inv (fun c => rnd c (s c)).
  Proof.
    intros I c H. destruct (m_re fo (s c)) eqn:R; [apply round_re; assumption|]. rewrite round_off in * by exact R. apply I, H.
  Qed.
  Lemma loop_stop k : forall s c, inv s -> count_used (m_use fo (loop k s c)) n <= 3 -> loop (S k) s c = loop k s c.
  Proof.
    induction k as [|k IH]; intros s c I H.
    - rewrite loop_S. cbn [mask_loop] in *. destruct (anyb _ nc); [|reflexivity].
      destruct (m_re fo (s c)) eqn:R; [pose proof (I c R); lia|]. apply round_off, R.
    - rewrite loop_S in H. rewrite (loop_S (S k) s), (loop_S k s). destruct (anyb (fun c0 => dropg c0 (s c0)) nc); [|reflexivity].
      apply IH; [apply inv_step, I|exact H].
  Qed.
  (** the other pixels of the row do not matter *)
  Fixpoint pix_loop (c k : nat) (s : mstate fo) : mstate fo :=
    match k with 0 => s | S k => if dropg c s then pix_loop c k (rnd c s) else s end.
  Lemma anyb_false p m i : anyb p m = false -> i < m -> p i = false.
  Proof.
    intros H Hi. destruct (p i) eqn:E; [|reflexivity]. assert (anyb p m = true); [|congruence].
    apply existsb_exists. exists i. split; [apply in_seq; lia|exact E].
  Qed.
  Lemma anyb_true p m i : i < m -> p i = true -> anyb p m = true.
  Proof. intros Hi E. apply existsb_exists. exists i. split; [apply in_seq; lia|exact E]. Qed.
  Lemma off_stays k : forall s c, m_re fo (s c) = false -> loop k s c = s c.
  Proof.
    induction k as [|k IH]; intros s c H; [reflexivity|]. rewrite loop_S. destruct (anyb _ nc); [|reflexivity].
    rewrite IH; rewrite round_off by exact H; [reflexivity|exact H].
  Qed.
  Lemma nodrop_use dr u i : drop_any n dr = false -> i < n -> mask_use n dr u i = u i.
  Proof.
    intros H Hi. unfold drop_any in H. apply orb_false_iff in H. destruct H as [H1 H2]. unfold mask_use.
    rewrite (anyb_false _ _ i H1 Hi). destruct (Nat.ltb_spec i (n - 1)) as [L|L].
    - rewrite (anyb_false _ _ i H2 L). destruct (Nat.leb_spec 1 i); [rewrite (anyb_false _ _ (i - 1) H2 ltac:(lia))|]; cbn; rewrite !andb_true_r; reflexivity.
    - destruct (Nat.leb_spec 1 i); [rewrite (anyb_false _ _ (i - 1) H2 ltac:(lia))|]; cbn; rewrite !andb_true_r; reflexivity.
  Qed.
  Lemma loop_pix k : forall s c, c < nc -> forall i, i < n -> m_use fo (loop k s c) i = m_use fo (pix_loop c k (s c)) i.
  Proof.
    induction k as [|k IH]; intros s c Hc i Hi; [reflexivity|]. rewrite loop_S. cbn [pix_loop].
    destruct (dropg c (s c)) eqn:D.
    - rewrite (anyb_true _ nc c Hc D). rewrite (IH (fun c => rnd c (s c)) c Hc i Hi). reflexivity.
    - destruct (anyb (fun c => dropg c (s c)) nc); [|reflexivity].
      unfold dropping in D. destruct (m_re fo (s c)) eqn:R.
      + cbn in D. rewrite off_stays.
        * unfold round_pixel. rewrite R. cbn [m_use]. apply nodrop_use; assumption.
        * unfold round_pixel. rewrite R. cbn [m_re]. rewrite D. reflexivity.
      + rewrite off_stays; rewrite round_off by exact R; [reflexivity|exact R].
  Qed.
  (** ** The bound on the rounds is never what ends the search *)
  Definition filled (f : (nat -> bool) -> jfit fo) : Prop := forall u i,
    (u i = false -> o_x1 fo (j_om fo (f u)) i = j_chisq fo (f u)) /\
    (u i = false -> u (S i) = false -> o_x2 fo (j_om fo (f u)) i = j_chisq fo (f u)).
  Hypothesis L : FLaws fo.
  Hypothesis nan : fisnan fo (fnan fo) = true.
  Hypothesis self : forall x v, feq fo (fsub fo x x) v = true -> feq fo v (fzero fo) = true.
  Lemma feq_nan x v : fisnan fo v = true -> feq fo x v = false.
  Proof. intro H. rewrite (feq_spec fo L), H. cbn. rewrite andb_false_r. reflexivity. Qed.
  Lemma no_zero b x : feq fo (fsub fo x x) (if feq fo b (fzero fo) then fnan fo else b) = false.
  Proof.
    destruct (feq fo b (fzero fo)) eqn:E; [apply feq_nan, nan|]. destruct (feq fo (fsub fo x x) b) eqn:F; [|reflexivity].
    apply self in F. congruence.
  Qed.
  Lemma drop_one_used f u i : filled f -> fst (drops fo n nreads h (f u)) i = true -> u i = true.
  Proof.
    intros F H. destruct (u i) eqn:U; [reflexivity|exfalso]. unfold drops in H. cbn [fst] in H.
    rewrite (proj1 (F u i) U), no_zero in H. discriminate.
  Qed.
  Lemma drop_two_used f u i : filled f -> snd (drops fo n nreads h (f u)) i = true -> u i = true \/ u (S i) = true.
  Proof.
    intros F H. destruct (u i) eqn:U; [auto|]. destruct (u (S i)) eqn:U1; [auto|exfalso]. unfold drops in H. cbn [snd] in H.
    rewrite (proj2 (F u i) U U1), no_zero in H. discriminate.
  Qed.
  Lemma count_mono u v m : (forall i, i < m -> v i = true -> u i = true) -> count_used v m <= count_used u m.
  Proof.
    unfold count_used. induction m as [|m IH]; intro H; [auto|]. rewrite seq_S, !filter_app, !app_length. cbn [filter plus].
    assert (length (filter v (seq 0 m)) <= length (filter u (seq 0 m))) by (apply IH; intros; apply H; [lia|assumption]).
    pose proof (H m ltac:(lia)). destruct (v m), (u m); cbn [length]; try lia; intuition congruence.
  Qed.
  Lemma count_strict u v m k : (forall i, i < m -> v i = true -> u i = true) -> k < m -> u k = true -> v k = false -> count_used v m < count_used u m.
  Proof.
    intros H Hk Uk Vk. induction m as [|m IH]; [lia|]. unfold count_used in *. rewrite seq_S, !filter_app, !app_length. cbn [filter plus].
    destruct (Nat.eq_dec k m) as [->|N].
    - rewrite Uk, Vk. cbn [length]. pose proof (count_mono u v m (fun i Hi => H i ltac:(lia))) as Q. unfold count_used in Q. lia.
    - assert (length (filter v (seq 0 m)) < length (filter u (seq 0 m))) by (apply IH; [intros; apply H; [lia|assumption]|lia]).
      pose proof (H m ltac:(lia)). destruct (v m), (u m); cbn [length]; try lia; intuition congruence.
  Qed.
  Lemma round_shrinks c s : filled (fit c) -> dropg c s = true -> count_used (m_use fo (rnd c s)) n < count_used (m_use fo s) n.
  Proof.
    intros F D. unfold dropping in D. apply andb_true_iff in D. destruct D as [R D]. unfold round_pixel. rewrite R. cbn [m_use].
    set (dr := drops fo n nreads h (fit c (m_use fo s))) in *.
    assert (Mo : forall i, i < n -> mask_use n dr (m_use fo s) i = true -> m_use fo s i = true) by (intros i _ H; unfold mask_use in H; rewrite !andb_true_iff in H; tauto).
    unfold drop_any in D. apply orb_true_iff in D. destruct D as [D|D]; apply existsb_exists in D; destruct D as [k [Hk Dk]]; apply in_seq in Hk.
    - apply (count_strict _ _ _ k Mo); [lia|apply (drop_one_used (fit c)); assumption|]. unfold mask_use. rewrite Dk. cbn. rewrite andb_false_r. reflexivity.
    - destruct (drop_two_used (fit c) (m_use fo s) k F Dk) as [U|U].
      + apply (count_strict _ _ _ k Mo); [lia|exact U|]. unfold mask_use. rewrite Dk. destruct (Nat.ltb_spec k (n - 1)); [|lia]. cbn. rewrite !andb_false_r. reflexivity.
      + apply (count_strict _ _ _ (S k) Mo); [lia|exact U|]. unfold mask_use. replace (S k - 1) with k by lia. rewrite Dk. cbn. rewrite !andb_false_r. reflexivity.
  Qed.
  Lemma loop_enough k : forall s, (forall c, filled (fit c)) -> (forall c, c < nc -> m_re fo (s c) = true -> count_used (m_use fo (s c)) n <= k) -> forall m c, c < nc ->
    forall i, i < n -> m_use fo (loop (k + m) s c) i = m_use fo (loop k s c) i.
  Proof.
    induction k as [|k IH]; intros s F B m c Hc i Hi.
    - cbn [plus mask_loop]. destruct m as [|m]; [reflexivity|]. rewrite loop_S.
      assert (E : anyb (fun c => dropg c (s c)) nc = false); [|rewrite E; reflexivity].
      apply Bool.not_true_iff_false. intro Q. apply existsb_exists in Q. destruct Q as [c' [Hc' D]]. apply in_seq in Hc'.
      pose proof (round_shrinks c' (s c') (F c') D). unfold dropping in D. apply andb_true_iff in D. pose proof (B c' ltac:(lia) (proj1 D)). lia.
    - cbn [plus]. rewrite !loop_S. destruct (anyb (fun c => dropg c (s c)) nc); [|reflexivity].
      apply IH; [exact F| |exact Hc|exact Hi]. intros c' Hc' R.
      destruct (m_re fo (s c')) eqn:R'; [|rewrite round_off in R by exact R'; congruence].
      assert (D : dropg c' (s c') = true).
      { unfold dropping. rewrite R'. unfold round_pixel in R. rewrite R' in R. cbn [m_re] in R. apply andb_true_iff in R. destruct R as [R _]. cbn. exact R. }
      pose proof (round_shrinks c' (s c') (F c') D). pose proof (B c' Hc' R'). lia.
  Qed.
End Mask.
Lemma count_le u n : count_used u n <= n.
Proof. unfold count_used. rewrite <- (seq_length n 0) at 2. generalize (seq 0 n). induction l as [|x l IH]; [auto|]. cbn. destruct (u x); cbn; lia. Qed.
(** the fit of the model fills the entries of masked differences *)
Lemma fit_filled fo n c scale d : filled fo (fun u => {| j_rate := f_rate fo (fit_ramp fo n c scale d u); j_chisq := f_chisq fo (fit_ramp fo n c scale d u); j_om := omissions fo n c scale d u |}).
Proof.
  intros u i. cbn [j_chisq j_om]. unfold omissions. cbn [o_x1 o_x2]. split.
  - intros ->. reflexivity.
  - intros -> ->. reflexivity.
Qed.
(** x - x is a zero or NaN in IEEE arithmetic *)
Lemma ieee_self prec emax (x v : spec_float) : feq (ieee prec emax) (fsub (ieee prec emax) x x) v = true -> feq (ieee prec emax) v (fzero (ieee prec emax)) = true.
Proof.
  cbn [feq fsub fzero ieee]. destruct x as [s|s| |s m e]; cbn [SFsub].
  - destruct s; destruct v as [[|]|[|]| |[|] ? ?]; cbn; try discriminate; reflexivity.
  - destruct s; cbn; discriminate.
  - cbn; discriminate.
  - rewrite Z.min_id. rewrite Z.sub_diag. unfold binary_normalize. destruct v as [[|]|[|]| |[|] ? ?]; cbn; try discriminate; reflexivity.
Qed.
