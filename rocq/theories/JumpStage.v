(** Lemmas about the stages of jump detection: DQ bits, slices, reassembly. *)
From Verif Require Import Base BaseLemmas FLaws JumpModel JumpSpec JumpProofs JumpIter.
From Coq Require Import ZifyBool ZifyNat ZifyN.

Lemma fold_left_seq_inv {S} (Q : nat -> S -> Prop) (f : S -> nat -> S) n s :
  Q 0 s -> (forall k t, k < n -> Q k t -> Q (k + 1) (f t k)) -> Q n (fold_left f (seq 0 n) s).
Proof.
  intros H0 Hs. assert (G : forall m, m <= n -> Q m (fold_left f (seq 0 m) s)).
  { induction m as [|m IH]; intro Hm; [exact H0|]. rewrite seq_S, fold_left_app. cbn [fold_left plus].
    replace (Datatypes.S m) with (m + 1) by lia. apply Hs; [lia|]. apply IH. lia. }
  apply G. lia.
Qed.
Lemma combine_seq_nth {A} (l : list A) d a : combine (seq a (length l)) l = map (fun k => (k, nth (k - a) l d)) (seq a (length l)).
Proof.
  revert a. induction l as [|x l IH]; intro a; cbn; [reflexivity|]. rewrite Nat.sub_diag. f_equal.
  rewrite IH. apply map_ext_in. intros k Hk. rewrite in_seq in Hk.
  replace (k - a) with (S (k - S a)) by lia. reflexivity.
Qed.
Lemma fold_left_map {A B S} (f : S -> B -> S) (g : A -> B) l s : fold_left f (map g l) s = fold_left (fun s x => f s (g x)) l s.
Proof. revert s. induction l as [|x l IH]; intro s; cbn; [reflexivity|apply IH]. Qed.

(** ** bits other than JUMP_DET *)
Section Bits.
  Variable fo : FOps.
  Variable med : list fo -> fo.
  Variable sigclip : bool -> nat -> nat -> (nat -> nat -> fo) -> nat -> nat -> bool.
  Variable crowded : nat -> nat -> nat -> cube bool -> bool.
  Variable P : params fo.
  Variable kj : N.
  Variable Hkj : p_jump P = bit kj.
  Lemma lor_flag_other w b k : k <> kj -> N.testbit (N.lor w (flag_if b (p_jump P))) k = N.testbit w k.
  Proof. intro H. rewrite Hkj, lor_flag_testbit. destruct (N.eqb_spec kj k); [congruence|].
    rewrite andb_false_r, orb_false_r. reflexivity. Qed.
  Lemma it_loop_other fuel nints nd nr nc rn2 s i g r c k : k <> kj ->
    N.testbit (it_gdq fo (it_loop fo med P fuel nints nd nr nc rn2 s) i g r c) k = N.testbit (it_gdq fo s i g r c) k.
  Proof.
    intro H. revert s. induction fuel as [|f IH]; intro s; cbn [it_loop]; [reflexivity|].
    unfold it_round at 1. cbv zeta. destruct (any_pix nr nc _); [|reflexivity].
    rewrite IH. cbn [it_locs it_gdq]. apply lor_flag_other. exact H.
  Qed.
  Lemma run_other nints nd nr nc dat gdq rn2 K i g r c k : k <> kj ->
    N.testbit (dt_gdq fo (run_jump_detection fo med sigclip P nints nd nr nc dat gdq rn2 K) i g r c) k = N.testbit (gdq i g r c) k.
  Proof.
    intro H. unfold run_jump_detection. cbn [dt_gdq].
    destruct (check_sigma_clip_groups fo P nints (c_total K)); [|destruct (Z.leb _ _)].
    - unfold sigclip_clear. cbv beta. destruct (all_pix nr nc _); cbn [andb].
      + match goal with |- context [N.eqb ?w _] => destruct (N.eqb_spec w (p_jump P)) as [E|E] end.
        * rewrite N.bits_0. unfold sigclip_flags in E. 
          assert (E' : N.testbit (p_jump P) k = false) by (rewrite Hkj, bit_testbit; destruct (N.eqb_spec kj k); congruence).
          rewrite <- E, lor_flag_other in E' by exact H. symmetry; exact E'.
        * apply lor_flag_other; exact H.
      + apply lor_flag_other; exact H.
    - apply lor_flag_other; exact H.
    - unfold iterative_jump. rewrite it_loop_other by exact H. reflexivity.
  Qed.
  Lemma post_other nd nr nc D i g r c k : k <> kj ->
    N.testbit (fst (fst (post_processing fo crowded P nd nr nc D)) i g r c) k = N.testbit (dt_gdq fo D i g r c) k.
  Proof.
    intro H. unfold post_processing.
    set (x := if p_neigh P then _ else _).
    assert (E : forall i g r c, N.testbit (fst (fst x) i g r c) k = N.testbit (dt_gdq fo D i g r c) k).
    { intros. unfold x. destruct (p_neigh P); cbn [fst]; [|reflexivity]. apply lor_flag_other; exact H. }
    destruct x as [[g1 b] a]. cbn [fst] in *. destruct (_ || _); [|apply E].
    unfold transient_jumps. rewrite lor_flag_other by exact H. apply E.
  Qed.
  Lemma find_crs_other nints ng nr nc dat gdq rn i g r c k : k <> kj ->
    N.testbit (res_gdq (find_crs fo med sigclip crowded P nints ng nr nc dat gdq rn) i g r c) k = N.testbit (gdq i g r c) k.
  Proof.
    intro H. unfold find_crs, res_gdq. destruct (skip fo P nints ng nr nc gdq); [reflexivity|].
    cbv zeta. cbn [fst]. rewrite post_other, run_other by exact H. reflexivity.
  Qed.
  Lemma rows_other nints ng nr nc dat gdq rn i g c k : k <> kj ->
    let x := find_crs fo med sigclip crowded P nints ng nr nc dat gdq rn in
    N.testbit (res_below x i g c) k = false /\ N.testbit (res_above x i g c) k = false.
  Proof.
    intro H. cbv zeta. unfold find_crs, res_below, res_above.
    destruct (skip fo P nints ng nr nc gdq); [cbn [fst snd]; rewrite !N.bits_0; auto|].
    cbv zeta. cbn [fst snd]. unfold post_processing.
    assert (F : forall b, N.testbit (flag_if b (p_jump P)) k = false).
    { intro b. rewrite Hkj, flag_if_testbit, bit_testbit. destruct (N.eqb_spec kj k); [congruence|apply andb_false_r]. }
    destruct (p_neigh P); cbn [fst snd four_neighbors]; cbn [fst snd]; rewrite ?F, ?N.bits_0; auto.
  Qed.
End Bits.

  Lemma dilate_ext nr nc (f1 f2 : img bool) r c : r < nr -> c < nc ->
    (forall r c, r < nr -> c < nc -> f1 r c = f2 r c) -> dilate nr nc f1 r c = dilate nr nc f2 r c.
  Proof.
    intros Hr Hc H. unfold dilate. rewrite (H r c) by assumption.
    destruct (Nat.ltb_spec 0 r), (Nat.ltb_spec (r + 1) nr), (Nat.ltb_spec 0 c), (Nat.ltb_spec (c + 1) nc); cbn [andb];
      rewrite ?(H (r - 1) c), ?(H (r + 1) c), ?(H r (c - 1)), ?(H r (c + 1)) by lia; reflexivity.
  Qed.

Ltac nlia := try lia; nia.
(** ** reassembly *)
Section Reassembly.
  Variables nrows n : nat.
  Hypothesis Hn : 1 <= n <= nrows.
  Let yinc := Nat.div nrows n.
  (** end of slice q *)
  Definition slice_end (q : nat) : nat := if Nat.eqb (q + 1) n then nrows else (q + 1) * yinc.
  Lemma yinc_pos : 1 <= yinc.
  Proof. unfold yinc. apply Nat.div_le_lower_bound; lia. Qed.
  Lemma yinc_le : n * yinc <= nrows.
  Proof. unfold yinc. apply Nat.mul_div_le. lia. Qed.
  Lemma slice_bounds_nth q : q < n ->
    nth q (slice_bounds nrows n) (0, 0) = (q * yinc, slice_end q - q * yinc).
  Proof.
    intro Hq. unfold slice_bounds, slice_end. fold yinc. destruct (Nat.eqb_spec (q + 1) n) as [E|E].
    - rewrite app_nth2 by (rewrite map_length, seq_length; lia). rewrite map_length, seq_length.
      replace (q - (n - 1)) with 0 by lia. cbn [nth]. replace (n - 1) with q by lia. reflexivity.
    - rewrite app_nth1 by (rewrite map_length, seq_length; lia).
      rewrite (nth_indep _ (0, 0) ((fun i => (i * yinc, yinc)) 0)) by (rewrite map_length, seq_length; lia).
      rewrite (map_nth (fun i => (i * yinc, yinc))), seq_nth by lia. cbn [plus]. f_equal. rewrite Nat.mul_add_distr_r. lia.
  Qed.
  Lemma slice_bounds_length : length (slice_bounds nrows n) = n.
  Proof. unfold slice_bounds. rewrite app_length, map_length, seq_length. cbn. lia. Qed.
  (** every row lies in exactly one slice *)
  Lemma row_slice r : r < nrows -> exists q, q < n /\ q * yinc <= r < slice_end q.
  Proof.
    intro Hr. pose proof yinc_pos as Hy. destruct (le_lt_dec ((n - 1) * yinc) r) as [H|H].
    - exists (n - 1). split; [lia|]. split; [exact H|]. unfold slice_end.
      destruct (Nat.eqb_spec (n - 1 + 1) n); lia.
    - exists (r / yinc). pose proof (Nat.mul_div_le r yinc ltac:(lia)) as H1.
      pose proof (Nat.mul_succ_div_gt r yinc ltac:(lia)) as H2.
      assert (r / yinc < n - 1) by nia. split; [lia|]. split; [lia|]. unfold slice_end.
      destruct (Nat.eqb_spec (r / yinc + 1) n); nia.
  Qed.

  Lemma reassemble_spec (res : list result) gdq i g r c b q d : length res = n ->
    q < n -> q * yinc <= r < slice_end q ->
    N.testbit (fst (reassemble nrows yinc n res gdq) i g r c) b =
      N.testbit (res_gdq (nth q res d) i g (r - q * yinc) c) b
      || (Nat.ltb 0 q && Nat.eqb r (q * yinc) && N.testbit (res_above (nth (q - 1) res d) i g c) b)
      || (Nat.ltb (q + 1) n && Nat.eqb r ((q + 1) * yinc - 1) && N.testbit (res_below (nth (q + 1) res d) i g c) b).
  Proof.
    intros Hlen Hq Hr. unfold reassemble.
    set (step := fun (st : arr4 N * row3 * Z) (kr : nat * result) => _).
    rewrite (combine_seq_nth res d 0), fold_left_map, Hlen.
    set (f := fun (s : arr4 N * row3 * Z) (x : nat) => step s (x, nth (x - 0) res d)).
    pose (Q := fun (k : nat) (st : arr4 N * row3 * Z) =>
      (0 < k -> snd (fst st) = res_above (nth (k - 1) res d)) /\
      forall q r i g c b, q < k -> q * yinc <= r < slice_end q ->
      N.testbit (fst (fst st) i g r c) b =
        N.testbit (res_gdq (nth q res d) i g (r - q * yinc) c) b
        || (Nat.ltb 0 q && Nat.eqb r (q * yinc) && N.testbit (res_above (nth (q - 1) res d) i g c) b)
        || (Nat.ltb (q + 1) k && Nat.eqb r ((q + 1) * yinc - 1) && N.testbit (res_below (nth (q + 1) res d) i g c) b)).
    assert (HQ : Q n (fold_left f (seq 0 n) (gdq, fun _ _ _ => 0%N, 0%Z))).
    { apply fold_left_seq_inv.
      - split; [lia|]. intros; lia.
      - intros k [[g0 prev] t] Hk [H1 H2]. cbn [fst snd] in *. unfold f, step. rewrite Nat.sub_0_r.
        split; [intros _; cbn [fst snd]; f_equal; f_equal; lia|].
        intros q' r' i' g' c' b' Hq' Hr'. cbn [fst snd].
        pose proof yinc_pos as Hy. pose proof yinc_le as Hyl.
        set (h := if Nat.eqb (k + 1) n then nrows - k * yinc else yinc).
        assert (Hh : k * yinc + h = slice_end k).
        { unfold h, slice_end. destruct (Nat.eqb_spec (k + 1) n); nia. }
        destruct (Nat.eq_dec q' k) as [->|Hne].
        + (* the rows of this slice *)
          assert (Hput : put_rows (k * yinc) h g0 (res_gdq (nth k res d)) i' g' r' c'
                         = res_gdq (nth k res d) i' g' (r' - k * yinc) c').
          { unfold put_rows. destruct (Nat.leb_spec (k * yinc) r'); [|lia].
            destruct (Nat.ltb_spec r' (k * yinc + h)); [|lia]. reflexivity. }
          replace (Nat.ltb (k + 1) (k + 1)) with false by (symmetry; apply Nat.ltb_irrefl).
          cbn [andb]. rewrite orb_false_r.
          destruct (Nat.eqb_spec k 0) as [E0|E0].
          * subst k. rewrite Hput. cbn [Nat.ltb Nat.leb andb]. rewrite orb_false_r. reflexivity.
          * assert (1 * yinc <= k * yinc) by (apply Nat.mul_le_mono_r; lia).
            unfold or_row. destruct (Nat.eqb_spec r' (k * yinc - 1)); [lia|]. rewrite Hput.
            destruct (Nat.ltb_spec 0 k); [|lia]. cbn [andb]. rewrite H1 by lia.
            destruct (Nat.eqb_spec r' (k * yinc)); cbn [andb]; [rewrite N.lor_spec; reflexivity|rewrite orb_false_r; reflexivity].
        + (* earlier rows *)
          assert (Hlt : q' < k) by lia. assert (Hk0 : k <> 0) by lia.
          destruct (Nat.eqb_spec k 0); [lia|].
          assert (Hend : slice_end q' = (q' + 1) * yinc) by (unfold slice_end; destruct (Nat.eqb_spec (q' + 1) n); lia).
          assert (Hle : (q' + 1) * yinc <= k * yinc) by (apply Nat.mul_le_mono_r; lia).
          assert (Hput : put_rows (k * yinc) h g0 (res_gdq (nth k res d)) i' g' r' c' = g0 i' g' r' c').
          { unfold put_rows. destruct (Nat.leb_spec (k * yinc) r'); [lia|reflexivity]. }
          unfold or_row. destruct (Nat.eqb_spec r' (k * yinc)); [lia|]. rewrite Hput.
          specialize (H2 q' r' i' g' c' b' Hlt Hr').
          destruct (Nat.eqb_spec r' (k * yinc - 1)) as [Er|Er].
          * assert (Eq : q' + 1 = k) by nia. rewrite N.lor_spec, H2. rewrite Eq.
            rewrite Nat.ltb_irrefl. destruct (Nat.ltb_spec k (k + 1)); [|lia].
            destruct (Nat.eqb_spec r' (k * yinc - 1)); [|lia]. cbn [andb]. rewrite orb_false_r. reflexivity.
          * rewrite H2. f_equal. destruct (Nat.eqb_spec r' ((q' + 1) * yinc - 1)) as [E2|E2];
              [|rewrite !andb_false_r; reflexivity].
            assert (q' + 1 < k). { destruct (Nat.eq_dec (q' + 1) k) as [Eq|]; [rewrite Eq in E2; lia|lia]. }
            destruct (Nat.ltb_spec (q' + 1) k), (Nat.ltb_spec (q' + 1) (k + 1)); try lia; reflexivity. }
    destruct HQ as [_ HQ]. specialize (HQ q r i g c b Hq Hr).
    destruct (fold_left f (seq 0 n) (gdq, fun _ _ _ => 0%N, 0%Z)) as [[g0 pv] t].
    cbn [fst snd] in *. exact HQ.
  Qed.
  (** dilation in the frame is dilation in the slice plus what crosses its borders *)
  Lemma dilate_split ncols (f : img bool) r c q : q < n -> q * yinc <= r < slice_end q ->
    let y := yinc in
    dilate nrows ncols f r c =
        dilate (slice_end q - q * y) ncols (fun a b => f (q * y + a) b) (r - q * y) c
        || (Nat.ltb 0 q && Nat.eqb r (q * y) && f (r - 1) c)
        || (Nat.ltb (q + 1) n && Nat.eqb r ((q + 1) * y - 1) && f (r + 1) c).
  Proof.
    intros Hq Hqr. cbv zeta. pose proof yinc_pos as Hy. pose proof yinc_le as Hyl0.
    unfold slice_end in Hqr |- *. set (y := yinc) in *. clearbody y.
    unfold dilate. replace (q * y + (r - q * y)) with r by nlia.
      set (X := f (r - 1) c). set (Y := f (r + 1) c).
      assert (HX : (Nat.ltb 0 r && X) = (Nat.ltb 0 (r - q * y) && f (q * y + (r - q * y - 1)) c) || (Nat.ltb 0 q && Nat.eqb r (q * y) && X)).
      { destruct (Nat.eqb_spec r (q * y)) as [E|E].
        - replace (Nat.ltb 0 (r - q * y)) with false by (symmetry; apply Nat.ltb_ge; nlia). cbn [andb orb].
          rewrite andb_true_r. f_equal. destruct (Nat.ltb_spec 0 q), (Nat.ltb_spec 0 r); try reflexivity; nlia.
        - replace (q * y + (r - q * y - 1)) with (r - 1) by nlia. fold X. rewrite andb_false_r. cbn [andb]. rewrite orb_false_r.
          f_equal. destruct (Nat.ltb_spec 0 (r - q * y)), (Nat.ltb_spec 0 r); try reflexivity; nlia. }
      assert (HY : (Nat.ltb (r + 1) nrows && Y) = (Nat.ltb (r - q * y + 1) ((if Nat.eqb (q + 1) n then nrows else (q + 1) * y) - q * y) && f (q * y + (r - q * y + 1)) c)
                     || (Nat.ltb (q + 1) n && Nat.eqb r ((q + 1) * y - 1) && Y)).
      { replace (q * y + (r - q * y + 1)) with (r + 1) by nlia. fold Y.
        
        destruct (Nat.eqb_spec (q + 1) n) as [E|E].
        - replace (Nat.ltb (q + 1) n) with false by (symmetry; apply Nat.ltb_ge; nlia). cbn [andb]. rewrite orb_false_r. f_equal.
          destruct (Nat.ltb_spec (r + 1) nrows), (Nat.ltb_spec (r - q * y + 1) (nrows - q * y)); try reflexivity; nlia.
        - assert (Hq1 : q + 1 < n) by nlia. destruct (Nat.ltb_spec (q + 1) n); [|nlia]. cbn [andb].
          assert (Hmul : (q + 2) * y <= n * y) by (apply Nat.mul_le_mono_r; nlia).
          destruct (Nat.ltb_spec (r + 1) nrows); [|nlia].
          destruct (Nat.eqb_spec r ((q + 1) * y - 1)), (Nat.ltb_spec (r - q * y + 1) ((q + 1) * y - q * y)); try nlia;
            cbn [andb]; rewrite ?orb_false_r; reflexivity. }
      rewrite HX, HY.
      destruct (f r c), (Nat.ltb 0 (r - q * y) && f (q * y + (r - q * y - 1)) c),
        (Nat.ltb (r - q * y + 1) ((if Nat.eqb (q + 1) n then nrows else (q + 1) * y) - q * y) && f (q * y + (r - q * y + 1)) c),
        (Nat.ltb 0 c && f r (c - 1)), (Nat.ltb (c + 1) ncols && f r (c + 1)),
        (Nat.ltb 0 q && Nat.eqb r (q * y) && X), (Nat.ltb (q + 1) n && Nat.eqb r ((q + 1) * y - 1) && Y); reflexivity.
  Qed.
End Reassembly.

(** lia without the hypotheses about DQ bits, which it would try to normalise *)
Ltac qlia := repeat match goal with H : ?T |- _ =>
    match T with context [N.testbit] => clear H | context [has] => clear H | context [dilate] => clear H
      | context [groups_all_set_dnu] => clear H | context [find_crs] => clear H | context [FLaws] => clear H
      | context [thresholds_ok] => clear H | context [fisnan] => clear H end end; try lia; nia.

(** a group wholly DO_NOT_USE in some slice is so in the whole frame *)
Definition same_dnu (kd : N) (nints ng nrows ncols : nat) (gdq : arr4 N) (n : nat) : Prop :=
  forall b i g, In b (slice_bounds nrows n) -> i < nints -> g < ng ->
    (forall r c, r < snd b -> c < ncols -> N.testbit (gdq i g (fst b + r) c) kd = true) ->
    forall r c, r < nrows -> c < ncols -> N.testbit (gdq i g r c) kd = true.
Section Counts.
  Variable fo : FOps.
  Variable P : params fo.
  (** group counts agree when the same groups are wholly DO_NOT_USE *)
  Lemma num_flagged_ext ng nr nc nr' nc' g g' :
    (forall k, k < ng -> all_pix nr nc (fun r c => has (g k r c) (p_dnu P)) = all_pix nr' nc' (fun r c => has (g' k r c) (p_dnu P))) ->
    num_flagged fo P ng nr nc g = num_flagged fo P ng nr' nc' g'.
  Proof. intro H. unfold num_flagged, count_if. f_equal. apply filter_ext_in'. intros k Hk. rewrite in_seq in Hk. apply H; lia. Qed.
  Lemma fold_left_ext_in {A B} (f g : A -> B -> A) l a : (forall x y, In y l -> f x y = g x y) -> fold_left f l a = fold_left g l a.
  Proof. revert a. induction l as [|y l IH]; intros a H; cbn; [reflexivity|]. rewrite H by (left; reflexivity).
    apply IH. intros; apply H; right; assumption. Qed.
  Lemma counts_ext nints ng nr nc nr' nc' gdq gdq' :
    (forall i, i < nints -> num_flagged fo P ng nr nc (gdq i) = num_flagged fo P ng nr' nc' (gdq' i)) ->
    groups_all_set_dnu fo P nints ng nr nc gdq = groups_all_set_dnu fo P nints ng nr' nc' gdq'.
  Proof.
    intro H. unfold groups_all_set_dnu, max_flagged, total_flagged, last_flagged.
    assert (E : forall y, In y (seq 0 nints) -> num_flagged fo P ng nr nc (gdq y) = num_flagged fo P ng nr' nc' (gdq' y))
      by (intros y Hy; rewrite in_seq in Hy; apply H; lia).
    rewrite (fold_left_ext_in _ (fun m i => if Nat.ltb m (num_flagged fo P ng nr' nc' (gdq' i)) then num_flagged fo P ng nr' nc' (gdq' i) else m))
      by (intros x y Hy; rewrite (E y Hy); reflexivity).
    rewrite (fold_left_ext_in (fun t i => t + _) (fun t i => t + num_flagged fo P ng nr' nc' (gdq' i)))
      by (intros x y Hy; rewrite (E y Hy); reflexivity).
    rewrite (fold_left_ext_in (fun _ i => num_flagged fo P ng nr nc (gdq i)) (fun _ i => num_flagged fo P ng nr' nc' (gdq' i)))
      by (intros x y Hy; rewrite (E y Hy); reflexivity).
    reflexivity.
  Qed.

  Variables nrows n : nat.
  Variable Hn : 1 <= n <= nrows.
  Lemma slice_end_le q : q < n -> slice_end nrows n q <= nrows /\ q * (nrows / n) < slice_end nrows n q.
  Proof.
    intro Hq. pose proof (yinc_pos nrows n Hn). pose proof (yinc_le nrows n Hn).
    unfold slice_end. destruct (Nat.eqb_spec (q + 1) n); split; nia.
  Qed.
  Variable kd : N.
  Variable Hkd : p_dnu P = bit kd.
  Variables nints ng ncols : nat.
  Variable gdq : arr4 N.
  Variable SameDnu : same_dnu kd nints ng nrows ncols gdq n.
  Lemma slice_counts q : q < n ->
    groups_all_set_dnu fo P nints ng (slice_end nrows n q - q * (nrows / n)) ncols (rows4 (q * (nrows / n)) gdq) = groups_all_set_dnu fo P nints ng nrows ncols gdq.
  Proof.
    intro Hq. apply counts_ext. intros i Hi. apply num_flagged_ext. intros g Hg.
    pose proof (slice_bounds_nth nrows n Hn q Hq) as Eb.
    assert (Hin : In (q * (nrows / n), slice_end nrows n q - q * (nrows / n)) (slice_bounds nrows n)).
    { rewrite <- Eb. apply nth_In. rewrite slice_bounds_length; assumption. }
    pose proof (slice_end_le q Hq) as [Hle _].
    apply eq_true_iff_eq. rewrite !all_pix_spec. split; intros H r c Hr Hc.
    - rewrite Hkd, has_bit. apply (SameDnu _ i g Hin Hi Hg); [|exact Hr|exact Hc].
      intros r' c' Hr' Hc'. cbn [fst snd] in *. specialize (H r' c' Hr' Hc'). rewrite Hkd, has_bit in H. exact H.
    - unfold rows4, rows_from. apply H; [lia|exact Hc].
  Qed.
End Counts.

(** ** a slice and the full frame *)
Section Slices.
  Variable fo : FOps.
  Variable L : FLaws fo.
  Variable HN : fisnan fo (fnan fo) = true.
  Variable med : list fo -> fo.
  Variable sigclip : bool -> nat -> nat -> (nat -> nat -> fo) -> nat -> nat -> bool.
  Variable crowded : nat -> nat -> nat -> cube bool -> bool.
  Variable P : params fo.
  Variables kj kd ks : N.
  Variable Hkj : p_jump P = bit kj.
  Variable Hkd : p_dnu P = bit kd.
  Variable Hks : p_sat P = bit ks.
  Variable Hjd : kj <> kd.
  Variable Hjs : kj <> ks.
  Variable T : thresholds_ok fo P.

  Lemma iterative_testbit nints nd nr nc gdq fd rn2 r c i g k : r < nr -> c < nc -> i < nints ->
    N.testbit (iterative_jump fo med P nints nd nr nc gdq fd rn2 i g r c) k =
    N.testbit (gdq i g r c) k || (N.eqb kj k && (Nat.ltb 0 g && Nat.leb g nd
       && found fo med P nints nd rn2 (fun i j r c => fabs fo (fd i j r c)) r c (nd * nints) i (g - 1))).
  Proof. intros. unfold iterative_jump. apply iterative_loop; assumption. Qed.

  Lemma strip_testbit gdq i g r c k :
    N.testbit (strip fo P gdq i g r c) k =
    N.testbit (gdq i g r c) k && negb (N.eqb kj k && (N.testbit (gdq i g r c) kd || N.testbit (gdq i g r c) ks)).
  Proof.
    unfold strip. rewrite Hkj, Hkd, Hks. rewrite !strip_flag_testbit by assumption.
    destruct (N.eqb_spec kj k) as [<-|Hk]; cbn [andb negb]; rewrite ?andb_true_r; [|reflexivity].
    rewrite N.eqb_refl. destruct (N.eqb_spec kj ks); [congruence|].
    cbn [andb negb]. rewrite ?andb_true_r.
    destruct (N.testbit (gdq i g r c) kj), (N.testbit (gdq i g r c) kd), (N.testbit (gdq i g r c) ks); reflexivity.
  Qed.

  Variables nints ng nrows ncols : nat.
  Variable dat : arr4 fo.
  Variable gdq : arr4 N.
  Variable rn : img fo.
  Let nd := ng - 1.
  Let rn2 : img fo := fun r c => fmul fo (rn r c) (rn r c).
  Let K := groups_all_set_dnu fo P nints ng nrows ncols gdq.
  Variable NoClip : check_sigma_clip_groups fo P nints (c_total K) = false.
  Let D := run_jump_detection fo med sigclip P nints nd nrows ncols dat gdq rn2 K.
  Let f (i g : nat) : img bool := neigh_flag fo P (dt_gdq fo D) (dt_fd fo D) (dt_md fo D) (dt_sigma fo D) i g.

  Lemma core_local off h i g r c : off + h <= nrows -> r < h -> c < ncols -> i < nints ->
    dt_gdq fo (run_jump_detection fo med sigclip P nints nd h ncols (rows4 off dat) (rows4 off gdq) (rows_from off rn2) K) i g r c
    = dt_gdq fo D i g (off + r) c.
  Proof.
    intros Ho Hr Hc Hi. unfold D, run_jump_detection. cbv zeta. cbn [dt_gdq]. rewrite NoClip.
    destruct (Z.leb (p_singlepass P) (c_min_diffs K)); [reflexivity|].
    apply N.bits_inj. intro k. rewrite !iterative_testbit by (assumption || lia). reflexivity.
  Qed.
  (** the neighbour flag of a slice row is that of the frame row *)
  Lemma neigh_local off h i g r c : off + h <= nrows -> r < h -> c < ncols -> i < nints ->
    let D' := run_jump_detection fo med sigclip P nints nd h ncols (rows4 off dat) (rows4 off gdq) (rows_from off rn2) K in
    neigh_flag fo P (dt_gdq fo D') (dt_fd fo D') (dt_md fo D') (dt_sigma fo D') i g r c = f i g (off + r) c.
  Proof. intros Ho Hr Hc Hi. cbv zeta. unfold f, neigh_flag. rewrite core_local by assumption. reflexivity. Qed.

  Definition act (g : nat) : bool := Nat.ltb 0 g && Nat.leb g nd.
  Definition bad (w : N) : bool := N.testbit w kd || N.testbit w ks.
  Variable NoProp : (p_n1 P <= 0)%Z /\ (p_n2 P <= 0)%Z.
  Variable Skip : skip fo P nints ng nrows ncols gdq = false.

  Lemma bad_has w : has w (N.lor (p_sat P) (p_dnu P)) = bad w.
  Proof. rewrite Hkd, Hks, has_or. unfold bad. apply orb_comm. Qed.

  (** find_crs without after-jump propagation, bit by bit *)
  Lemma find_crs_bits nr' nc' dat' gdq' rn' i g r c k :
    skip fo P nints ng nr' nc' gdq' = false ->
    let D' := run_jump_detection fo med sigclip P nints nd nr' nc' dat' gdq' (fun r c => fmul fo (rn' r c) (rn' r c))
                (groups_all_set_dnu fo P nints ng nr' nc' gdq') in
    let f' := neigh_flag fo P (dt_gdq fo D') (dt_fd fo D') (dt_md fo D') (dt_sigma fo D') i g in
    let x := find_crs fo med sigclip crowded P nints ng nr' nc' dat' gdq' rn' in
    N.testbit (res_gdq x i g r c) k = N.testbit (dt_gdq fo D' i g r c) k
       || (p_neigh P && (N.eqb kj k && (act g && negb (bad (dt_gdq fo D' i g r c)) && dilate nr' nc' f' r c)))
    /\ N.testbit (res_below x i g c) k = p_neigh P && (N.eqb kj k && (act g && f' 0 c))
    /\ N.testbit (res_above x i g c) k = p_neigh P && (N.eqb kj k && (act g && f' (nr' - 1) c)).
  Proof.
    intros Hs. cbv zeta. unfold find_crs, res_gdq, res_below, res_above. rewrite Hs. cbv zeta. cbn [fst snd].
    unfold post_processing. fold nd.
    assert (HP : (Z.ltb 0 (p_n1 P) || Z.ltb 0 (p_n2 P)) = false) by lia.
    destruct (p_neigh P); cbn [andb].
    - cbn [four_neighbors fst snd]. rewrite HP. cbn [fst snd]. rewrite Hkj, lor_flag_testbit, !flag_if_testbit, !bit_testbit, bad_has.
      unfold act.
      split; [f_equal; apply andb_comm|]. split; apply andb_comm.
    - rewrite HP. cbn [fst snd]. rewrite orb_false_r, !N.bits_0. auto.
  Qed.
  Variable n : nat.
  Variable Hn : 1 <= n <= nrows.
  Variable SameDnu : same_dnu kd nints ng nrows ncols gdq n.
  Lemma slice_skip q : q < n ->
    skip fo P nints ng (slice_end nrows n q - q * (nrows / n)) ncols (rows4 (q * (nrows / n)) gdq) = false.
  Proof. intro Hq. unfold skip. rewrite (slice_counts fo P nrows n Hn kd Hkd nints ng ncols gdq SameDnu q Hq). exact Skip. Qed.

  Definition slice_result q := find_crs fo med sigclip crowded P nints ng (slice_end nrows n q - q * (nrows / n)) ncols
       (rows4 (q * (nrows / n)) dat) (rows4 (q * (nrows / n)) gdq) (rows_from (q * (nrows / n)) rn).

  Lemma multi_testbit i g r c k : i < nints -> r < nrows -> c < ncols ->
    let single := find_crs fo med sigclip crowded P nints ng nrows ncols dat gdq rn in
    let multi := fst (twopoint_diff_multi fo med sigclip crowded P nints ng nrows ncols dat gdq rn n) in
    N.testbit (strip fo P multi i g r c) k = N.testbit (strip fo P (res_gdq single) i g r c) k.
  Proof.
    intros Hi Hr Hc. cbv zeta.
    destruct (row_slice nrows n Hn r Hr) as (q & Hq & Hqr).
    pose proof (yinc_pos nrows n Hn) as Hy. pose proof (slice_end_le nrows n Hn q Hq) as [Hle Hlt].
    set (y := nrows / n) in *.
    (* single *)
    assert (S1 : forall k, N.testbit (res_gdq (find_crs fo med sigclip crowded P nints ng nrows ncols dat gdq rn) i g r c) k =
        N.testbit (dt_gdq fo D i g r c) k
        || (p_neigh P && (N.eqb kj k && (act g && negb (bad (dt_gdq fo D i g r c)) && dilate nrows ncols (f i g) r c)))).
    { intro k'. apply (find_crs_bits nrows ncols dat gdq rn i g r c k' Skip). }
    (* slices *)
    assert (SL : forall q', q' < n -> forall r' c' k, r' < slice_end nrows n q' - q' * y -> c' < ncols ->
        N.testbit (res_gdq (slice_result q') i g r' c') k = N.testbit (dt_gdq fo D i g (q' * y + r') c') k
          || (p_neigh P && (N.eqb kj k && (act g && negb (bad (dt_gdq fo D i g (q' * y + r') c'))
                && dilate (slice_end nrows n q' - q' * y) ncols (fun a b => f i g (q' * y + a) b) r' c')))
        /\ N.testbit (res_below (slice_result q') i g c') k = p_neigh P && (N.eqb kj k && (act g && f i g (q' * y) c'))
        /\ N.testbit (res_above (slice_result q') i g c') k = p_neigh P && (N.eqb kj k && (act g && f i g (slice_end nrows n q' - 1) c'))).
    { intros q' Hq' r' c' k' Hr' Hc'. unfold slice_result. fold y.
      pose proof (slice_end_le nrows n Hn q' Hq') as [Hle' Hlt']. fold y in Hle', Hlt'.
      pose proof (find_crs_bits (slice_end nrows n q' - q' * y) ncols (rows4 (q' * y) dat) (rows4 (q' * y) gdq) (rows_from (q' * y) rn)
                   i g r' c' k' (slice_skip q' Hq')) as H.
      cbv zeta in H. unfold y in H. rewrite (slice_counts fo P nrows n Hn kd Hkd nints ng ncols gdq SameDnu q' Hq') in H. fold y in H. fold K in H.
      change (fun r0 c0 => fmul fo (rows_from (q' * y) rn r0 c0) (rows_from (q' * y) rn r0 c0)) with (rows_from (q' * y) rn2) in H.
      set (h := slice_end nrows n q' - q' * y) in *.
      assert (Hoh : q' * y + h <= nrows) by (unfold h; clear - Hle' Hlt'; lia).
      assert (Hh0 : 0 < h) by (unfold h; clear - Hle' Hlt'; lia).
      assert (Hh1 : h - 1 < h) by (clear - Hh0; lia).
      pose proof (core_local (q' * y) h i g r' c' Hoh Hr' Hc' Hi) as C1.
      pose proof (fun a b Ha Hb => neigh_local (q' * y) h i g a b Hoh Ha Hb Hi) as C2. cbv zeta in C2.
      set (D' := run_jump_detection fo med sigclip P nints nd h ncols (rows4 (q' * y) dat) (rows4 (q' * y) gdq) (rows_from (q' * y) rn2) K) in *.
      rewrite C1, (C2 0 c' Hh0 Hc'), (C2 (h - 1) c' Hh1 Hc') in H.
      rewrite (dilate_ext h ncols _ (fun a b => f i g (q' * y + a) b) r' c' Hr' Hc' C2) in H.
      clearbody D'. clear C1 C2. unfold h in H.
      rewrite Nat.add_0_r in H. replace (q' * y + (slice_end nrows n q' - q' * y - 1)) with (slice_end nrows n q' - 1) in H by qlia.
      exact H. }
    (* multi *)
    assert (M : forall k, N.testbit (fst (twopoint_diff_multi fo med sigclip crowded P nints ng nrows ncols dat gdq rn n) i g r c) k =
       N.testbit (dt_gdq fo D i g r c) k
       || (p_neigh P && (N.eqb kj k && (act g && negb (bad (dt_gdq fo D i g r c))
             && dilate (slice_end nrows n q - q * y) ncols (fun a b => f i g (q * y + a) b) (r - q * y) c)))
       || (Nat.ltb 0 q && Nat.eqb r (q * y) && (p_neigh P && (N.eqb kj k && (act g && f i g (r - 1) c))))
       || (Nat.ltb (q + 1) n && Nat.eqb r ((q + 1) * y - 1) && (p_neigh P && (N.eqb kj k && (act g && f i g (r + 1) c))))).
    { intro k'. unfold twopoint_diff_multi. set (res := map _ (slice_bounds nrows n)).
      assert (Hlen : length res = n) by (unfold res; rewrite map_length; apply slice_bounds_length; exact Hn).
      set (d := slice_result 0).
      assert (Hres : forall q', q' < n -> @nth result q' res d = slice_result q').
      { intros q' Hq'. unfold res.
        rewrite (nth_indep _ d ((fun b => find_crs fo med sigclip crowded P nints ng (snd b) ncols (rows4 (fst b) dat) (rows4 (fst b) gdq) (rows_from (fst b) rn)) (0, 0)))
          by (rewrite map_length, slice_bounds_length; assumption).
        rewrite (map_nth (fun b => find_crs fo med sigclip crowded P nints ng (snd b) ncols (rows4 (fst b) dat) (rows4 (fst b) gdq) (rows_from (fst b) rn))).
        rewrite slice_bounds_nth by assumption. reflexivity. }
      rewrite (reassemble_spec nrows n Hn res gdq i g r c k' q d Hlen Hq Hqr). fold y.
      rewrite (Hres q Hq). destruct (SL q Hq (r - q * y) c k') as [E1 _]; [qlia|exact Hc|]. rewrite E1.
      replace (q * y + (r - q * y)) with r by qlia. f_equal; [f_equal|].
      - destruct (Nat.ltb_spec 0 q) as [H0|H0]; [|reflexivity]. destruct (Nat.eqb_spec r (q * y)) as [H1|H1]; [|reflexivity].
        cbn [andb]. rewrite Hres by qlia. destruct (SL (q - 1) ltac:(qlia) 0 c k') as [_ [_ E2]].
        { pose proof (slice_end_le nrows n Hn (q - 1) ltac:(qlia)) as HH. fold y in HH. qlia. } { exact Hc. }
        rewrite E2. replace (slice_end nrows n (q - 1)) with r; [reflexivity|].
        unfold slice_end. fold y. destruct (Nat.eqb_spec (q - 1 + 1) n); [qlia|]. replace (q - 1 + 1) with q by qlia. exact H1.
      - destruct (Nat.ltb_spec (q + 1) n) as [H0|H0]; [|reflexivity].
        destruct (Nat.eqb_spec r ((q + 1) * y - 1)) as [H1|H1]; [|reflexivity].
        cbn [andb]. rewrite Hres by qlia. destruct (SL (q + 1) ltac:(qlia) 0 c k') as [_ [E2 _]].
        { pose proof (slice_end_le nrows n Hn (q + 1) ltac:(qlia)) as HH. fold y in HH. qlia. } { exact Hc. }
        rewrite E2. replace ((q + 1) * y) with (r + 1) by qlia. reflexivity. }
    pose proof (dilate_split nrows n Hn ncols (f i g) r c q Hq Hqr) as HD. cbv zeta in HD. fold y in HD.
    rewrite !strip_testbit, !M, !S1, HD.
    assert (Ekd : N.eqb kj kd = false) by (apply N.eqb_neq; exact Hjd).
    assert (Eks : N.eqb kj ks = false) by (apply N.eqb_neq; exact Hjs).
    rewrite Ekd, Eks. cbn [andb]. rewrite !andb_false_r, !orb_false_r. unfold bad.
    destruct (N.eqb kj k); cbn [andb negb]; rewrite ?andb_false_r, ?orb_false_r, ?andb_true_r; [|reflexivity].
    destruct (N.testbit (dt_gdq fo D i g r c) kd || N.testbit (dt_gdq fo D i g r c) ks); cbn [andb negb];
      rewrite ?andb_false_r, ?andb_true_r; [reflexivity|].
    destruct (p_neigh P), (act g); cbn [andb]; rewrite ?andb_false_r, ?orb_false_r; try reflexivity.
    rewrite !orb_assoc. reflexivity.
  Qed.
End Slices.
