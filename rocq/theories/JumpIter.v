(** The image-wide iterative search does, at every pixel, the documented per-pixel iteration. *)
From Verif Require Import Base BaseLemmas FLaws JumpModel JumpSpec JumpProofs.
From Coq Require Import ZifyBool ZifyNat ZifyN.

Section Grid.
  Variable fo : FOps.
  Variables nints nd : nat.
  Lemma flat2_grid d : flat2 fo nints nd d = map (fun p => d (fst p) (snd p)) (grid nints nd).
  Proof. unfold flat2, grid. generalize (seq 0 nints) as l. induction l as [|a l IH]; cbn; [reflexivity|].
    rewrite map_app, map_map, IH. reflexivity. Qed.
  Lemma in_grid i j : In (i, j) (grid nints nd) <-> i < nints /\ j < nd.
  Proof. unfold grid. rewrite in_prod_iff, !in_seq. lia. Qed.
  Lemma nonnan_in_use d : nonnan fo (flat2 fo nints nd d) = in_use fo nints nd d.
  Proof. unfold nonnan, in_use. rewrite flat2_grid. reflexivity. Qed.
  Lemma in_flat2 d x : In x (flat2 fo nints nd d) <-> exists i j, i < nints /\ j < nd /\ d i j = x.
  Proof. rewrite flat2_grid, in_map_iff. split.
    - intros ([i j] & E & H). apply in_grid in H. exists i, j; tauto.
    - intros (i & j & Hi & Hj & E). exists (i, j). split; [exact E|]. apply in_grid; auto. Qed.
  Definition eqd (d d' : nat -> nat -> fo) := forall i j, i < nints -> j < nd -> d i j = d' i j.
  Lemma flat2_ext d d' : eqd d d' -> flat2 fo nints nd d = flat2 fo nints nd d'.
  Proof. intro H. unfold flat2. apply flat_map_ext_in. intros i Hi. apply map_ext_in. intros j Hj.
    rewrite in_seq in *. apply H; lia. Qed.
  Lemma in_use_ext d d' : eqd d d' -> in_use fo nints nd d = in_use fo nints nd d'.
  Proof. intro H. rewrite <- !nonnan_in_use, (flat2_ext d d' H). reflexivity. Qed.

End Grid.
Section Iter.
  Variable fo : FOps.
  Variable L : FLaws fo.
  Variable HN : fisnan fo (fnan fo) = true.
  Variable med : list fo -> fo.
  Variable P : params fo.
  Variables nints nd : nat.

  (** calc_med_first_diffs computes the documented typical difference *)
  Lemma calc_med_typical l : calc_med_first_diffs fo med l = typical fo med (nonnan fo l).
  Proof.
    unfold calc_med_first_diffs. cbv zeta.
    destruct (nonnan fo l) as [|a [|b [|c [|e u]]]] eqn:E; cbn [length Nat.eqb Nat.ltb Nat.leb].
    - reflexivity.
    - reflexivity.
    - cbn [andb]. rewrite map_id. unfold nanmin. rewrite E. reflexivity.
    - cbn [andb]. rewrite map_id. unfold nanmedian. rewrite E. reflexivity.
    - cbn [andb]. unfold nanmedian.
      assert (H : nonnan fo (map (fun x => if feq fo x (nanmax fo l) then fnan fo else x) l)
        = filter (fun x => existsb (fun y => flt fo x y) (nonnan fo l)) (nonnan fo l)).
      { unfold nonnan at 3. unfold nonnan at 1.
        assert (G : forall k, incl k l ->
          filter (fun x => negb (fisnan fo x)) (map (fun x => if feq fo x (nanmax fo l) then fnan fo else x) k)
          = filter (fun x => existsb (fun y => flt fo x y) (nonnan fo l)) (filter (fun x => negb (fisnan fo x)) k)).
        { induction k as [|x k IH]; intro Hk; [reflexivity|]. cbn [map filter].
          rewrite IH by (intros y Hy; apply Hk; right; exact Hy).
          assert (Hx : In x l) by (apply Hk; left; reflexivity).
          destruct (feq fo x (nanmax fo l)) eqn:Ef.
          - rewrite HN. cbn [negb]. apply (eq_nanmax fo L) in Ef; [|exact Hx]. destruct Ef as [Hn Hall].
            rewrite Hn. cbn [negb filter].
            destruct (existsb (fun y => flt fo x y) (nonnan fo l)) eqn:Ex; [|reflexivity].
            apply existsb_exists in Ex. destruct Ex as (y & Hy & Hlt). unfold nonnan in Hy. apply filter_In in Hy.
            rewrite Hall in Hlt by tauto. discriminate.
          - destruct (fisnan fo x) eqn:Hn; cbn [negb filter]; [reflexivity|].
            destruct (existsb (fun y => flt fo x y) (nonnan fo l)) eqn:Ex; [reflexivity|]. exfalso.
            apply not_true_iff_false in Ef. apply Ef. apply (eq_nanmax fo L); [exact Hx|]. split; [exact Hn|].
            intros y Hy. destruct (flt fo x y) eqn:Hlt; [|reflexivity].
            destruct (flt_notnan fo L _ _ Hlt) as [_ Hyn].
            rewrite <- Ex. symmetry. apply existsb_exists. exists y. split; [|exact Hlt].
            unfold nonnan. apply filter_In. rewrite Hyn. auto. }
        apply G. intros y Hy; exact Hy. }
      rewrite H, E. reflexivity.
  Qed.

  Variable rn2 : fo.
  Notation excess := (excess fo med P nints nd rn2).
  Notation clipped := (clipped fo med P nints nd rn2).
  Notation after := (after fo med P nints nd rn2).
  Notation in_use := (in_use fo nints nd).

  Lemma ratio_excess d i j : cr_ratio fo med P nints nd d rn2 true i j = excess d i j.
  Proof. unfold cr_ratio, JumpSpec.excess. cbv zeta. rewrite calc_med_typical, nonnan_in_use. reflexivity. Qed.
  Lemma excess_ext d d' i j : eqd fo nints nd d d' -> i < nints -> j < nd -> excess d i j = excess d' i j.
  Proof. intros H Hi Hj. unfold JumpSpec.excess. rewrite (in_use_ext fo nints nd d d' H), (H i j Hi Hj). reflexivity. Qed.
  Lemma clipped_range d i j : clipped d i j = true -> i < nints /\ j < nd.
  Proof. unfold JumpSpec.clipped. rewrite !andb_true_iff, !Nat.ltb_lt. tauto. Qed.
  Lemma clipped_ext d d' i j : eqd fo nints nd d d' -> clipped d i j = clipped d' i j.
  Proof.
    intro H. unfold JumpSpec.clipped. destruct (Nat.ltb_spec i nints); [|reflexivity].
    destruct (Nat.ltb_spec j nd); [|reflexivity]. cbn [andb].
    rewrite (in_use_ext fo nints nd d d' H), (excess_ext d d' i j) by assumption. f_equal. f_equal.
    apply forallb_ext_in'. 
    intros [a b] Hab. apply in_grid in Hab. cbn. rewrite (excess_ext d d' a b) by tauto. reflexivity.
  Qed.
  (** the differences fed to a clip are numbers *)
  Lemma clipped_notnan d i j : clipped d i j = true -> fisnan fo (d i j) = false.
  Proof.
    intro H. destruct (fisnan fo (d i j)) eqn:E; [|reflexivity]. exfalso.
    unfold JumpSpec.clipped in H. rewrite !andb_true_iff, negb_true_iff in H.
    destruct H as (((_ & H) & _) & _). unfold JumpSpec.excess in H.
    rewrite (div_nan_l fo L) in H; [discriminate|]. rewrite (abs_nan fo L). apply (sub_nan_l fo L). exact E.
  Qed.

  (** the image-level test new_cr at one pixel, index true *)
  Lemma new_clipped d i j : i < nints -> j < nd ->
    (feq fo (cr_ratio fo med P nints nd d rn2 true i j)
         (nanmax fo (flat2 fo nints nd (fun a b => cr_ratio fo med P nints nd d rn2 true a b)))
     && cr_pixel fo med P nints nd d rn2 true i) = clipped d i j.
  Proof.
    intros Hi Hj. set (R := fun a b => cr_ratio fo med P nints nd d rn2 true a b).
    assert (HR : forall a b, R a b = excess d a b) by (intros; apply ratio_excess).
    assert (Hin : In (R i j) (flat2 fo nints nd R)) by (apply in_flat2; exists i, j; auto).
    apply eq_true_iff_eq. rewrite andb_true_iff.
    unfold JumpSpec.clipped. rewrite !andb_true_iff, !Nat.ltb_lt, negb_true_iff, forallb_forall.
    change (cr_ratio fo med P nints nd d rn2 true i j) with (R i j).
    rewrite (eq_nanmax fo L _ _ Hin), (HR i j).
    assert (Hq : (forall y, In y (flat2 fo nints nd R) -> flt fo (excess d i j) y = false) <->
      (forall p, In p (grid nints nd) -> negb (flt fo (excess d i j) (excess d (fst p) (snd p))) = true)).
    { split.
      - intros H [a b] Hp. apply in_grid in Hp. cbn. rewrite H; [reflexivity|].
        apply in_flat2. exists a, b. rewrite HR. tauto.
      - intros H y Hy. apply in_flat2 in Hy. destruct Hy as (a & b & Ha & Hb & <-). rewrite HR.
        specialize (H (a, b)). cbn in H. rewrite in_grid in H. apply negb_true_iff, H. auto. }
    rewrite Hq.
    (* the integration's maximum ratio is the ratio itself *)
    assert (Hmax : fisnan fo (excess d i j) = false ->
       (forall y, In y (flat2 fo nints nd R) -> flt fo (excess d i j) y = false) ->
       forall t, fgt fo (nanmax fo (map (R i) (seq 0 nd))) t = flt fo t (excess d i j)).
    { intros Hn Hall t. unfold fgt.
      assert (Hini : In (excess d i j) (map (R i) (seq 0 nd))) by (rewrite <- HR; apply in_map; rewrite in_seq; lia).
      destruct (nanmax_notnan fo L (map (R i) (seq 0 nd))) as (Hm1 & Hm2 & Hm3).
      { exists (excess d i j). auto. }
      set (m := nanmax fo (map (R i) (seq 0 nd))) in *.
      assert (Hm : flt fo m (excess d i j) = false) by (apply Hm3; exact Hini).
      assert (Hm' : flt fo (excess d i j) m = false).
      { apply Hall. apply in_map_iff in Hm1. destruct Hm1 as (b & Eb & Hb). apply in_flat2.
        exists i, b. rewrite in_seq in Hb. split; [exact Hi|]. split; [lia|exact Eb]. }
      destruct (flt fo t m) eqn:E1, (flt fo t (excess d i j)) eqn:E2; try reflexivity.
      - rewrite (nflt_trans fo L t (excess d i j) m Hn E2 Hm') in E1. discriminate.
      - rewrite (nflt_trans fo L t m (excess d i j) Hm2 E1 Hm) in E2. discriminate. }
    unfold cr_pixel. cbv zeta. fold R. rewrite nonnan_in_use.
    split.
    - intros ((Hn & Hall) & Hc). split; [split; [split; [split|]|]|]; try assumption.
      pose proof (proj2 Hq Hall) as Hall2. change (fun i0 j0 => cr_ratio fo med P nints nd d rn2 true i0 j0) with R in Hc.
      change (cr_ratio fo med P nints nd d rn2 true i) with (R i) in Hc.
      rewrite !(Hmax Hn Hall2) in Hc. unfold limit.
      destruct (length (in_use d)) as [|[|[|[|n]]]]; cbn in Hc; rewrite ?orb_false_r in Hc; try discriminate; exact Hc.
    - intros (((_ & Hn) & Hall) & Hc). split; [split; assumption|].
      pose proof (proj2 Hq Hall) as Hall2. change (cr_ratio fo med P nints nd d rn2 true i) with (R i).
      rewrite !(Hmax Hn Hall2). unfold limit in Hc.
      destruct (length (in_use d)) as [|[|[|[|n]]]]; cbn; try discriminate; rewrite ?orb_false_r; exact Hc.
  Qed.

  (** thresholds are not negative *)
  Definition thresholds_ok := flt fo (p_thresh P) (fzero fo) = false /\ flt fo (p_thresh3 P) (fzero fo) = false
    /\ flt fo (p_thresh2 P) (fzero fo) = false.
  Lemma unsearched d i : thresholds_ok -> cr_pixel fo med P nints nd d rn2 false i = false.
  Proof.
    intros (T1 & T2 & T3). unfold cr_pixel. cbv zeta. unfold cr_ratio.
    set (m := nanmax fo _).
    assert (Hm : flt fo (fzero fo) m = false).
    { unfold m. set (l := map _ (seq 0 nd)).
      destruct (existsb (fun x => negb (fisnan fo x)) l) eqn:E.
      - apply existsb_exists in E. destruct E as (x & Hx & Hn). apply negb_true_iff in Hn.
        destruct (nanmax_notnan fo L l) as (Hin & _); [exists x; auto|].
        set (q := nanmax fo l) in *. clearbody q. unfold l in Hin. apply in_map_iff in Hin.
        destruct Hin as (j & <- & _). apply (zero_div fo L).
      - assert (nonnan fo l = []) as E'.
        { clearbody l. unfold nonnan. clear -E. induction l as [|x l IH]; [reflexivity|]. cbn in *. apply orb_false_iff in E.
          destruct E as [E1 E2]. rewrite E1. apply IH, E2. }
        unfold nanmax. rewrite E'. apply (lt_nan_r fo L), HN. }
    assert (Hz : fisnan fo (fzero fo) = false) by (apply (finite_not_nan fo L), (zero_finite fo L)).
    clearbody m. unfold fgt. rewrite (nflt_trans fo L _ (fzero fo) m Hz T1 Hm), (nflt_trans fo L _ (fzero fo) m Hz T2 Hm),
      (nflt_trans fo L _ (fzero fo) m Hz T3 Hm), !andb_false_r. reflexivity.
  Qed.

  (** convergence of the per-pixel iteration *)
  Lemma after_S k d i j : after (S k) d i j = if clipped (after k d) i j then fnan fo else after k d i j.
  Proof. reflexivity. Qed.
  Lemma no_clip_stays k d : (forall i j, clipped (after k d) i j = false) ->
    forall m, k <= m -> eqd fo nints nd (after m d) (after k d) /\ (forall i j, clipped (after m d) i j = false).
  Proof.
    intros H m Hm. induction Hm as [|m Hm IH]; [split; [intros i j _ _; reflexivity|exact H]|].
    destruct IH as [IH1 IH2].
    assert (E : eqd fo nints nd (after (S m) d) (after k d)).
    { intros i j Hi Hj. rewrite after_S, IH2. apply IH1; assumption. }
    split; [exact E|]. intros i j. rewrite (clipped_ext _ _ i j E). apply H.
  Qed.
  Lemma in_use_le d : length (in_use d) <= nints * nd.
  Proof. unfold JumpSpec.in_use. etransitivity; [apply filter_len_le|].
    rewrite map_length. unfold grid. rewrite prod_length, !seq_length. lia. Qed.
  Lemma in_use_count d : length (in_use d) = length (filter (fun p => negb (fisnan fo (d (fst p) (snd p)))) (grid nints nd)).
  Proof. unfold JumpSpec.in_use. generalize (grid nints nd). induction l as [|p l IH]; cbn; [reflexivity|].
    destruct (fisnan fo (d (fst p) (snd p))); cbn; rewrite IH; reflexivity. Qed.
  Lemma clip_shrinks k d i j : clipped (after k d) i j = true ->
    length (in_use (after (S k) d)) < length (in_use (after k d)).
  Proof.
    intro H. rewrite !in_use_count. apply filter_length_lt.
    - intros [a b] _. cbn [fst snd]. rewrite after_S. destruct (clipped (after k d) a b); [rewrite HN; discriminate|auto].
    - exists (i, j). cbn [fst snd]. destruct (clipped_range _ _ _ H) as [Hi Hj]. split; [apply in_grid; auto|].
      rewrite after_S, H, HN, (clipped_notnan _ _ _ H). auto.
  Qed.
  Lemma clip_needs_two d i j : clipped d i j = true -> 2 <= length (in_use d).
  Proof. unfold JumpSpec.clipped. rewrite !andb_true_iff. intros (_ & H). unfold limit in H.
    destruct (length (in_use d)) as [|[|n]]; [discriminate..|lia]. Qed.
  Lemma clip_before_end k d i j : clipped (after k d) i j = true -> length (in_use (after k d)) + k <= nints * nd.
  Proof.
    revert i j. induction k as [|k IH]; intros i j H.
    - cbn. pose proof (in_use_le d). lia.
    - destruct (any2 nints nd (clipped (after k d))) eqn:E.
      + apply any2_spec in E. destruct E as (a & b & _ & _ & E).
        pose proof (clip_shrinks k d a b E). specialize (IH a b E). lia.
      + exfalso. assert (Hno : forall a b, clipped (after k d) a b = false).
        { intros a b. destruct (clipped (after k d) a b) eqn:E'; [|reflexivity].
          rewrite <- E. symmetry. apply any2_spec. destruct (clipped_range _ _ _ E') as [Ha Hb]. exists a, b; auto. }
        destruct (no_clip_stays k d Hno (S k)) as [_ H2]; [lia|]. rewrite H2 in H. discriminate.
  Qed.
  Lemma no_clip_end k d i j : nints * nd <= k + 1 -> clipped (after k d) i j = false.
  Proof. intro Hk. destruct (clipped (after k d) i j) eqn:E; [|reflexivity].
    pose proof (clip_before_end k d i j E). pose proof (clip_needs_two _ _ _ E). lia. Qed.
  Lemma once_nan k d i j : fisnan fo (after k d i j) = true ->
    forall m, k <= m -> fisnan fo (after m d i j) = true /\ clipped (after m d) i j = false.
  Proof.
    intros H m Hm. assert (A : fisnan fo (after m d i j) = true).
    { induction Hm as [|m Hm IH]; [exact H|]. rewrite after_S. destruct (clipped _ i j); [exact HN|exact IH]. }
    split; [exact A|]. destruct (clipped (after m d) i j) eqn:E; [|reflexivity].
    rewrite (clipped_notnan _ _ _ E) in A. discriminate.
  Qed.
End Iter.

(** ** the image-wide loop *)
Section Loop.
  Variable fo : FOps.
  Variable L : FLaws fo.
  Variable HN : fisnan fo (fnan fo) = true.
  Variable med : list fo -> fo.
  Variable P : params fo.
  Variable kj : N.
  Variable Hkj : p_jump P = bit kj.
  Variable T : thresholds_ok fo P.
  Variables nints nd nr nc : nat.
  Variable rn2 : img fo.
  Variable gdq0 : arr4 N.
  Variable d0 : arr4 fo.
  Definition A (r c n : nat) := after fo med P nints nd (rn2 r c) n (fun a b => d0 a b r c).
  Definition C (r c n i j : nat) := clipped fo med P nints nd (rn2 r c) (A r c n) i j.
  Definition found (r c n i j : nat) := existsb (fun m => C r c m i j) (seq 0 n).

  Definition Inv (n : nat) (s : itstate fo) : Prop := forall r c, r < nr -> c < nc ->
    eqd fo nints nd (fun a b => it_d fo s a b r c) (A r c n)
    /\ (forall i g k, i < nints -> N.testbit (it_gdq fo s i g r c) k =
         N.testbit (gdq0 i g r c) k || (N.eqb kj k && (Nat.ltb 0 g && Nat.leb g nd && found r c n i (g - 1))))
    /\ exists index : bool,
         (forall i, it_cr fo s i r c = cr_pixel fo med P nints nd (fun a b => it_d fo s a b r c) (rn2 r c) index i)
         /\ (forall i j, it_ratio fo s i j r c = cr_ratio fo med P nints nd (fun a b => it_d fo s a b r c) (rn2 r c) index i j)
         /\ (index = false -> forall i j, C r c n i j = false).

  Lemma new_cr_C n s : Inv n s -> forall r c i j, r < nr -> c < nc -> i < nints -> j < nd ->
    new_cr fo nints nd s i j r c = C r c n i j.
  Proof.
    intros HI r c i j Hr Hc Hi Hj. destruct (HI r c Hr Hc) as (Hd & _ & index & Hcr & Hrat & Hidx).
    unfold new_cr. rewrite Hcr, Hrat.
    assert (E : flat2 fo nints nd (fun a b => it_ratio fo s a b r c) =
      flat2 fo nints nd (fun a b => cr_ratio fo med P nints nd (fun a b => it_d fo s a b r c) (rn2 r c) index a b)).
    { apply flat2_ext. intros a b Ha Hb. apply Hrat. }
    rewrite E. destruct index.
    - rewrite new_clipped by assumption. unfold C. apply clipped_ext. exact Hd.
    - rewrite unsearched, andb_false_r by assumption. symmetry. apply Hidx. reflexivity.
  Qed.
  Lemma found_S r c n i j : found r c (S n) i j = found r c n i j || C r c n i j.
  Proof. unfold found. rewrite seq_S, existsb_app. cbn. rewrite orb_false_r. reflexivity. Qed.

  Lemma round_inv n s : Inv n s ->
    match it_round fo med P nints nd nr nc rn2 s with
    | Some s' => Inv (S n) s'
    | None => forall r c i j, r < nr -> c < nc -> C r c n i j = false
    end.
  Proof.
    intro HI. unfold it_round. cbv zeta.
    destruct (any_pix nr nc _) eqn:E.
    - intros r c Hr Hc. destruct (HI r c Hr Hc) as (Hd & Hg & _).
      assert (HC := fun i j => new_cr_C n s HI r c i j Hr Hc).
      assert (Hd' : eqd fo nints nd (fun a b => if new_cr fo nints nd s a b r c then fnan fo else it_d fo s a b r c) (A r c (S n))).
      { intros i j Hi Hj. rewrite HC by assumption. unfold A. rewrite after_S. fold (A r c n). fold (C r c n i j).
        destruct (C r c n i j); [reflexivity|]. apply (Hd i j Hi Hj). }
      split; [exact Hd'|]. split.
      + intros i g k Hi. cbn [it_locs it_gdq]. rewrite Hkj, lor_flag_testbit, Hg by exact Hi. rewrite found_S.
        destruct (Nat.ltb_spec 0 g); cbn [andb]; [|rewrite !andb_false_r; rewrite orb_false_r; reflexivity].
        destruct (Nat.leb_spec g nd); cbn [andb]; [|rewrite !andb_false_r; rewrite orb_false_r; reflexivity].
        rewrite HC by (assumption || lia).
        destruct (N.eqb kj k), (found r c n i (g - 1)), (C r c n i (g - 1)), (N.testbit (gdq0 i g r c) k); reflexivity.
      + exists (any2 nints nd (fun i j => new_cr fo nints nd s i j r c)).
        split; [intro i; reflexivity|]. split; [intros i j; reflexivity|].
        intros Hno i j.
        assert (Hn : forall a b, C r c n a b = false).
        { intros a b. destruct (C r c n a b) eqn:Ec; [|reflexivity]. rewrite <- Hno. symmetry.
          destruct (clipped_range _ _ _ _ _ _ _ _ _ Ec) as [Ha Hb]. apply any2_spec. exists a, b.
          rewrite HC by assumption. auto. }
        apply (no_clip_stays fo med P nints nd (rn2 r c) n (fun a b => d0 a b r c) Hn (S n)). lia.
    - intros r c i j Hr Hc. destruct (C r c n i j) eqn:Ec; [|reflexivity]. exfalso.
      apply not_true_iff_false in E. apply E. apply any_pix_spec. exists r, c.
      split; [exact Hr|]. split; [exact Hc|]. destruct (clipped_range _ _ _ _ _ _ _ _ _ Ec) as [Hi Hj].
      apply any2_spec. exists i, j. rewrite (new_cr_C n s HI) by assumption. auto.
  Qed.
  Lemma found_stop r c n N' i j : (forall i j, C r c n i j = false) -> n <= N' -> found r c N' i j = found r c n i j.
  Proof.
    intros H Hle. induction Hle as [|m Hm IH]; [reflexivity|]. rewrite found_S, IH.
    assert (E : C r c m i j = false) by (apply (no_clip_stays fo med P nints nd (rn2 r c) n _ H m Hm)).
    rewrite E, orb_false_r. reflexivity.
  Qed.
  Lemma loop_inv fuel n s : Inv n s -> forall r c, r < nr -> c < nc -> forall i g k, i < nints ->
    N.testbit (it_gdq fo (it_loop fo med P fuel nints nd nr nc rn2 s) i g r c) k =
         N.testbit (gdq0 i g r c) k || (N.eqb kj k && (Nat.ltb 0 g && Nat.leb g nd && found r c (n + fuel) i (g - 1))).
  Proof.
    revert n s. induction fuel as [|f IH]; intros n s HI r c Hr Hc i g k Hi; cbn [it_loop].
    - rewrite Nat.add_0_r. apply (HI r c Hr Hc); exact Hi.
    - pose proof (round_inv n s HI) as Hrd. destruct (it_round fo med P nints nd nr nc rn2 s) as [s'|].
      + rewrite (IH (S n) s' Hrd r c Hr Hc i g k Hi). replace (S n + f) with (n + S f) by lia. reflexivity.
      + destruct (HI r c Hr Hc) as (_ & Hg & _). rewrite Hg by exact Hi.
        rewrite (found_stop r c n (n + S f)); [reflexivity|intros; apply Hrd; assumption|lia].
  Qed.
  Lemma init_inv : Inv 0 (it_locs fo med P nints nd gdq0 d0 rn2 (fun _ _ => true)).
  Proof.
    intros r c Hr Hc. split; [intros i j _ _; reflexivity|]. split.
    - intros i g k Hi. cbn. rewrite !andb_false_r, orb_false_r. reflexivity.
    - exists true. split; [intro; reflexivity|]. split; [intros; reflexivity|]. discriminate.
  Qed.
  Lemma found_exists r c i j : found r c (nd * nints) i j = true <-> exists k, C r c k i j = true.
  Proof.
    unfold found. rewrite existsb_seq. split; [intros (k & _ & H); exists k; exact H|].
    intros (k & H). exists k. split; [|exact H].
    destruct (le_lt_dec (nints * nd) (k + 1)) as [Hle|]; [|lia].
    unfold C, A in H. rewrite no_clip_end in H by assumption. discriminate.
  Qed.
  Lemma iterative_loop r c i g k : r < nr -> c < nc -> i < nints ->
    N.testbit (it_gdq fo (it_loop fo med P (nd * nints) nints nd nr nc rn2
       (it_locs fo med P nints nd gdq0 d0 rn2 (fun _ _ => true))) i g r c) k =
    N.testbit (gdq0 i g r c) k || (N.eqb kj k && (Nat.ltb 0 g && Nat.leb g nd && found r c (nd * nints) i (g - 1))).
  Proof. intros Hr Hc Hi. apply (loop_inv (nd * nints) 0 _ init_inv r c Hr Hc i g k Hi). Qed.
End Loop.
