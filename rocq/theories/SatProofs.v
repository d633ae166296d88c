From Verif Require Import Base BaseLemmas SatModel SatSpec.
From Coq Require Import ZifyBool ZifyNat ZifyN.

(** ** The reflecting maximum filter *)
Lemma reflect_in (n len c d : nat) :
  2 * n <= len -> c < len -> d < 2 * n + 1 ->
  let k := reflect_idx len (Z.of_nat c + Z.of_nat d - Z.of_nat n) in
  k < len /\ k <= c + n /\ c <= k + n.
Proof.
  intros Hn Hc Hd; cbv zeta; unfold reflect_idx.
  set (k := (Z.of_nat c + Z.of_nat d - Z.of_nat n)%Z).
  set (p := (2 * Z.of_nat len)%Z).
  assert (Hk : (- Z.of_nat n <= k <= Z.of_nat c + Z.of_nat n)%Z) by lia.
  destruct (Z.ltb_spec k 0) as [Hneg|Hpos].
  - assert (E : (k mod p = k + p)%Z) by (symmetry; apply (Z.mod_unique k p (-1)); lia).
    rewrite E. destruct (Z.ltb_spec (k + p) (Z.of_nat len)); lia.
  - assert (E : (k mod p = k)%Z) by (apply Z.mod_small; lia).
    rewrite E. destruct (Z.ltb_spec k (Z.of_nat len)); lia.
Qed.

Lemma reflect_inside (len : nat) (k : nat) : k < len -> reflect_idx len (Z.of_nat k) = k.
Proof. intro H; unfold reflect_idx. rewrite Z.mod_small by lia.
  destruct (Z.ltb_spec (Z.of_nat k) (Z.of_nat len)); lia. Qed.

Lemma maxfilt1_spec (n len : nat) (v : nat -> bool) (c : nat) :
  2 * n <= len -> c < len ->
  (maxfilt1 n len v c = true <->
   exists c', c' < len /\ c <= c' + n /\ c' <= c + n /\ v c' = true).
Proof.
  intros Hn Hc; unfold maxfilt1; rewrite existsb_exists; split.
  - intros (d & Hd & Hv). apply in_seq in Hd.
    destruct (reflect_in n len c d Hn Hc ltac:(lia)) as (H1 & H2 & H3).
    eexists; repeat split; eauto.
  - intros (c' & Hlt & H1 & H2 & Hv). exists (c' + n - c). split; [apply in_seq; lia|].
    replace (Z.of_nat c + Z.of_nat (c' + n - c) - Z.of_nat n)%Z with (Z.of_nat c') by lia.
    rewrite reflect_inside by assumption; exact Hv.
Qed.

(** ** Dilation *)
Definition interior_contrib (n nr nc : nat) (m : img bool) (ij : nat * nat) (r c : nat) : bool :=
  ((Nat.leb n r && Nat.ltb r (nr - n)) && (Nat.leb n c && Nat.ltb c (nc - n)))
  && m (r - n + fst ij) (c - n + snd ij).

Lemma slice_len_dst n len : 2 * n <= len -> 1 <= n ->
  py_slice_len len (Z.of_nat n) (- Z.of_nat n) = len - 2 * n.
Proof. intros H H1; unfold py_slice_len, py_bound.
  destruct (Z.ltb_spec (- Z.of_nat n) 0), (Z.ltb_spec (Z.of_nat n) 0); lia. Qed.

Lemma slice_len_src n len i : 2 * n <= len -> i < 2 * n + 1 ->
  py_slice_len len (Z.of_nat i) (Z.of_nat len - Z.of_nat (2 * n + 1) + Z.of_nat i + 1) = len - 2 * n.
Proof. intros H H1; unfold py_slice_len, py_bound.
  destruct (Z.ltb_spec (Z.of_nat len - Z.of_nat (2 * n + 1) + Z.of_nat i + 1) 0),
           (Z.ltb_spec (Z.of_nat i) 0); lia. Qed.

Lemma in_box n i j : In (i, j) (box_pairs n) <-> i < 2 * n + 1 /\ j < 2 * n + 1.
Proof. unfold box_pairs; rewrite in_prod_iff, !in_seq; lia. Qed.

Lemma interior_step_ok n nr nc m d ij :
  1 <= n -> 2 * n <= nr -> 2 * n <= nc -> In ij (box_pairs n) ->
  exists d', interior_step n nr nc m d ij = Some d' /\
    forall r c, d' r c = d r c || interior_contrib n nr nc m ij r c.
Proof.
  intros H1 Hr Hc Hin; destruct ij as [i j]; apply in_box in Hin; destruct Hin as [Hi Hj].
  unfold interior_step.
  rewrite !slice_len_dst, !slice_len_src by assumption.
  unfold broadcastable; rewrite !Nat.eqb_refl; cbn [orb andb].
  eexists; split; [reflexivity|]. intros r c.
  unfold interior_contrib; cbn [fst snd].
  replace (n + (nr - 2 * n)) with (nr - n) by lia.
  replace (n + (nc - 2 * n)) with (nc - n) by lia.
  destruct ((Nat.leb n r && Nat.ltb r (nr - n)) && (Nat.leb n c && Nat.ltb c (nc - n)));
    cbn [andb]; [reflexivity|rewrite orb_false_r; reflexivity].
Qed.

Definition edge_contrib (n nr nc : nat) (m : img bool) (ij : nat * nat) (r c : nat) : bool :=
  let (i, j) := ij in
  (Nat.eqb r i && maxfilt1 n nc (fun c' => m j c') c)
  || (Nat.eqb c i && maxfilt1 n nr (fun r' => m r' j) r)
  || (Nat.eqb r (nr - 1 - i) && maxfilt1 n nc (fun c' => m (nr - 1 - j) c') c)
  || (Nat.eqb c (nc - 1 - i) && maxfilt1 n nr (fun r' => m r' (nc - 1 - j)) r).

Lemma in_edge n i j : In (i, j) (edge_pairs n) <-> i < n /\ j < i + n + 1.
Proof.
  unfold edge_pairs; rewrite in_flat_map; split.
  - intros (x & Hx & H). apply in_rev in Hx. apply in_seq in Hx.
    apply in_map_iff in H. destruct H as (y & [= <- <-] & Hy).
    apply in_rev in Hy. apply in_seq in Hy. lia.
  - intros [H1 H2]. exists i. split; [apply -> in_rev; apply in_seq; lia|].
    apply in_map. apply -> in_rev. apply in_seq. lia.
Qed.

Lemma edge_step_ok n nr nc m d ij :
  2 * n <= nr -> 2 * n <= nc -> In ij (edge_pairs n) ->
  exists d', edge_step n nr nc m d ij = Some d' /\
    forall r c, d' r c = d r c || edge_contrib n nr nc m ij r c.
Proof.
  intros Hr Hc Hin; destruct ij as [i j]; apply in_edge in Hin; destruct Hin as [Hi Hj].
  unfold edge_step.
  replace ((Nat.ltb i nr && Nat.ltb j nr) && (Nat.ltb i nc && Nat.ltb j nc)) with true by lia.
  eexists; split; [reflexivity|]. intros r c; unfold edge_contrib.
  set (a := maxfilt1 n nc _ c). set (b := maxfilt1 n nr _ r).
  set (a' := maxfilt1 n nc _ c). set (b' := maxfilt1 n nr _ r).
  destruct (Nat.eqb r i), (Nat.eqb c i), (Nat.eqb r (nr - 1 - i)), (Nat.eqb c (nc - 1 - i));
    cbn [andb]; rewrite ?orb_false_r, ?orb_false_l, ?orb_assoc; reflexivity.
Qed.

Lemma dilate_small n nr nc m : 1 <= n -> nr < 2 * n \/ nc < 2 * n -> dilate n nr nc m = None.
Proof.
  intros H1 Hs; unfold dilate.
  destruct (foldM (interior_step n nr nc m) (box_pairs n) m) as [d|]; cbn [bind]; [|reflexivity].
  unfold edge_pairs. destruct n as [|k]; [lia|].
  rewrite seq_S, rev_app_distr; cbn [rev app flat_map plus].
  replace (k + S k + 1) with (S (k + S k)) by lia.
  rewrite seq_S, rev_app_distr; cbn [rev app map foldM plus].
  unfold edge_step at 1.
  replace ((Nat.ltb k nr && Nat.ltb (k + S k) nr) && (Nat.ltb k nc && Nat.ltb (k + S k) nc)) with false;
    [reflexivity|]. symmetry. destruct Hs; lia.
Qed.

Lemma near_self n r c : near n r c r c.
Proof. unfold near; lia. Qed.

Lemma dilate_ok n nr nc m : 1 <= n -> 2 * n <= nr -> 2 * n <= nc ->
  exists d, dilate n nr nc m = Some d /\
    forall r c, r < nr -> c < nc ->
      (d r c = true <-> near_any n nr nc (fun r' c' => m r' c' = true) r c).
Proof.
  intros H1 Hr Hc.
  destruct (foldM_total (interior_step n nr nc m) (box_pairs n) m) as [d1 E1].
  { intros x t Hx; destruct (interior_step_ok n nr nc m t x H1 Hr Hc Hx) as (d' & E & _); eauto. }
  destruct (foldM_total (edge_step n nr nc m) (edge_pairs n) d1) as [d2 E2].
  { intros x t Hx; destruct (edge_step_ok n nr nc m t x Hr Hc Hx) as (d' & E & _); eauto. }
  exists d2; unfold dilate; rewrite E1; cbn [bind]; split; [exact E2|].
  assert (P1 : forall r c, True -> d1 r c = m r c ||
             existsb (fun x => interior_contrib n nr nc m x r c) (box_pairs n)).
  { apply (foldM_or (interior_step n nr nc m) (interior_contrib n nr nc m) (fun _ _ => True) _ _ _);
      [|exact E1].
    intros x t t' Hx E r c _. destruct (interior_step_ok n nr nc m t x H1 Hr Hc Hx) as (d' & E' & H).
    rewrite E in E'; injection E' as ->; apply H. }
  assert (P2 : forall r c, True -> d2 r c = d1 r c ||
             existsb (fun x => edge_contrib n nr nc m x r c) (edge_pairs n)).
  { apply (foldM_or (edge_step n nr nc m) (edge_contrib n nr nc m) (fun _ _ => True) _ _ _);
      [|exact E2].
    intros x t t' Hx E r c _. destruct (edge_step_ok n nr nc m t x Hr Hc Hx) as (d' & E' & H).
    rewrite E in E'; injection E' as ->; apply H. }
  intros r c Hrr Hcc. rewrite P2, P1 by exact I. rewrite !orb_true_iff, !existsb_exists. split.
  - intros [[Hm|(x & Hx & Hi)]|(x & Hx & He)].
    + exists r, c; split; [assumption|split; [assumption|split; [apply near_self|exact Hm]]].
    + destruct x as [i j]; apply in_box in Hx. unfold interior_contrib in Hi; cbn [fst snd] in Hi.
      apply andb_true_iff in Hi; destruct Hi as [Hi Hm].
      exists (r - n + i), (c - n + j). unfold near. repeat split; try lia; try exact Hm.
    + destruct x as [i j]; apply in_edge in Hx. unfold edge_contrib in He.
      rewrite !orb_true_iff, !andb_true_iff, !maxfilt1_spec, !Nat.eqb_eq in He by lia.
      destruct He as [[[H|H]|H]|H]; destruct H as (H2 & x' & H3 & H4 & H5 & H6).
      * exists j, x'; unfold near; repeat split; try lia; exact H6.
      * exists x', j; unfold near; repeat split; try lia; exact H6.
      * exists (nr - 1 - j), x'; unfold near; repeat split; try lia; exact H6.
      * exists x', (nc - 1 - j); unfold near; repeat split; try lia; exact H6.
  - intros (r' & c' & Hr' & Hc' & Hnear & Hm). unfold near in Hnear.
    destruct (Nat.ltb_spec r n) as [Hr0|Hr0].
    { right. exists (r, r'). split; [apply in_edge; lia|]. unfold edge_contrib.
      rewrite !orb_true_iff, !andb_true_iff, !maxfilt1_spec, !Nat.eqb_eq by lia.
      left; left; left. split; [reflexivity|]. exists c'; repeat split; try lia; exact Hm. }
    destruct (Nat.leb_spec (nr - n) r) as [Hr1|Hr1].
    { right. exists (nr - 1 - r, nr - 1 - r'). split; [apply in_edge; lia|]. unfold edge_contrib.
      rewrite !orb_true_iff, !andb_true_iff, !maxfilt1_spec, !Nat.eqb_eq by lia.
      left; right. split; [lia|]. exists c'; repeat split; try lia.
      replace (nr - 1 - (nr - 1 - r')) with r' by lia. exact Hm. }
    destruct (Nat.ltb_spec c n) as [Hc0|Hc0].
    { right. exists (c, c'). split; [apply in_edge; lia|]. unfold edge_contrib.
      rewrite !orb_true_iff, !andb_true_iff, !maxfilt1_spec, !Nat.eqb_eq by lia.
      left; left; right. split; [reflexivity|]. exists r'; repeat split; try lia; exact Hm. }
    destruct (Nat.leb_spec (nc - n) c) as [Hc1|Hc1].
    { right. exists (nc - 1 - c, nc - 1 - c'). split; [apply in_edge; lia|]. unfold edge_contrib.
      rewrite !orb_true_iff, !andb_true_iff, !maxfilt1_spec, !Nat.eqb_eq by lia.
      right. split; [lia|]. exists r'; repeat split; try lia.
      replace (nc - 1 - (nc - 1 - c')) with c' by lia. exact Hm. }
    left; right. exists (r' + n - r, c' + n - c). split; [apply in_box; lia|].
    unfold interior_contrib; cbn [fst snd].
    replace (r - n + (r' + n - r)) with r' by lia. replace (c - n + (c' + n - c)) with c' by lia.
    rewrite Hm. lia.
Qed.

Lemma near_any_ext n nr nc (m m' : nat -> nat -> Prop) r c :
  (forall r' c', r' < nr -> c' < nc -> (m r' c' <-> m' r' c')) ->
  near_any n nr nc m r c -> near_any n nr nc m' r c.
Proof. intros H (r' & c' & A & B & C & D). exists r', c'. repeat split; try tauto; try apply C.
  apply H; assumption. Qed.

(** The growing step on DQ words: only the grown bit changes, and exactly as specified. *)
Lemma adjacent_ok n nr nc k gdq g' :
  1 <= n -> adjacent_pixels n nr nc (bit k) gdq = Some g' ->
  forall r c, r < nr -> c < nc ->
    (forall j, j <> k -> N.testbit (g' r c) j = N.testbit (gdq r c) j) /\
    (N.testbit (g' r c) k = true <->
     near_any n nr nc (fun r' c' => N.testbit (gdq r' c') k = true) r c).
Proof.
  intros H1 E r c Hr Hc. unfold adjacent_pixels in E.
  set (m := fun r c => has (gdq r c) (bit k)) in *.
  destruct (le_lt_dec (2 * n) nr) as [Hnr|Hnr];
    [|rewrite dilate_small in E by lia; discriminate].
  destruct (le_lt_dec (2 * n) nc) as [Hnc|Hnc];
    [|rewrite dilate_small in E by lia; discriminate].
  destruct (dilate_ok n nr nc m H1 Hnr Hnc) as (d & Ed & Hd).
  rewrite Ed in E; cbn [bind] in E; injection E as <-.
  specialize (Hd r c Hr Hc). split.
  - intros j Hj. destruct (d r c); [|reflexivity].
    rewrite N.lor_spec, bit_testbit. destruct (N.eqb_spec k j); [congruence|apply orb_false_r].
  - assert (X : (if d r c then N.lor (gdq r c) (bit k) else gdq r c) =
                N.lor (gdq r c) (flag_if (d r c) (bit k)))
      by (destruct (d r c); cbn [flag_if]; [reflexivity|rewrite N.lor_0_r; reflexivity]).
    rewrite X, N.lor_spec, flag_if_testbit, bit_testbit, N.eqb_refl, andb_true_r, orb_true_iff, Hd.
    unfold m. split.
    + intros [H|H]; [exists r, c; split; [assumption|split; [assumption|split; [apply near_self|assumption]]]|].
      revert H; apply near_any_ext; intros; rewrite has_bit; reflexivity.
    + intro H; right. revert H; apply near_any_ext; intros; rewrite has_bit; reflexivity.
Qed.

Lemma near_any_0 nr nc m r c : r < nr -> c < nc -> (near_any 0 nr nc m r c <-> m r c).
Proof. intros Hr Hc; split.
  - intros (r' & c' & _ & _ & Hn & H). unfold near in Hn.
    replace r with r' by lia. replace c with c' by lia. exact H.
  - intro H; exists r, c; repeat split; try lia; exact H. Qed.

Lemma grow_ok n nr nc k gdq g' :
  grow n nr nc (bit k) gdq = Some g' ->
  forall r c, r < nr -> c < nc ->
    (forall j, j <> k -> N.testbit (g' r c) j = N.testbit (gdq r c) j) /\
    (N.testbit (g' r c) k = true <->
     near_any n nr nc (fun r' c' => N.testbit (gdq r' c') k = true) r c).
Proof.
  unfold grow. destruct (Nat.ltb_spec 0 n) as [H|H].
  - intro E; apply adjacent_ok; [lia|exact E].
  - intros [= <-] r c Hr Hc. replace n with 0 by lia. split; [reflexivity|].
    rewrite near_any_0 by assumption; reflexivity.
Qed.

Lemma grow_total n nr nc k gdq : 2 * n <= nr -> 2 * n <= nc ->
  exists g', grow n nr nc (bit k) gdq = Some g'.
Proof.
  intros Hr Hc; unfold grow. destruct (Nat.ltb_spec 0 n) as [H|H]; [|eexists; reflexivity].
  unfold adjacent_pixels.
  destruct (dilate_ok n nr nc (fun r c => has (gdq r c) (bit k)) ltac:(lia) Hr Hc) as (d & -> & _).
  cbn [bind]; eexists; reflexivity.
Qed.

Section Integs.
Context (fo : FOps) (fmean : list fo -> fo) (fl : sat_flags) (inp : sat_in fo).
Lemma integs_nth l outs i d : integs fo fmean fl inp l = Some outs -> i < length l ->
  exists x, nth_error outs i = Some x /\ integ fo fmean fl inp (nth i l d) = Some x.
Proof.
  revert outs i; induction l as [|a l IH]; intros outs i E Hi; cbn [length] in Hi; [lia|].
  cbn [integs] in E. apply bind_Some in E; destruct E as (x & Ex & E).
  apply bind_Some in E; destruct E as (xs & Exs & [= <-]).
  destruct i as [|i]; cbn [nth nth_error]; [exists x; auto|]. apply (IH xs i Exs). lia.
Qed.

Lemma integs_length l outs : integs fo fmean fl inp l = Some outs -> length outs = length l.
Proof. revert outs; induction l as [|a l IH]; cbn [integs]; intros outs E; [injection E as <-; reflexivity|].
  apply bind_Some in E; destruct E as (x & Ex & E).
  apply bind_Some in E; destruct E as (xs & Exs & [= <-]). cbn [length]. rewrite (IH xs); auto. Qed.

Lemma flagged_integ out i : flag_saturated_pixels fo fmean fl inp = Some out -> i < s_nints fo inp ->
  exists x, integ fo fmean fl inp i = Some x /\ nth_error (o_gdq fo out) i = Some (fst x).
Proof.
  intros E Hi. unfold flag_saturated_pixels in E. apply bind_Some in E.
  destruct E as (outs & E & [= <-]). cbn [o_gdq].
  destruct (integs_nth _ _ i 0 E) as (x & E1 & E2); [rewrite seq_length; exact Hi|].
  rewrite seq_nth in E2 by exact Hi. exists x. split; [exact E2|].
  apply map_nth_error; exact E1.
Qed.

End Integs.

(** ** The passes over one integration *)
Section Passes.
Context (fo : FOps) (fmean : list fo -> fo).
Variables (kd ks ka kn : N).
Hypothesis Hds : kd <> ks.
Hypothesis Has : ka <> ks.
Hypothesis Hda : kd <> ka.
Let fl := {| f_dnu := bit kd; f_sat := bit ks; f_adf := bit ka; f_nsc := bit kn |}.
Variable inp : sat_in fo.
Let nr := s_nrows fo inp.
Let nc := s_ncols fo inp.
Let n := s_grow fo inp.

(** a sample of group g' <= g reaches the effective threshold *)
Let reached (i g : nat) (r c : nat) : Prop :=
  exists g', g' <= g /\ fge fo (s_data fo inp i g' r c) (thr' fo fl inp i g' r c) = true.
Let nonpos (i g r c : nat) : Prop := fle fo (s_data fo inp i g r c) (fzero fo) = true.

Let seed (i g r c : nat) : Prop := N.testbit (s_gdq fo inp i g r c) ks = true \/ reached i g r c.

Definition fwd_group_spec (i g : nat) (w : img N) : Prop :=
  forall r c, r < nr -> c < nc ->
    (forall j, j <> ks -> j <> kd -> j <> ka ->
       N.testbit (w r c) j = N.testbit (s_gdq fo inp i g r c) j) /\
    (N.testbit (w r c) ks = true <-> near_any n nr nc (seed i g) r c) /\
    (N.testbit (w r c) kd = true <-> N.testbit (s_gdq fo inp i g r c) kd = true \/ nonpos i g r c) /\
    (N.testbit (w r c) ka = true <-> N.testbit (s_gdq fo inp i g r c) ka = true \/ nonpos i g r c).

Let fwd_inv (i : nat) (g : nat) (st : img bool * (nat -> img N)) : Prop :=
  (forall r c, fst st r c = true <-> exists g', g' < g /\
       fge fo (s_data fo inp i g' r c) (thr' fo fl inp i g' r c) = true) /\
  (forall g', g' < g -> fwd_group_spec i g' (snd st g')) /\
  (forall g', g <= g' -> snd st g' = s_gdq fo inp i g').

Lemma forward_group_inv i g st st' :
  fwd_inv i g st -> forward_group fo fl inp i st g = Some st' -> fwd_inv i (g + 1) st'.
Proof.
  intros (I1 & I2 & I3) E. destruct st as [prev gdq]; cbn [fst snd] in *.
  unfold forward_group in E. cbn [f_sat f_dnu f_adf fl] in E.
  apply bind_Some in E. destruct E as (g3 & E & Est). injection Est as <-.
  unfold fwd_inv; cbn [fst snd].
  assert (P1 : forall r c, (prev r c || fge fo (s_data fo inp i g r c) (thr' fo fl inp i g r c)) = true
      <-> exists g', g' < g + 1 /\ fge fo (s_data fo inp i g' r c) (thr' fo fl inp i g' r c) = true).
  { intros r c. rewrite orb_true_iff, I1. split.
    - intros [(g' & H1 & H2)|H]; [exists g'; split; [lia|exact H2]|exists g; split; [lia|exact H]].
    - intros (g' & H1 & H2). destruct (Nat.eq_dec g' g) as [->|]; [right; exact H2|].
      left; exists g'; split; [lia|exact H2]. }
  split; [exact P1|]. split.
  2:{ intros g' Hg'. rewrite upd_other by lia. apply I3; lia. }
  intros g' Hg'. destruct (Nat.eq_dec g' g) as [->|]; [|rewrite upd_other by lia; apply I2; lia].
  rewrite upd_same. intros r c Hr Hc.
  fold nr nc n in E.
  destruct (grow_ok _ _ _ _ _ _ E r c Hr Hc) as [G1 G2].
  assert (Hg : gdq g = s_gdq fo inp i g) by (apply I3; lia).
  repeat split.
  - intros j Hj1 Hj2 Hj3. rewrite G1 by assumption.
    rewrite !N.lor_spec, !flag_if_testbit, !N.lor_spec, !bit_testbit, Hg.
    destruct (N.eqb_spec ks j); [congruence|]. destruct (N.eqb_spec ka j); [congruence|].
    destruct (N.eqb_spec kd j); [congruence|]. rewrite !andb_false_r, !orb_false_r; reflexivity.
  - rewrite G2. apply near_any_ext; intros r' c' Hr' Hc'.
    rewrite !N.lor_spec, !flag_if_testbit, !N.lor_spec, !bit_testbit, Hg, N.eqb_refl.
    destruct (N.eqb_spec ka ks); [congruence|]. destruct (N.eqb_spec kd ks); [congruence|].
    rewrite !andb_false_r, !orb_false_r, andb_true_r, orb_true_iff, P1. unfold seed, reached.
    split; (intros [H|(g' & H)]; [left; exact H|right; exists g'; split; [lia|tauto]]).
  - rewrite G2. apply near_any_ext; intros r' c' Hr' Hc'.
    rewrite !N.lor_spec, !flag_if_testbit, !N.lor_spec, !bit_testbit, Hg, N.eqb_refl.
    destruct (N.eqb_spec ka ks); [congruence|]. destruct (N.eqb_spec kd ks); [congruence|].
    rewrite !andb_false_r, !orb_false_r, andb_true_r, orb_true_iff, P1. unfold seed, reached.
    split; (intros [H|(g' & H)]; [left; exact H|right; exists g'; split; [lia|tauto]]).
  - rewrite G1 by assumption.
    rewrite !N.lor_spec, !flag_if_testbit, !N.lor_spec, !bit_testbit, Hg, N.eqb_refl.
    destruct (N.eqb_spec ks kd); [congruence|]. destruct (N.eqb_spec ka kd); [congruence|].
    rewrite andb_false_r, orb_false_r, andb_true_r, orb_true_iff. exact (fun H => H).
  - rewrite G1 by assumption.
    rewrite !N.lor_spec, !flag_if_testbit, !N.lor_spec, !bit_testbit, Hg, N.eqb_refl.
    destruct (N.eqb_spec ks kd); [congruence|]. destruct (N.eqb_spec ka kd); [congruence|].
    rewrite andb_false_r, orb_false_r, andb_true_r, orb_true_iff. exact (fun H => H).
  - rewrite G1 by assumption.
    rewrite !N.lor_spec, !flag_if_testbit, !N.lor_spec, !bit_testbit, Hg, N.eqb_refl.
    destruct (N.eqb_spec ks ka); [congruence|]. destruct (N.eqb_spec kd ka); [congruence|].
    rewrite andb_false_r, orb_false_r, orb_false_r, andb_true_r, orb_true_iff. exact (fun H => H).
  - rewrite G1 by assumption.
    rewrite !N.lor_spec, !flag_if_testbit, !N.lor_spec, !bit_testbit, Hg, N.eqb_refl.
    destruct (N.eqb_spec ks ka); [congruence|]. destruct (N.eqb_spec kd ka); [congruence|].
    rewrite andb_false_r, orb_false_r, orb_false_r, andb_true_r, orb_true_iff. exact (fun H => H).
Qed.

Lemma forward_pass_ok i g1 : forward_pass fo fl inp i = Some g1 ->
  forall g, g < s_ngroups fo inp -> fwd_group_spec i g (g1 g).
Proof.
  unfold forward_pass. intro E. apply bind_Some in E. destruct E as (st & E & [= <-]).
  assert (I : fwd_inv i (0 + s_ngroups fo inp) st).
  { revert E; apply foldM_seq_inv.
    - repeat split; cbn [fst snd]; try discriminate; try lia.
      intros (g' & H & _); lia.
    - intros j t t' _; apply forward_group_inv. }
  destruct I as (_ & I & _). exact I.
Qed.

Lemma forward_total i : 2 * n <= nr -> 2 * n <= nc -> exists g1, forward_pass fo fl inp i = Some g1.
Proof.
  intros Hr Hc. unfold forward_pass.
  destruct (foldM_total (forward_group fo fl inp i) (seq 0 (s_ngroups fo inp))
             (fun _ _ => false, s_gdq fo inp i)) as [st ->]; [|eexists; reflexivity].
  intros g [prev gdq] _. unfold forward_group. cbn [f_sat fl].
  edestruct (grow_total n nr nc ks) as [g' E]; [exact Hr|exact Hc|].
  fold n nr nc. rewrite E. eexists; reflexivity.
Qed.

(** *** Backward pass *)
Let dil (rp : list (list fo)) (g : nat) : fo :=
  let reads := nth g rp [] in fdiv fo (fmean reads) (last reads (fzero fo)).

(** candidate of the partial-saturation pass, in terms of the words before the pass *)
Let cand (i : nat) (rp : list (list fo)) (g1 : nat -> img N) (g r c : nat) : Prop :=
  feq fo (dil rp g) (fone fo) = false /\
  fge fo (s_data fo inp i g r c)
      (fmul fo (thr' fo fl inp i g r c)
         (if no_check fo fl inp i g r c then fone fo else dil rp g)) = true /\
  N.testbit (g1 g r c) ks = false /\ N.testbit (g1 g r c) kd = false /\
  N.testbit (g1 (g + 1) r c) ks = true.

Definition bwd_group_spec (i : nat) rp (g1 : nat -> img N) (g : nat) (w : img N) : Prop :=
  forall r c, r < nr -> c < nc ->
    (forall j, j <> kd -> N.testbit (w r c) j = N.testbit (g1 g r c) j) /\
    (N.testbit (w r c) kd = true <->
     N.testbit (g1 g r c) kd = true \/
     (g + 1 < s_ngroups fo inp /\ near_any n nr nc (cand i rp g1 g) r c)).

Lemma flag_if_has2 w : has w (N.lor (bit ks) (bit kd)) = N.testbit w ks || N.testbit w kd.
Proof.
  rewrite <- !has_bit. unfold has. rewrite N.land_lor_distr_r.
  destruct (N.eqb_spec (N.land w (bit ks)) 0) as [->|H1].
  - rewrite N.lor_0_l; reflexivity.
  - cbn [negb orb]. destruct (N.eqb_spec (N.lor (N.land w (bit ks)) (N.land w (bit kd))) 0) as [E|E];
      [|reflexivity]. apply N.lor_eq_0_iff in E; tauto.
Qed.

Lemma backward_group_step i rp g1 gdq g gdq' :
  (gdq g = g1 g) ->
  (forall r c, r < nr -> c < nc -> N.testbit (gdq (g + 1) r c) ks = N.testbit (g1 (g + 1) r c) ks) ->
  g + 1 < s_ngroups fo inp ->
  backward_group fo fmean fl inp i rp gdq g = Some gdq' ->
  bwd_group_spec i rp g1 g (gdq' g) /\ (forall h, h <> g -> gdq' h = gdq h).
Proof.
  intros Hg Hn Hlt E. unfold backward_group in E.
  destruct (nth_error rp g) as [reads|] eqn:Erp; [|discriminate].
  destruct reads as [|x reads]; [discriminate|].
  assert (Hd : dil rp g = fdiv fo (fmean (x :: reads)) (last (x :: reads) (fzero fo)))
    by (unfold dil; rewrite (nth_error_nth _ _ _ Erp); reflexivity).
  cbv zeta in E. fold fl in E. rewrite <- Hd in E.
  destruct (feq fo (dil rp g) (fone fo)) eqn:Ef.
  - injection E as <-. split; [|reflexivity].
    intros r c Hr Hc. split; [intros j _; rewrite Hg; reflexivity|].
    rewrite Hg. split; [tauto|]. intros [H|(_ & r' & c' & _ & _ & _ & H & _)]; [exact H|congruence].
  - apply bind_Some in E. destruct E as (fa & E & [= <-]).
    split; [|intros h Hh; apply upd_other; exact Hh].
    intros r c Hr Hc. rewrite upd_same. cbn [f_dnu f_sat fl] in E. fold n nr nc in E.
    destruct (grow_ok _ _ _ _ _ _ E r c Hr Hc) as [G1 G2]. split.
    + intros j Hj. rewrite N.lor_spec, G1, flag_if_testbit, bit_testbit by assumption.
      destruct (N.eqb_spec kd j); [congruence|]. rewrite andb_false_r, orb_false_r, Hg; reflexivity.
    + assert (Hgrc : gdq g r c = g1 g r c) by (rewrite Hg; reflexivity).
      rewrite N.lor_spec, orb_true_iff, G2, Hgrc.
      assert (X : forall r' c', r' < nr -> c' < nc ->
        (N.testbit (flag_if
           (fge fo (s_data fo inp i g r' c') (fmul fo (thr' fo fl inp i g r' c')
               (if no_check fo fl inp i g r' c' then fone fo else dil rp g))
            && negb (has (gdq g r' c') (N.lor (bit ks) (bit kd)))
            && has (gdq (g + 1) r' c') (bit ks)) (bit kd)) kd = true <-> cand i rp g1 g r' c')).
      { intros r' c' Hr' Hc'.
        rewrite flag_if_testbit, bit_testbit, N.eqb_refl, andb_true_r, !andb_true_iff,
          negb_true_iff, flag_if_has2, has_bit, Hn, Hg, orb_false_iff by assumption.
        unfold cand. tauto. }
      split.
      * intros [H|H]; [left; exact H|right; split; [exact Hlt|]].
        revert H; apply near_any_ext; exact X.
      * intros [H|(_ & H)]; [left; exact H|right].
        revert H; apply near_any_ext; intros; symmetry; apply X; assumption.
Qed.

Lemma backward_pass_none i gdq gdq' : s_rp fo inp = None ->
  backward_pass fo fmean fl inp i gdq = Some gdq' -> gdq' = gdq.
Proof. intro H; unfold backward_pass; rewrite H; congruence. Qed.

Lemma backward_pass_ok i rp gdq gdq' : s_rp fo inp = Some rp ->
  backward_pass fo fmean fl inp i gdq = Some gdq' ->
  forall g, g < s_ngroups fo inp -> bwd_group_spec i rp gdq g (gdq' g).
Proof.
  intros H E g Hg. unfold backward_pass in E; rewrite H in E.
  destruct (s_ngroups fo inp) as [|ng] eqn:Eng; [lia|].
  cbn [Nat.sub] in E. rewrite Nat.sub_0_r in E.
  (* groups >= ng: only the last one matters; it is untouched *)
  assert (J : forall lo t t', lo <= ng ->
     (forall h, lo <= h < S ng -> bwd_group_spec i rp gdq h (t h)) ->
     (forall h, h < lo -> t h = gdq h) ->
     foldM (backward_group fo fmean fl inp i rp) (rev (seq 0 lo)) t = Some t' ->
     forall h, h < S ng -> bwd_group_spec i rp gdq h (t' h)).
  { induction lo as [|lo IH]; intros t t' Hlo I1 I2.
    - cbn [seq rev foldM]. intros [= <-] h Hh; apply I1; lia.
    - rewrite seq_S, rev_app_distr; cbn [rev app plus foldM].
      destruct (backward_group fo fmean fl inp i rp t lo) as [u|] eqn:Eu; [|discriminate].
      apply IH; [lia| |].
      + destruct (backward_group_step i rp gdq t lo u) as [S1 S2];
          [apply I2; lia| |lia|exact Eu|].
        * intros r c Hr Hc. specialize (I1 (lo + 1) ltac:(lia) r c Hr Hc). apply I1. congruence.
        * intros h Hh. destruct (Nat.eq_dec h lo) as [->|]; [exact S1|].
          rewrite S2 by lia. apply I1; lia.
      + destruct (backward_group_step i rp gdq t lo u) as [S1 S2];
          [apply I2; lia| |lia|exact Eu|].
        * intros r c Hr Hc. specialize (I1 (lo + 1) ltac:(lia) r c Hr Hc). apply I1. congruence.
        * intros h Hh. rewrite S2 by lia. apply I2; lia. }
  apply (J ng gdq gdq' (le_n ng)); [|reflexivity|exact E|exact Hg].
  intros h Hh r c Hr Hc. assert (h = ng) by lia. subst h. split; [reflexivity|].
  rewrite Eng. split; [tauto|]. intros [K|(K & _)]; [exact K|lia].
Qed.

(** *** Second-group pass *)
Let cand2 (i : nat) (rp : list (list fo)) (g1 : nat -> img N) (r c : nat) : Prop :=
  let d0 := s_data fo inp i 0 r c in let d1 := s_data fo inp i 1 r c in
  let b := s_bias fo inp i r c in let t := thr' fo fl inp i 0 r c in
  flt fo (fadd fo (fmul fo (fdiv fo (fsub fo d0 b) (fmean (nth 0 rp [])))
                           (last (nth 2 rp []) (fzero fo))) b) t = true /\
  fgt fo (fsub fo d1 d0)
      (fdiv fo (fsub fo t d0) (fofZ fo (Z.of_nat (length (nth 1 rp []))))) = true /\
  N.testbit (g1 2 r c) ks = true /\ N.testbit (g1 1 r c) ks = false.

Lemma group2_pass_ok i rp g1 g2 : s_rp fo inp = Some rp ->
  group2_pass fo fmean fl inp i g1 = Some g2 ->
  forall g r c, 
    (forall j, j <> kd -> N.testbit (g2 g r c) j = N.testbit (g1 g r c) j) /\
    (N.testbit (g2 g r c) kd = true <->
     N.testbit (g1 g r c) kd = true \/
     (2 < s_ngroups fo inp /\ g = 1 /\ cand2 i rp g1 r c)).
Proof.
  intros H E g r c. unfold group2_pass in E; rewrite H in E.
  destruct (Nat.ltb_spec 2 (s_ngroups fo inp)) as [Hng|Hng].
  2:{ injection E as <-. split; [reflexivity|]. split; [tauto|]. intros [K|K]; [exact K|lia]. }
  destruct (nth_error rp 0) as [r0|] eqn:E0; [|discriminate].
  destruct (nth_error rp 1) as [r1|] eqn:E1; [|discriminate].
  destruct (nth_error rp 2) as [r2|] eqn:E2; [|discriminate].
  destruct r2 as [|x r2]; [discriminate|]. injection E as <-.
  destruct (Nat.eq_dec g 1) as [->|Hg].
  - rewrite upd_same. split.
    + intros j Hj. rewrite N.lor_spec, flag_if_testbit. cbn [f_dnu fl]. rewrite bit_testbit.
      destruct (N.eqb_spec kd j); [congruence|]. rewrite andb_false_r, orb_false_r; reflexivity.
    + rewrite N.lor_spec, flag_if_testbit. cbn [f_dnu f_sat fl].
      rewrite bit_testbit, N.eqb_refl, andb_true_r, orb_true_iff, !andb_true_iff, negb_true_iff, !has_bit.
      unfold cand2.
      rewrite (nth_error_nth rp 0 [] E0), (nth_error_nth rp 1 [] E1), (nth_error_nth rp 2 [] E2). tauto.
  - rewrite upd_other by exact Hg. split; [reflexivity|]. split; [tauto|]. intros [K|K]; [exact K|lia].
Qed.

Lemma group2_pass_none i gdq gdq' : s_rp fo inp = None ->
  group2_pass fo fmean fl inp i gdq = Some gdq' -> gdq' = gdq.
Proof. intro H; unfold group2_pass; rewrite H; congruence. Qed.

(** *** Summary for one integration *)
Lemma integ_bits i x : integ fo fmean fl inp i = Some x ->
  forall g r c, g < s_ngroups fo inp -> r < nr -> c < nc ->
    (forall j, j <> ks -> j <> kd -> j <> ka ->
       N.testbit (fst x g r c) j = N.testbit (s_gdq fo inp i g r c) j) /\
    (N.testbit (fst x g r c) ks = true <-> near_any n nr nc (seed i g) r c) /\
    (N.testbit (fst x g r c) ka = true <->
       N.testbit (s_gdq fo inp i g r c) ka = true \/ nonpos i g r c) /\
    (s_rp fo inp = None ->
     (N.testbit (fst x g r c) kd = true <->
       N.testbit (s_gdq fo inp i g r c) kd = true \/ nonpos i g r c)) /\
    (forall rp, s_rp fo inp = Some rp -> exists g1 : nat -> img N,
      (forall g, g < s_ngroups fo inp -> fwd_group_spec i g (g1 g)) /\
      (N.testbit (fst x g r c) kd = true <->
       N.testbit (s_gdq fo inp i g r c) kd = true \/ nonpos i g r c \/
       (g + 1 < s_ngroups fo inp /\ near_any n nr nc (cand i rp g1 g) r c) \/
       (2 < s_ngroups fo inp /\ g = 1 /\ cand2 i rp g1 r c))).
Proof.
  intros E g r c Hg Hr Hc. unfold integ in E.
  apply bind_Some in E; destruct E as (g1 & E1 & E).
  apply bind_Some in E; destruct E as (g2 & E2 & E).
  apply bind_Some in E; destruct E as (g3 & E3 & E).
  assert (Ex : fst x = g3).
  { destruct (s_zframe fo inp); [apply bind_Some in E; destruct E as (z & _ & [= <-])|injection E as <-];
      reflexivity. }
  rewrite Ex. clear E Ex x.
  pose proof (forward_pass_ok i g1 E1) as F. 
  destruct (s_rp fo inp) as [rp|] eqn:Erp.
  2:{ apply backward_pass_none in E2; [|exact Erp]. apply group2_pass_none in E3; [|exact Erp].
      subst g3 g2. destruct (F g Hg r c Hr Hc) as (F1 & F2 & F3 & F4).
      repeat split; try tauto; try discriminate; try (apply F1); try (apply F2); try apply F3; try apply F4. }
  pose proof (backward_pass_ok i rp g1 g2 Erp E2) as B.
  pose proof (group2_pass_ok i rp g2 g3 Erp E3) as G.
  destruct (F g Hg r c Hr Hc) as (F1 & F2 & F3 & F4).
  destruct (B g Hg r c Hr Hc) as (B1 & B2).
  destruct (G g r c) as (G1 & G2).
  split; [|split; [|split; [|split]]].
  - intros j J1 J2 J3. rewrite G1, B1, F1 by assumption; reflexivity.
  - rewrite G1, B1, F2 by congruence; reflexivity.
  - rewrite G1, B1, F4 by congruence; reflexivity.
  - discriminate.
  - intros rp' [= <-]. exists g1. split; [exact F|].
    rewrite G2, B2, F3.
    assert (C2 : 2 < s_ngroups fo inp -> (cand2 i rp g2 r c <-> cand2 i rp g1 r c)).
    { intro H2. unfold cand2.
      destruct (B 1 ltac:(lia) r c Hr Hc) as (B11 & _).
      destruct (B 2 ltac:(lia) r c Hr Hc) as (B21 & _).
      rewrite B11, B21 by congruence. reflexivity. }
    tauto.
Qed.
End Passes.

Section Totality.
Context (fo : FOps) (fmean : list fo -> fo) (kd ks ka kn : N).
Let fl := {| f_dnu := bit kd; f_sat := bit ks; f_adf := bit ka; f_nsc := bit kn |}.
Variable inp : sat_in fo.
Hypothesis Hr : 2 * s_grow fo inp <= s_nrows fo inp.
Hypothesis Hc : 2 * s_grow fo inp <= s_ncols fo inp.
Hypothesis Hrp : forall rp, s_rp fo inp = Some rp ->
  forall g, g < s_ngroups fo inp -> nth g rp [] <> [].

Lemma nth_nonempty {A} (rp : list (list A)) g : nth g rp [] <> [] ->
  exists x l, nth_error rp g = Some (x :: l).
Proof. intro H. destruct (nth_error rp g) as [l|] eqn:E.
  - rewrite (nth_error_nth _ _ _ E) in H. destruct l as [|x l]; [congruence|eauto].
  - rewrite nth_overflow in H; [congruence|apply nth_error_None; exact E]. Qed.

Lemma integ_total i : exists x, integ fo fmean fl inp i = Some x.
Proof.
  unfold integ. destruct (forward_total fo kd ks ka kn inp i Hr Hc) as [g1 E1].
  fold fl in E1. rewrite E1; cbn [bind].
  assert (E2 : exists g2, backward_pass fo fmean fl inp i g1 = Some g2).
  { unfold backward_pass. destruct (s_rp fo inp) as [rp|]; [|eexists; reflexivity].
    apply foldM_total. intros g t Hg. apply in_rev, in_seq in Hg.
    destruct (nth_nonempty rp g (Hrp rp eq_refl g ltac:(lia))) as (x & l & E).
    unfold backward_group; rewrite E.
    destruct (feq _ _ _); [eexists; reflexivity|]. cbn [f_dnu fl].
    edestruct (grow_total (s_grow fo inp) (s_nrows fo inp) (s_ncols fo inp) kd) as [g' E'];
      [exact Hr|exact Hc|]. rewrite E'; eexists; reflexivity. }
  destruct E2 as [g2 ->]; cbn [bind].
  assert (E3 : exists g3, group2_pass fo fmean fl inp i g2 = Some g3).
  { unfold group2_pass. destruct (s_rp fo inp) as [rp|]; [|eexists; reflexivity].
    destruct (Nat.ltb_spec 2 (s_ngroups fo inp)) as [H2|]; [|eexists; reflexivity].
    destruct (nth_nonempty rp 0 (Hrp rp eq_refl 0 ltac:(lia))) as (x0 & l0 & ->).
    destruct (nth_nonempty rp 1 (Hrp rp eq_refl 1 ltac:(lia))) as (x1 & l1 & ->).
    destruct (nth_nonempty rp 2 (Hrp rp eq_refl 2 ltac:(lia))) as (x2 & l2 & ->).
    eexists; reflexivity. }
  destruct E3 as [g3 ->]; cbn [bind].
  destruct (s_zframe fo inp) as [zf|]; [|eexists; reflexivity].
  unfold zframe_pass. cbn [f_sat fl].
  edestruct (grow_total (s_grow fo inp) (s_nrows fo inp) (s_ncols fo inp) ks) as [g' E'];
    [exact Hr|exact Hc|]. rewrite E'; eexists; reflexivity.
Qed.

Lemma integs_total l : exists x, integs fo fmean fl inp l = Some x.
Proof. induction l as [|i l [xs IH]]; cbn [integs]; [eexists; reflexivity|].
  destruct (integ_total i) as [x ->]; cbn [bind]. rewrite IH; eexists; reflexivity. Qed.

Lemma flag_total : exists out, flag_saturated_pixels fo fmean fl inp = Some out /\
  length (o_gdq fo out) = s_nints fo inp.
Proof.
  unfold flag_saturated_pixels. destruct (integs_total (seq 0 (s_nints fo inp))) as [outs E].
  rewrite E; eexists; split; [reflexivity|]. cbn [o_gdq].
  rewrite map_length, (integs_length _ _ _ _ _ _ E), seq_length. reflexivity.
Qed.
End Totality.

(** ** The ZEROFRAME *)
Section ZFrame.
Context (fo : FOps) (kd ks ka kn : N).
Let fl := {| f_dnu := bit kd; f_sat := bit ks; f_adf := bit ka; f_nsc := bit kn |}.
Variable inp : sat_in fo.
Hypothesis Hds : kd <> ks.
Hypothesis Has : ka <> ks.

Lemma zframe_pass_ok i z z' : zframe_pass fo fl inp i z = Some z' ->
  forall r c, r < s_nrows fo inp -> c < s_ncols fo inp ->
   ((fle fo (z r c) (fzero fo) = true \/
     near_any (s_grow fo inp) (s_nrows fo inp) (s_ncols fo inp)
       (fun r' c' => fge fo (z r' c') (thr' fo fl inp i 0 r' c') = true) r c) ->
    z' r c = fzero fo) /\
   (~ (fle fo (z r c) (fzero fo) = true \/
     near_any (s_grow fo inp) (s_nrows fo inp) (s_ncols fo inp)
       (fun r' c' => fge fo (z r' c') (thr' fo fl inp i 0 r' c') = true) r c) ->
    z' r c = z r c).
Proof.
  intros E r c Hr Hc. unfold zframe_pass in E. apply bind_Some in E.
  destruct E as (zd & E & [= <-]). cbn [f_sat f_dnu f_adf fl] in E.
  destruct (grow_ok _ _ _ _ _ _ E r c Hr Hc) as [G1 G2].
  assert (X : forall r' c', N.testbit (N.lor
      (flag_if (fge fo (z r' c') (thr' fo fl inp i 0 r' c')) (bit ks))
      (flag_if (fle fo (z r' c') (fzero fo)) (N.lor (bit ka) (bit kd)))) ks = true
      <-> fge fo (z r' c') (thr' fo fl inp i 0 r' c') = true).
  { intros r' c'. rewrite N.lor_spec, !flag_if_testbit, N.lor_spec, !bit_testbit, N.eqb_refl.
    destruct (N.eqb_spec ka ks); [congruence|]. destruct (N.eqb_spec kd ks); [congruence|].
    cbn [orb]. rewrite andb_false_r, orb_false_r, andb_true_r. reflexivity. }
  assert (Y : (fle fo (z r c) (fzero fo) = true \/
     near_any (s_grow fo inp) (s_nrows fo inp) (s_ncols fo inp)
       (fun r' c' => fge fo (z r' c') (thr' fo fl inp i 0 r' c') = true) r c)
     <-> zd r c <> 0%N).
  { split.
    - intros [H|H] K.
      + assert (T : N.testbit (zd r c) kd = true).
        { rewrite G1 by exact Hds. rewrite N.lor_spec, !flag_if_testbit, N.lor_spec, !bit_testbit, H, N.eqb_refl.
          rewrite orb_true_r, andb_true_l, orb_true_r. reflexivity. }
        rewrite K, N.bits_0 in T; discriminate.
      + assert (T : N.testbit (zd r c) ks = true).
        { apply G2. revert H; apply near_any_ext; intros; symmetry; apply X. }
        rewrite K, N.bits_0 in T; discriminate.
    - intro K. destruct (fle fo (z r c) (fzero fo)) eqn:Ef; [left; reflexivity|right].
      destruct (N.testbit (zd r c) ks) eqn:Es.
      + generalize (proj1 G2 eq_refl); apply near_any_ext; intros; apply X.
      + exfalso; apply K, N.bits_inj; intro j. rewrite N.bits_0.
        destruct (N.eq_dec j ks) as [->|Hj]; [exact Es|]. rewrite G1 by exact Hj.
        rewrite N.lor_spec, !flag_if_testbit, bit_testbit, andb_false_l.
        destruct (N.eqb_spec ks j); [congruence|]. rewrite andb_false_r; reflexivity. }
  destruct (N.eqb_spec (zd r c) 0) as [K|K].
  - split; [intro H; apply Y in H; contradiction|reflexivity].
  - split; [reflexivity|]. intro H; exfalso; apply H, Y, K.
Qed.
End ZFrame.
