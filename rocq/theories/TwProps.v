(** C49, C50: reading the S3 catalogue, trimming by brightness *)
From Verif Require Import Base TwModel RBase.
From Coq Require Import Permutation Sorted Reals Lra.
Import ListNotations.
Local Open Scope N_scope.

(** ** Specification: the depth-29 indices of a cell *)
Definition inside (c : cell) (h : N) : Prop := snd c * 4 ^ N.of_nat (29 - fst c) <= h < (snd c + 1) * 4 ^ N.of_nat (29 - fst c).
(** the cell of depth d above index i of depth D *)
Definition above (D : nat) (i : N) (c : cell) : Prop := (fst c <= D)%nat /\ snd c = i / 4 ^ N.of_nat (D - fst c).

Lemma pow4 k : 2 ^ (2 * k) = 4 ^ k.
Proof. replace 4 with (2 ^ 2) by reflexivity. now rewrite <- N.pow_mul_r. Qed.
Lemma pow4_pos k : 0 < 4 ^ k. Proof. apply N.neq_0_lt_0, N.pow_nonzero. discriminate. Qed.
Lemma div_range h q p : 0 < q -> (h / q = p <-> p * q <= h < (p + 1) * q).
Proof.
  intros Hq. split.
  - intros <-. pose proof (N.div_mod h q ltac:(lia)). pose proof (N.mod_lt h q ltac:(lia)).
    set (a := h / q) in *. set (b := h mod q) in *. clearbody a b. subst h. rewrite N.mul_add_distr_r, (N.mul_comm a q). lia.
  - intros [H1 H2]. symmetry. apply (N.div_unique h q p (h - p * q)); lia.
Qed.
Lemma inside_div c h : inside c h <-> h / 4 ^ N.of_nat (29 - fst c) = snd c.
Proof. unfold inside. symmetry. apply div_range, pow4_pos. Qed.
Lemma cell_eqb_eq a b : cell_eqb a b = true <-> a = b.
Proof.
  destruct a as [d i], b as [e j]; unfold cell_eqb; cbn. rewrite Bool.andb_true_iff, Nat.eqb_eq, N.eqb_eq.
  split; [intros [-> ->]; reflexivity|intros E; inversion E; auto].
Qed.
Lemma mem_cell c l : existsb (cell_eqb c) l = true <-> In c l.
Proof.
  rewrite existsb_exists. split.
  - intros (x & Hx & E). apply cell_eqb_eq in E. now subst.
  - intros H. exists c. split; [assumption|now apply cell_eqb_eq].
Qed.
Lemma mem_cell_f c l : existsb (cell_eqb c) l = false <-> ~ In c l.
Proof. rewrite <- mem_cell. destruct existsb; intuition congruence. Qed.

(** ** C49: the ranges *)
Theorem C49_range d i h : let (lo, hi) := range29 d i in lo <= h < hi <-> inside (d, i) h.
Proof. unfold range29, inside; cbn [fst snd]. rewrite !N.shiftl_mul_pow2, pow4. reflexivity. Qed.
Print Assumptions C49_range.
Example C49_range_ex : range29 27 5 = (80, 96). Proof. reflexivity. Qed.

(** ** the walk *)
Lemma shr4 i : N.shiftr i 2 = i / 4.
Proof. rewrite N.shiftr_div_pow2. reflexivity. Qed.
Lemma div_div4 i k : i / 4 / 4 ^ N.of_nat k = i / 4 ^ N.of_nat (S k).
Proof.
  rewrite N.div_div by (try discriminate; apply N.pow_nonzero; discriminate). f_equal.
  rewrite Nat2N.inj_succ, N.pow_succ_r'. reflexivity.
Qed.
Lemma walk_spec cat mind fuel i :
  match walk cat mind fuel i with
  | Some c => In c cat /\ exists k, (k < fuel)%nat /\ fst c = (mind + (fuel - 1 - k))%nat /\ snd c = i / 4 ^ N.of_nat k /\
      forall k', (k' < k)%nat -> ~ In ((mind + (fuel - 1 - k'))%nat, i / 4 ^ N.of_nat k') cat
  | None => forall k, (k < fuel)%nat -> ~ In ((mind + (fuel - 1 - k))%nat, i / 4 ^ N.of_nat k) cat
  end.
Proof.
  revert i; induction fuel as [|f IH]; intros i; cbn [walk]; [intros k Hk; lia|].
  destruct (existsb _ cat) eqn:E.
  - apply mem_cell in E. split; [assumption|]. exists O. cbn [fst snd]. rewrite N.pow_0_r, N.div_1_r.
    split; [lia|]. split; [lia|]. split; [reflexivity|]. intros k' Hk'; lia.
  - apply mem_cell_f in E. specialize (IH (N.shiftr i 2)). rewrite shr4 in *.
    destruct (walk cat mind f (i / 4)) as [c|].
    + destruct IH as (Hc & k & Hk & Hf & Hs & Hd). split; [assumption|]. exists (S k).
      split; [lia|]. split; [rewrite Hf; lia|]. split; [rewrite Hs; apply div_div4|].
      intros k' Hk'. destruct k' as [|k'].
      * rewrite N.pow_0_r, N.div_1_r. replace (mind + (S f - 1 - 0))%nat with (mind + f)%nat by lia. assumption.
      * rewrite <- div_div4. replace (mind + (S f - 1 - S k'))%nat with (mind + (f - 1 - k'))%nat by lia. apply Hd; lia.
    + intros k' Hk'. destruct k' as [|k'].
      * rewrite N.pow_0_r, N.div_1_r. replace (mind + (S f - 1 - 0))%nat with (mind + f)%nat by lia. assumption.
      * rewrite <- div_div4. replace (mind + (S f - 1 - S k'))%nat with (mind + (f - 1 - k'))%nat by lia. apply IH; lia.
Qed.

Lemma fold_min_le l : forall a, (fold_left Nat.min l a <= a)%nat /\ forall x, In x l -> (fold_left Nat.min l a <= x)%nat.
Proof.
  induction l as [|b l IH]; intros a; cbn; [split; [lia|intros x []]|].
  destruct (IH (Nat.min a b)) as [H1 H2]. split; [lia|]. intros x [<-|Hx]; [lia|auto].
Qed.
Lemma fold_min_in l : forall a, fold_left Nat.min l a = a \/ In (fold_left Nat.min l a) l.
Proof.
  induction l as [|b l IH]; intros a; cbn; [now left|].
  destruct (IH (Nat.min a b)) as [H|H]; [|right; now right]. rewrite H.
  destruct (Nat.min_spec a b) as [[_ ->]|[_ ->]]; [now left|right; now left].
Qed.
Lemma fold_max_ge l : forall a, (a <= fold_left Nat.max l a)%nat /\ forall x, In x l -> (x <= fold_left Nat.max l a)%nat.
Proof.
  induction l as [|b l IH]; intros a; cbn; [split; [lia|intros x []]|].
  destruct (IH (Nat.max a b)) as [H1 H2]. split; [lia|]. intros x [<-|Hx]; [lia|auto].
Qed.
Lemma fold_max_in l : forall a, fold_left Nat.max l a = a \/ In (fold_left Nat.max l a) l.
Proof.
  induction l as [|b l IH]; intros a; cbn; [now left|].
  destruct (IH (Nat.max a b)) as [H|H]; [|right; now right]. rewrite H.
  destruct (Nat.max_spec a b) as [[_ ->]|[_ ->]]; [right; now left|now left].
Qed.
Lemma min_depth_spec cat m : min_depth cat = Some m -> (forall c, In c cat -> (m <= fst c)%nat) /\ exists c, In c cat /\ fst c = m.
Proof.
  destruct cat as [|c r]; cbn [min_depth]; [discriminate|]. intros E. injection E as <-. split.
  - intros x [<-|Hx]; [exact (proj1 (fold_min_le _ _))|]. apply (proj2 (fold_min_le _ _)). now apply in_map.
  - destruct (fold_min_in (map fst r) (fst c)) as [->|H]; [exists c; split; [now left|reflexivity]|].
    apply in_map_iff in H as (x & Hx & Hin). exists x. split; [now right|assumption].
Qed.
Lemma max_depth_spec cat m : max_depth cat = Some m -> (forall c, In c cat -> (fst c <= m)%nat) /\ exists c, In c cat /\ fst c = m.
Proof.
  destruct cat as [|c r]; cbn [max_depth]; [discriminate|]. intros E. injection E as <-. split.
  - intros x [<-|Hx]; [exact (proj1 (fold_max_ge _ _))|]. apply (proj2 (fold_max_ge _ _)). now apply in_map.
  - destruct (fold_max_in (map fst r) (fst c)) as [->|H]; [exists c; split; [now left|reflexivity]|].
    apply in_map_iff in H as (x & Hx & Hin). exists x. split; [now right|assumption].
Qed.

Lemma set_add_in l c x : In x (set_add l c) <-> In x l \/ x = c.
Proof.
  unfold set_add. destruct existsb eqn:E.
  - apply mem_cell in E. split; [now left|]. intros [H| ->]; assumption.
  - rewrite in_app_iff. cbn. intuition.
Qed.
Lemma set_add_nodup l c : NoDup l -> NoDup (set_add l c).
Proof.
  intros H. unfold set_add. destruct existsb eqn:E; [assumption|]. apply mem_cell_f in E.
  apply (Permutation_NoDup (Permutation_cons_append l c)). now constructor.
Qed.
Lemma fold_found (w : N -> option cell) search : forall acc, NoDup acc ->
  let out := fold_left (fun acc i => match w i with Some c => set_add acc c | None => acc end) search acc in
  NoDup out /\ forall c, In c out <-> In c acc \/ exists i, In i search /\ w i = Some c.
Proof.
  induction search as [|i r IH]; intros acc Hn; cbn [fold_left].
  - split; [assumption|]. intros c. split; [now left|]. intros [H|(i & [] & _)]; assumption.
  - destruct (w i) as [c0|] eqn:E.
    + destruct (IH (set_add acc c0) (set_add_nodup _ _ Hn)) as [H1 H2]. split; [assumption|].
      intros c. rewrite H2, set_add_in. split.
      * intros [[H| ->]|(j & Hj & Ej)]; [now left|right; exists i; split; [now left|assumption]|right; exists j; split; [now right|assumption]].
      * intros [H|(j & [<-|Hj] & Ej)]; [left; now left|left; right; congruence|right; now exists j].
    + destruct (IH acc Hn) as [H1 H2]. split; [assumption|].
      intros c. rewrite H2. split.
      * intros [H|(j & Hj & Ej)]; [now left|right; exists j; split; [now right|assumption]].
      * intros [H|(j & [<-|Hj] & Ej)]; [now left|congruence|right; now exists j].
Qed.

(** ** C49: what the lookup selects — for every search cell the deepest catalogue cell above (or equal to) it, once, nothing else;
    an empty catalogue and a search coarser than the whole catalogue are refused *)
Theorem C49_lookup cat search D :
  match find_cells cat search D with
  | None => forall c, In c cat -> (D < fst c)%nat
  | Some cells => NoDup cells /\ forall c, In c cells <->
      In c cat /\ exists i, In i search /\ above D i c /\ forall c', In c' cat -> above D i c' -> (fst c' <= fst c)%nat
  end.
Proof.
  unfold find_cells. destruct (min_depth cat) as [m|] eqn:Em; cbn [bind].
  2: { destruct cat; [intros c []|discriminate]. }
  destruct (min_depth_spec _ _ Em) as [Hm [c0 [Hc0 Ec0]]].
  destruct (Nat.ltb_spec D m) as [Hlt|Hge].
  { intros c Hc. specialize (Hm c Hc). lia. }
  destruct (fold_found (walk cat m (S D - m)) search [] (NoDup_nil _)) as [H1 H2]. split; [exact H1|].
  intros c. rewrite H2. split.
  - intros [[]|(i & Hi & Ew)]. pose proof (walk_spec cat m (S D - m) i) as Hw. rewrite Ew in Hw.
    destruct Hw as (Hc & k & Hk & Hf & Hs & Hd). split; [assumption|]. exists i. split; [assumption|].
    assert (Hfc : fst c = (D - k)%nat) by lia. split.
    + split; [lia|]. rewrite Hs. do 2 f_equal. lia.
    + intros c' Hc' [Hle Hs']. destruct (Nat.le_gt_cases (fst c') (fst c)) as [|Hgt]; [assumption|exfalso].
      specialize (Hd (D - fst c')%nat ltac:(lia)). apply Hd. rewrite <- Hs'.
      replace (m + (S D - m - 1 - (D - fst c')))%nat with (fst c') by (specialize (Hm c' Hc'); lia).
      now rewrite <- surjective_pairing.
  - intros (Hc & i & Hi & [Hle Hs] & Hdeep). right. exists i. split; [assumption|].
    pose proof (walk_spec cat m (S D - m) i) as Hw. pose proof (Hm c Hc) as Hmc.
    assert (Hcw : c = ((m + (S D - m - 1 - (D - fst c)))%nat, i / 4 ^ N.of_nat (D - fst c))).
    { rewrite <- Hs. replace (m + (S D - m - 1 - (D - fst c)))%nat with (fst c) by lia. now rewrite <- surjective_pairing. }
    destruct (walk cat m (S D - m) i) as [w|].
    + destruct Hw as (Hw1 & k & Hk & Hf & Hsk & Hd). assert (Hfw : fst w = (D - k)%nat) by lia.
      assert (Haw : above D i w). { split; [lia|]. rewrite Hsk. do 2 f_equal. lia. }
      pose proof (Hdeep w Hw1 Haw) as Hwc.
      destruct (Nat.eq_dec k (D - fst c)) as [->|Hne].
      * f_equal. rewrite (surjective_pairing w), (surjective_pairing c). f_equal; [lia|congruence].
      * exfalso. apply (Hd (D - fst c)%nat); [lia|]. now rewrite <- Hcw.
    + exfalso. apply (Hw (D - fst c)%nat); [lia|]. now rewrite <- Hcw.
Qed.
Print Assumptions C49_lookup.
Example C49_lookup_ex : find_cells [(1%nat, 3); (2%nat, 17); (0%nat, 5)] [70; 60; 320; 71; 49; 0] 3 = Some [(2%nat, 17); (1%nat, 3); (0%nat, 5)].
Proof. vm_compute. reflexivity. Qed.

(** ** C49: the sources returned *)
Lemma inside_above c D i h : (fst c <= D <= 29)%nat -> inside (D, i) h -> (inside c h <-> above D i c).
Proof.
  intros Hd. rewrite !inside_div. cbn [fst snd]. intros <-. unfold above.
  rewrite N.div_div by (apply N.pow_nonzero; discriminate). rewrite <- N.pow_add_r, <- Nat2N.inj_add.
  replace (29 - D + (D - fst c))%nat with (29 - fst c)%nat by lia. split; [intros ->; split; [lia|reflexivity]|intros [_ ->]; reflexivity].
Qed.

Section Sources.
  Context {Row : Type} (idx : Row -> N) (file : cell -> list Row) (cone : nat -> list N) (near : Row -> bool).

  (** a row whose index lies in one of the cells of the cone search of depth D *)
  Definition covered (D : nat) (r : Row) : Prop := exists i, In i (cone D) /\ inside (D, i) (idx r).
  Lemma pass_covered D r : pass idx (map (range29 D) (cone D)) r = true <-> covered D r.
  Proof.
    unfold pass, covered. rewrite existsb_exists. split.
    - intros (lh & Hin & E). apply in_map_iff in Hin as (i & <- & Hi). exists i. split; [assumption|].
      pose proof (C49_range D i (idx r)) as H. destruct (range29 D i) as [lo hi]; cbn [fst snd] in E.
      apply H. rewrite Bool.andb_true_iff, N.leb_le, N.ltb_lt in E. exact E.
    - intros (i & Hi & E). exists (range29 D i). split; [now apply in_map|].
      pose proof (C49_range D i (idx r)) as H. destruct (range29 D i) as [lo hi]; cbn [fst snd].
      rewrite Bool.andb_true_iff, N.leb_le, N.ltb_lt. now apply H.
  Qed.

  Lemma perm_filter {A} (f : A -> bool) l l' : Permutation l l' -> Permutation (filter f l) (filter f l').
  Proof.
    induction 1 as [|x l l' _ IH|x y l|l l' l'' _ IH1 _ IH2]; cbn; [constructor| | |now transitivity (filter f l')].
    - destruct (f x); [now constructor|assumption].
    - destruct (f x), (f y); try reflexivity. constructor.
  Qed.
  Lemma filter_nil {A} (f : A -> bool) l : (forall x, In x l -> f x = false) -> filter f l = [].
  Proof. induction l as [|x l IH]; intros H; cbn; [reflexivity|]. rewrite (H x (or_introl eq_refl)). apply IH. intros y Hy. apply H. now right. Qed.
  (** files left out hold no row that passes *)
  Lemma select_files (p : Row -> bool) (sel all : list cell) : NoDup sel -> NoDup all -> incl sel all ->
    (forall c r, In c all -> In r (file c) -> p r = true -> In c sel) ->
    Permutation (filter p (flat_map file sel)) (filter p (flat_map file all)).
  Proof.
    intros Hs Ha Hi Hc. revert sel Hs Hi Hc. induction Ha as [|c all Hn Ha IH]; intros sel Hs Hi Hc.
    - destruct sel as [|x sel]; [reflexivity|]. destruct (Hi x (or_introl eq_refl)).
    - destruct (in_dec (fun a b => match Bool.bool_dec (cell_eqb a b) true with left e => left (proj1 (cell_eqb_eq a b) e) | right n => right (fun e => n (proj2 (cell_eqb_eq a b) e)) end) c sel) as [Hin|Hout].
      + apply in_split in Hin as (s1 & s2 & ->).
        assert (HP : Permutation (flat_map file (s1 ++ c :: s2)) (flat_map file (c :: s1 ++ s2))).
        { apply Permutation_flat_map. symmetry. apply Permutation_middle. }
        rewrite (perm_filter p _ _ HP). cbn [flat_map]. rewrite !filter_app. apply Permutation_app_head, IH.
        * now apply NoDup_remove_1 in Hs.
        * intros x Hx. destruct (Hi x) as [->|H]; [apply in_app_iff in Hx; apply in_app_iff; cbn; tauto| |assumption].
          exfalso. now apply NoDup_remove_2 in Hs.
        * intros d r Hd Hr Hp. specialize (Hc d r (or_intror Hd) Hr Hp). apply in_app_iff in Hc as [H|[->|H]]; [apply in_app_iff; tauto| |apply in_app_iff; tauto].
          contradiction.
      + cbn [flat_map]. rewrite filter_app, (filter_nil p (file c)); cbn [app].
        * apply IH; [assumption| |].
          -- intros x Hx. destruct (Hi x Hx) as [->|H]; [contradiction|assumption].
          -- intros d r Hd. apply Hc. now right.
        * intros r Hr. destruct (p r) eqn:E; [|reflexivity]. destruct Hout. apply (Hc c r); [now left|assumption|assumption].
  Qed.

  Lemma filter_filter {A} (f g : A -> bool) l : filter f (filter g l) = filter (fun x => g x && f x) l.
  Proof. induction l as [|x l IH]; cbn; [reflexivity|]. destruct (g x); cbn; [destruct (f x); now rewrite IH|assumption]. Qed.

  (** The catalogue's cells are pairwise disjoint, each row lies in the cell of the file it is stored in, and the depths fit. *)
  Variable cat : list cell.
  Hypothesis Hnodup : NoDup cat.
  Hypothesis Hdepth : forall c, In c cat -> (fst c <= 29)%nat.
  Hypothesis Hdisj : forall c c' h, In c cat -> In c' cat -> inside c h -> inside c' h -> c = c'.
  Hypothesis Hfile : forall c r, In c cat -> In r (file c) -> inside c (idx r).

  Theorem C49_complete D rows : max_depth cat = Some D -> hats_sources idx file cone near cat = Some rows ->
    exists keep : Row -> bool, (forall r, keep r = true <-> covered D r /\ near r = true) /\
      Permutation rows (filter keep (flat_map file cat)).
  Proof.
    intros HD. unfold hats_sources. rewrite HD. cbn [bind].
    destruct (max_depth_spec _ _ HD) as [Hmax (c0 & Hc0 & Ec0)]. pose proof (Hdepth c0 Hc0) as H29. rewrite Ec0 in H29.
    pose proof (C49_lookup cat (cone D) D) as HL. destruct (find_cells cat (cone D) D) as [cells|]; cbn [bind]; [|discriminate].
    destruct HL as [Hn Hin]. intros E.
    assert (Hr : rows = filter near (filter (pass idx (map (range29 D) (cone D))) (flat_map file cells))).
    { destruct cells; [discriminate|]. now injection E. }
    exists (fun r => pass idx (map (range29 D) (cone D)) r && near r). split.
    { intros r. now rewrite Bool.andb_true_iff, pass_covered. }
    rewrite Hr, filter_filter. apply select_files; [assumption|assumption| |].
    - intros c Hc. now apply Hin in Hc.
    - intros c r Hc Hrf Hp. apply Bool.andb_true_iff in Hp as [Hp _]. apply pass_covered in Hp as (i & Hi & Hir).
      pose proof (Hfile c r Hc Hrf) as Hcr. apply Hin. split; [assumption|]. exists i. split; [assumption|]. split.
      + apply (inside_above c D i (idx r)); [|assumption|assumption]. split; [now apply Hmax|assumption].
      + intros c' Hc' Ha'. apply (inside_above c' D i (idx r)) in Ha'; [|split; [now apply Hmax|assumption]|assumption].
        rewrite (Hdisj c' c (idx r)) by assumption. lia.
  Qed.

  (** With a cone search that lists every cell holding a near source, exactly the near sources come back, each once *)
  Corollary C49_all_near D rows : max_depth cat = Some D ->
    (forall c r, In c cat -> In r (file c) -> near r = true -> covered D r) ->
    hats_sources idx file cone near cat = Some rows -> Permutation rows (filter near (flat_map file cat)).
  Proof.
    intros HD Hcone E. destruct (C49_complete D rows HD E) as (keep & Hk & HP). rewrite HP.
    replace (filter keep (flat_map file cat)) with (filter near (flat_map file cat)); [reflexivity|].
    apply filter_ext_in. intros r Hr. apply in_flat_map in Hr as (c & Hc & Hr).
    destruct (near r) eqn:En; symmetry; [apply Hk; split; [now apply (Hcone c)|assumption]|].
    destruct (keep r) eqn:Ek; [|reflexivity]. apply Hk in Ek as [_ Ek]. congruence.
  Qed.
End Sources.
Print Assumptions C49_complete.
Print Assumptions C49_all_near.
(** two files, a source of each in a searched cell *)
Example C49_complete_ex :
  let file (c : cell) := if cell_eqb c (1%nat, 3) then [3 * 4 ^ 28 + 5; 3 * 4 ^ 28 + 4 ^ 27] else if cell_eqb c (2%nat, 17) then [17 * 4 ^ 27 + 1] else [] in
  hats_sources (fun h => h) file (fun d => [12; 17]) (fun _ => true) [(1%nat, 3); (2%nat, 17)] = Some [3 * 4 ^ 28 + 5; 17 * 4 ^ 27 + 1]
  /\ max_depth [(1%nat, 3); (2%nat, 17)] = Some 2%nat.
Proof. vm_compute. split; reflexivity. Qed.
(** Disjointness is needed: a source stored in the coarser of two nested cells is missed *)
Theorem C49_nested_refuted : exists file : cell -> list N,
  (forall c r, In r (file c) -> inside c r) /\ In 4 (file (28%nat, 1)) /\
  hats_sources (fun h => h) file (fun _ => [4]) (fun _ => true) [(28%nat, 1); (29%nat, 4)] = Some [].
Proof.
  exists (fun c => if cell_eqb c (28%nat, 1) then [4] else []). split; [|split; [left; reflexivity|vm_compute; reflexivity]].
  intros c r. destruct (cell_eqb c (28%nat, 1)) eqn:E; [|intros []]. apply cell_eqb_eq in E as ->. intros [<-|[]].
  unfold inside; cbn. lia.
Qed.
Print Assumptions C49_nested_refuted.
