(** Lemmas about sky matching. *)
From Verif Require Import Base BaseLemmas FLaws RBase SkyModel SkySpec.
From Coq Require Import Reals Lra Lia Permutation.
Local Open Scope R_scope.

(** ** The deltas *)
Lemma finite_in {fo : FOps} (l : list (option fo)) x : In x (finite_ones fo l) <-> In (Some x) l.
Proof.
  unfold finite_ones. rewrite in_flat_map. split.
  - intros [[y|] [A B]]; [destruct B as [->|[]]; exact A|destruct B].
  - intro A. exists (Some x). split; [exact A|left; reflexivity].
Qed.
Lemma ref_bound down (l : list R) r : refsky RF down l = Some r -> In r l /\ forall x, In x l -> if down then r <= x else x <= r.
Proof.
  destruct l as [|a l]; [discriminate|]. intro E. injection E as <-.
  change (F RF) with R. set (f := fun m y : R => _).
  assert (G : forall l m, (In (fold_left f l m) (m :: l)) /\ (if down then fold_left f l m <= m else m <= fold_left f l m) /\ forall x, In x l -> if down then fold_left f l m <= x else x <= fold_left f l m).
  { clear. induction l as [|y l IH]; intro m; [cbn; split; [auto|]; split; [destruct down; lra|tauto]|]. cbn [fold_left].
    destruct (IH (f m y)) as [I [B C]]. set (z := fold_left f l (f m y)) in *.
    assert (Q : (f m y = m \/ f m y = y) /\ (if down then f m y <= m /\ f m y <= y else m <= f m y /\ y <= f m y)).
    { unfold f. cbn [flt RF]. destruct down.
      - destruct (Rltb y m) eqn:E; [apply Rltb_spec in E; split; [auto|lra]|]. split; [auto|]. split; [lra|]. apply Rnot_lt_le. intro Q. apply (proj2 (Rltb_spec _ _)) in Q. congruence.
      - destruct (Rltb m y) eqn:E; [apply Rltb_spec in E; split; [auto|lra]|]. split; [auto|]. split; [lra|]. apply Rnot_lt_le. intro Q. apply (proj2 (Rltb_spec _ _)) in Q. congruence. }
    destruct Q as [Q1 Q2]. split; [destruct I as [I|I]; [destruct Q1 as [Q1|Q1]; rewrite <- I, Q1; cbn; auto|cbn; auto]|].
    split; [destruct down; lra|]. intros x [<-|Hx]; [destruct down; lra|apply C, Hx]. }
  destruct (G l a) as [I [B C]]. split; [exact I|]. intros x [<-|Hx]; [exact B|apply C, Hx].
Qed.
(** anchoring over the reals *)
Lemma anchored_nth down (l : list (option R)) k : exists r, nth_error (anchored RF down l) k = option_map (option_map (fun x => x - r)) (nth_error l k) /\
  (forall r', refsky RF down (finite_ones RF l) = Some r' -> r = r').
Proof.
  unfold anchored. destruct (refsky RF down (finite_ones RF l)) as [r|] eqn:E.
  - exists r. split; [|intros r' Q; congruence]. rewrite nth_error_map. change (@nth_error (option (F RF)) l k) with (@nth_error (option R) l k). destruct (nth_error l k) as [[x|]|]; reflexivity.
  - exists 0. split; [|discriminate]. assert (Z : finite_ones RF l = []) by (destruct (finite_ones RF l); [reflexivity|discriminate]).
    change (@nth_error (option (F RF)) l k) with (@nth_error (option R) l k). destruct (nth_error l k) as [[x|]|] eqn:N; cbn; try reflexivity. apply nth_error_In in N. apply (finite_in (fo := RF)) in N. rewrite Z in N. destruct N.
Qed.
Lemma anchored_length down (l : list (option R)) : length (anchored RF down l) = length l.
Proof. unfold anchored. destruct (refsky _ _ _); [apply map_length|reflexivity]. Qed.
Lemma anchored_sign down (l : list (option R)) k x : nth_error (anchored RF down l) k = Some (Some x) -> if down then 0 <= x else x <= 0.
Proof.
  destruct (anchored_nth down l k) as [r [E R]]. rewrite E. destruct (nth_error l k) as [[y|]|] eqn:N; [|discriminate|discriminate]. cbn. intro Q. injection Q as <-.
  assert (I : In y (finite_ones RF l)) by (apply (finite_in (fo := RF)); eapply nth_error_In, N).
  destruct (refsky RF down (finite_ones RF l)) as [r'|] eqn:Q; [|destruct (finite_ones RF l); [destruct I|discriminate]].
  rewrite (R r' eq_refl). pose proof (proj2 (ref_bound down _ r' Q) y I). destruct down; lra.
Qed.
Lemma anchored_zero down (l : list (option R)) k x : nth_error l k = Some (Some x) -> exists k', nth_error (anchored RF down l) k' = Some (Some 0).
Proof.
  intro N. assert (I : In x (finite_ones RF l)) by (apply (finite_in (fo := RF)); eapply nth_error_In, N).
  destruct (refsky RF down (finite_ones RF l)) as [r'|] eqn:Q; [|destruct (finite_ones RF l); [destruct I|discriminate]].
  destruct (ref_bound down _ r' Q) as [J _]. apply (finite_in (fo := RF)) in J. apply In_nth_error in J. destruct J as [k' K]. exists k'. change (@nth_error (option R) l k' = Some (Some r')) in K.
  destruct (anchored_nth down l k') as [r [E R]]. rewrite E, K, (R r' Q). cbn. do 2 f_equal. lra.
Qed.

(** ** Which inputs are matched *)
Section Eqs.
  Variables (area : nat -> nat -> R) (fill : nat -> nat -> list bool) (own : nat -> R) (stat : nat -> list R -> option (R * nat)).
  Notation calc t ov d := (calc_sky RF area fill own stat t ov d).
  Lemma in_pairs ns i j : In (i, j) (pairs ns) <-> (i < j < ns)%nat.
  Proof.
    unfold pairs. rewrite in_flat_map. split.
    - intros [a [A B]]. apply in_map_iff in B. destruct B as [b [E B]]. injection E as -> ->. apply in_seq in A. apply in_seq in B. lia.
    - intro H. exists i. split; [apply in_seq; lia|]. apply in_map_iff. exists j. split; [reflexivity|apply in_seq; lia].
  Qed.
  Lemma isz_R (x : R) : isz RF x = true <-> x = 0.
  Proof. unfold isz. cbn [feq RF fzero]. apply Reqb_spec. Qed.
  Lemma isz_false (x : R) : isz RF x = false <-> x <> 0.
  Proof. rewrite <- isz_R. destruct (isz RF x); split; intros; congruence. Qed.
  Lemma pos_count n : fgt RF (fofZ RF (Z.of_nat n)) (fzero RF) = true <-> (0 < n)%nat.
  Proof. unfold fgt. cbn [flt RF fofZ fzero]. rewrite Rltb_spec. rewrite <- INR_IZR_INZ. split; [intro H; apply INR_lt; exact H|intro H; apply lt_0_INR; exact H]. Qed.
  (** an equation: both skies measured in the overlap, with a positive number of pixels *)
  Lemma in_equations items d e : In e (equations RF area fill own stat items d) <->
    exists i j a b s1 n1 a1 s2 n2 a2, (i < j)%nat /\ nth_error items i = Some a /\ nth_error items j = Some b /\
      calc a (Some b) d = (Some s1, n1, a1) /\ calc b (Some a) d = (Some s2, n2, a2) /\ a1 <> 0 /\ a2 <> 0 /\ (0 < n1)%nat /\ (0 < n2)%nat /\
      e = (i, j, 1 / 2 * (INR n2 + INR n1), 1 / 2 * (INR n2 + INR n1) * (s1 - s2)).
  Proof.
    unfold equations. rewrite in_flat_map. split.
    - intros [[i j] [P H]]. apply in_pairs in P. unfold pair_sky in H.
      destruct (nth_error items i) as [a|] eqn:Ei; [|destruct H]. destruct (nth_error items j) as [b|] eqn:Ej; [|destruct H].
      destruct (calc a (Some b) d) as [[[s1|] n1] a1] eqn:C1; [|destruct H]. destruct (calc b (Some a) d) as [[[s2|] n2] a2] eqn:C2; [|destruct H].
      destruct (isz RF a1 || isz RF a2) eqn:Z; [destruct H|]. apply orb_false_iff in Z. destruct Z as [Z1 Z2]. apply isz_false in Z1, Z2.
      destruct (fgt RF (fofZ RF (Z.of_nat n2)) (fzero RF) && _) eqn:G; [|destruct H]. apply andb_true_iff in G. destruct G as [G2 G1]. apply pos_count in G1, G2.
      destruct H as [<-|[]]. exists i, j, a, b, s1, n1, a1, s2, n2, a2. repeat (split; [first [lia|assumption|reflexivity]|]). cbn [fmul fadd fdiv fsub fofZ fone RF]. rewrite <- !INR_IZR_INZ. reflexivity.
    - intros (i & j & a & b & s1 & n1 & a1 & s2 & n2 & a2 & L & Ei & Ej & C1 & C2 & Z1 & Z2 & N1 & N2 & E).
      exists (i, j). split; [apply in_pairs; split; [lia|]; apply nth_error_Some; congruence|]. unfold pair_sky. rewrite Ei, Ej, C1, C2.
      apply isz_false in Z1, Z2. rewrite Z1, Z2. cbn [orb]. apply pos_count in N1, N2. rewrite N1, N2. cbn [andb]. left. rewrite E. cbn [fmul fadd fdiv fsub fofZ fone RF]. rewrite <- !INR_IZR_INZ. reflexivity.
  Qed.
  Definition overlapping (items : list (item RF)) (d : bool) (i j : nat) : Prop :=
    exists a b, nth_error items i = Some a /\ nth_error items j = Some b /\ i <> j /\ usable (calc a (Some b) d) /\ usable (calc b (Some a) d).
  Lemma overlapping_sym items d i j : overlapping items d i j -> overlapping items d j i.
  Proof. intros (a & b & A & B & C & D & E). exists b, a. auto. Qed.
  Lemma usable_in items d i j : (i < j)%nat -> (overlapping items d i j <-> exists w f, In (i, j, w, f) (equations RF area fill own stat items d)).
  Proof.
    intro L. split.
    - intros (a & b & A & B & _ & [[s1 C1] [N1 Z1]] & [[s2 C2] [N2 Z2]]).
      destruct (calc a (Some b) d) as [[x1 n1] a1] eqn:D1. destruct (calc b (Some a) d) as [[x2 n2] a2] eqn:D2. cbn [fst snd] in *. subst x1 x2.
      eexists _, _. apply in_equations. exists i, j, a, b, s1, n1, a1, s2, n2, a2. repeat (split; [first [assumption|reflexivity]|]). reflexivity.
    - intros (w & f & H). apply in_equations in H. destruct H as (i' & j' & a & b & s1 & n1 & a1 & s2 & n2 & a2 & L' & Ei & Ej & C1 & C2 & Z1 & Z2 & N1 & N2 & E).
      injection E as <- <- _ _. exists a, b. rewrite C1, C2. unfold usable. cbn [fst snd].
      split; [exact Ei|]. split; [exact Ej|]. split; [lia|]. split; split; eauto.
  Qed.
  Lemma mentioned_iff items d k : mentioned RF (equations RF area fill own stat items d) k = true <-> exists j, overlapping items d k j.
  Proof.
    unfold mentioned. rewrite existsb_exists. split.
    - intros [[[[i j] w] f] [I H]]. pose proof I as I'. apply in_equations in I'. destruct I' as (i' & j' & a & b & s1 & n1 & a1 & s2 & n2 & a2 & L & _ & _ & _ & _ & _ & _ & _ & _ & E). injection E as <- <- _ _.
      apply orb_true_iff in H. destruct H as [H|H]; apply Nat.eqb_eq in H; subst k.
      + exists j. apply (proj2 (usable_in items d i j L)). eauto.
      + exists i. apply overlapping_sym, (proj2 (usable_in items d i j L)). eauto.
    - intros [j O]. destruct (Nat.lt_total k j) as [L|[->|L]].
      + apply (usable_in items d k j L) in O. destruct O as (w & f & I). exists (k, j, w, f). split; [exact I|]. rewrite Nat.eqb_refl. reflexivity.
      + destruct O as (a & b & _ & _ & N & _). congruence.
      + apply overlapping_sym, (usable_in items d j k L) in O. destruct O as (w & f & I). exists (j, k, w, f). split; [exact I|]. rewrite Nat.eqb_refl. apply orb_true_r.
  Qed.
  Variable solve : nat -> list (equation RF) -> option (list R).
  Lemma deltas_length items d : length (deltas RF area fill own stat solve items d) = length items.
  Proof. unfold deltas. destruct (solve _ _); rewrite map_length; [apply seq_length|reflexivity]. Qed.
  Lemma deltas_nth items d k : (k < length items)%nat -> nth_error (deltas RF area fill own stat solve items d) k =
    Some (match solve (length items) (equations RF area fill own stat items d) with None => None | Some xs => if mentioned RF (equations RF area fill own stat items d) k then Some (nth k xs 0) else None end).
  Proof.
    intro H. unfold deltas. destruct (solve _ _) as [xs|].
    - rewrite nth_error_map. rewrite (nth_error_nth' _ 0%nat) by (rewrite seq_length; exact H). rewrite seq_nth by exact H. cbn [option_map fisfinite RF]. rewrite andb_true_r. reflexivity.
    - rewrite nth_error_map. destruct (nth_error items k) eqn:E; [reflexivity|]. apply nth_error_None in E. lia.
  Qed.
End Eqs.

(** ** Applying a change *)
Ltac eqS := match goal with |- @eq _ ?u ?v => change (@eq R u v) end.
Lemma apply_changed g sub (t : item RF) o : (o = None -> g = false) -> item_changed sub o t (apply_one RF g sub t o).
Proof.
  intro Hg. unfold item_changed. destruct t as [im|l gs]; cbn [apply_one members].
  - constructor; [|constructor]. unfold image_changed. cbn [g_id g_mask g_valid g_sky g_px fadd RF]. split; [reflexivity|]. split; [reflexivity|].
    split; [destruct o; [reflexivity|rewrite Hg; reflexivity]|]. split; [destruct o; reflexivity|].
    unfold shift_px. destruct sub; [|reflexivity]. destruct o; reflexivity.
  - match goal with |- context[map ?f l] => set (h := f) end.
    assert (G : forall m, image_changed sub (match o with Some _ => true | None => false end) (match o with Some x => x | None => 0 end) m (h m)).
    { intro m. unfold image_changed, h. cbn [g_id g_mask g_valid g_sky g_px]. split; [reflexivity|]. split; [reflexivity|].
      split; [destruct o; [reflexivity|rewrite Hg; reflexivity]|]. split; [destruct o; cbn [fadd fsub fzero RF]; eqS; ring|].
      unfold shift_px. destruct sub; [|reflexivity]. destruct o; reflexivity. }
    clearbody h. induction l as [|m l IH]; [constructor|]. cbn [map]. constructor; [apply G|exact IH].
Qed.
Lemma combine_nth_error {A B} (l : list A) (m : list B) k : nth_error (combine l m) k = match nth_error l k, nth_error m k with Some a, Some b => Some (a, b) | _, _ => None end.
Proof. revert m k. induction l as [|a l IH]; intros [|b m] [|k]; cbn; try reflexivity; [destruct (nth_error l k); reflexivity|apply IH]. Qed.
Lemma apply_nth {fo : FOps} g sub (items : list (item fo)) skies k :
  nth_error (apply_sky fo g sub items skies) k = match nth_error items k, nth_error skies k with Some t, Some s => Some (apply_one fo g sub t s) | _, _ => None end.
Proof. unfold apply_sky. rewrite nth_error_map, combine_nth_error. destruct (nth_error items k), (nth_error skies k); reflexivity. Qed.
Lemma apply_length {fo : FOps} g sub (items : list (item fo)) skies : length skies = length items -> length (apply_sky fo g sub items skies) = length items.
Proof. intro H. unfold apply_sky. rewrite map_length, combine_length. lia. Qed.

(** ** The global minimum, any ordering *)
Section Min.
  Context {fo : FOps} (L : FLaws fo).
  Notation gstep := (fun (m s : option fo) => match m with None => Some s | Some a => match s with None => None | Some b => Some (if flt fo b a then Some b else m) end end).
  Lemma gm_some l : forall a, (foldM gstep l (Some a) = None <-> In None l) /\
    (forall r, foldM gstep l (Some a) = Some r -> exists m, r = Some m /\ In (Some m) (Some a :: l) /\ forall x, In (Some x) (Some a :: l) -> fisnan fo x = false -> fisnan fo a = false -> flt fo x m = false).
  Proof.
    induction l as [|[b|] l IH]; intro a.
    - cbn. split; [split; [discriminate|tauto]|]. intros r E. injection E as <-. exists a. split; [reflexivity|]. split; [auto|]. intros x [E|[]] _ _. injection E as <-. apply (flt_irrefl _ L).
    - cbn [foldM bind]. set (c := if flt fo b a then b else a). replace (if flt fo b a then Some b else Some a) with (Some c) by (unfold c; destruct (flt fo b a); reflexivity).
      destruct (IH c) as [I1 I2]. split; [rewrite I1; cbn; intuition congruence|]. intros r E. destruct (I2 r E) as [m [-> [In1 B]]]. exists m. split; [reflexivity|]. split.
      + destruct In1 as [Q|Q]; [|cbn; auto]. injection Q as <-. unfold c. destruct (flt fo b a); cbn; auto.
      + intros x Hx Nx Na.
        assert (Nc : fisnan fo c = false).
        { unfold c. destruct (flt fo b a) eqn:Q; [|exact Na]. destruct (fisnan fo b) eqn:Nb; [|reflexivity]. rewrite (lt_nan_l _ L) in Q by exact Nb. discriminate. }
        assert (Hc : flt fo c m = false) by (apply B; [left; reflexivity|exact Nc|exact Nc]).
        destruct Hx as [Q|[Q|Q]]; [| |apply B; [right; exact Q|exact Nx|exact Nc]].
        * injection Q as <-. unfold c in *. destruct (flt fo b a) eqn:Q; [|exact Hc].
          destruct (flt fo a m) eqn:Y; [|reflexivity]. rewrite (flt_trans _ L b a m Q Y) in Hc. discriminate.
        * injection Q as <-. unfold c in *. destruct (flt fo b a) eqn:Q; [exact Hc|].
          destruct (flt fo b m) eqn:Y; [|reflexivity]. exfalso.
          assert (fisnan fo m = false) by (destruct (fisnan fo m) eqn:Nm; [rewrite (lt_nan_r _ L) in Y by exact Nm; discriminate|reflexivity]).
          pose proof (nflt_trans _ L b a m Na Q Hc) as T. congruence.
    - cbn. split; [split; [auto|reflexivity]|discriminate].
  Qed.
End Min.
