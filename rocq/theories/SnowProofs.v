(** Proofs about large-event flagging. *)
From Verif Require Import Base BaseLemmas JumpModel JumpProofs JumpStage SnowModel SnowSpec.
Local Open Scope nat_scope.

Lemma foldM_ext_in {A S} (f g : S -> A -> option S) l s : (forall s x, In x l -> f s x = g s x) -> foldM f l s = foldM g l s.
Proof.
  revert s; induction l as [|a l IH]; intros s H; [reflexivity|]. cbn. rewrite H by (left; reflexivity).
  destruct (g s a); [|reflexivity]. apply IH. intros. apply H. right; assumption.
Qed.
Lemma existsb_ext_in {A} (p q : A -> bool) l : (forall x, In x l -> p x = q x) -> existsb p l = existsb q l.
Proof. induction l as [|a l IH]; intro H; [reflexivity|]. cbn. rewrite H by (left; reflexivity). f_equal. apply IH. intros. apply H; right; assumption. Qed.

Section Extend.
  Variable fo : FOps.
  Variable P : snow fo.
  Variables kj ks : N.
  Hypothesis Hj : s_jump P = bit kj.
  Hypothesis Hs : s_sat P = bit ks.
  Hypothesis Hjs : kj <> ks.

  Lemma is_sat_spec w : is_sat fo P w = N.testbit w ks.
  Proof.
    unfold is_sat. rewrite Hs. apply eq_true_iff_eq. rewrite N.eqb_eq. split.
    - intro H. assert (E : N.testbit (N.land w (bit ks)) ks = true) by (rewrite H, bit_testbit; apply N.eqb_refl).
      rewrite N.land_spec in E. apply andb_prop in E. apply E.
    - intro H. apply N.bits_inj. intro k. rewrite N.land_spec, bit_testbit.
      destruct (N.eqb_spec ks k) as [<-|]; [rewrite H; reflexivity|apply andb_false_r].
  Qed.
  Lemma lor_sat w b : N.testbit (N.lor w (flag_if b (s_jump P))) ks = N.testbit w ks.
  Proof. rewrite Hj, lor_flag_testbit. destruct (N.eqb_spec kj ks); [congruence|]. rewrite andb_false_r. apply orb_false_r. Qed.

  (** unsaturated in groups grp..k *)
  Definition unsat_through (gdq : arr4 N) (i grp k r c : nat) : bool :=
    forallb (fun j => negb (N.testbit (gdq i j r c) ks)) (seq grp (k + 1 - grp)).
  Lemma unsat_ext g g' i grp k r c : (forall j, N.testbit (g i j r c) ks = N.testbit (g' i j r c) ks) ->
    unsat_through g i grp k r c = unsat_through g' i grp k r c.
  Proof. intro H. unfold unsat_through. apply forallb_ext_in'. intros. rewrite H. reflexivity. Qed.
  Lemma unsat_cons g i grp k r c : grp <= k ->
    unsat_through g i grp k r c = negb (N.testbit (g i grp r c) ks) && unsat_through g i (grp + 1) k r c.
  Proof.
    intro H. unfold unsat_through. replace (k + 1 - grp) with (S (k + 1 - (grp + 1))) by lia. cbn [seq forallb].
    replace (grp + 1) with (S grp) by lia. reflexivity.
  Qed.

  Lemma extend_fold i n : forall grp m (g : arr4 N) i' k r c,
    fst (fold_left (fun (st : arr4 N * img bool) k =>
      let '(g, m) := st in
      let m' := fun r c => m r c && negb (is_sat fo P (g i k r c)) in
      (fun i' k' r c => if Nat.eqb i' i && Nat.eqb k' k then N.lor (g i' k' r c) (flag_if (m' r c) (s_jump P)) else g i' k' r c, m'))
      (seq grp n) (g, m)) i' k r c
    = N.lor (g i' k r c) (flag_if (Nat.eqb i' i && Nat.leb grp k && Nat.ltb k (grp + n) && m r c && unsat_through g i grp k r c) (s_jump P)).
  Proof.
    induction n as [|n IH]; intros grp m g i' k r c.
    - cbn [seq fold_left fst]. assert (E : Nat.leb grp k && Nat.ltb k (grp + 0) = false).
      { destruct (Nat.leb_spec grp k); [|reflexivity]. apply Nat.ltb_ge. lia. }
      rewrite <- (andb_assoc (Nat.eqb i' i)), E, andb_false_r. cbn. rewrite N.lor_0_r. reflexivity.
    - cbn [seq fold_left]. rewrite IH. clear IH. rewrite is_sat_spec.
      set (g' := fun i' k' r c => _).
      assert (U : unsat_through g' i (S grp) k r c = unsat_through g i (S grp) k r c).
      { apply unsat_ext. intro j. unfold g'. destruct (Nat.eqb i i && Nat.eqb j grp); [|reflexivity]. apply lor_sat. }
      rewrite U. unfold g'. clear U g'. cbv beta. rewrite ?is_sat_spec.
      destruct (Nat.eqb_spec i' i) as [->|]; cbn [andb]; [|cbn; rewrite N.lor_0_r; reflexivity].
      destruct (Nat.eqb_spec k grp) as [->|Hk].
      + replace (Nat.leb (S grp) grp) with false by (symmetry; apply Nat.leb_gt; lia). cbn [andb flag_if]. rewrite N.lor_0_r.
        replace (Nat.leb grp grp) with true by (symmetry; apply Nat.leb_le; lia).
        replace (Nat.ltb grp (grp + S n)) with true by (symmetry; apply Nat.ltb_lt; lia). cbn [andb].
        rewrite unsat_cons by lia. unfold unsat_through at 1. replace (grp + 1 - (grp + 1)) with 0 by lia. cbn [seq forallb].
        rewrite andb_true_r. reflexivity.
      + f_equal. f_equal. destruct (Nat.leb_spec grp k).
        * replace (Nat.leb (S grp) k) with true by (symmetry; apply Nat.leb_le; lia).
          replace (S grp + n) with (grp + S n) by lia. rewrite (unsat_cons g i grp) by assumption. rewrite Nat.add_1_r. cbn [andb].
          rewrite !andb_assoc. reflexivity.
        * replace (Nat.leb (S grp) k) with false by (symmetry; apply Nat.leb_gt; lia). reflexivity.
  Qed.
  Lemma extend_one_spec ng i grp n m g i' k r c : extend_one fo P ng i grp n m g i' k r c
    = N.lor (g i' k r c) (flag_if (Nat.eqb i' i && Nat.leb grp k && Nat.leb k (grp + n) && Nat.ltb k ng && m r c && unsat_through g i grp k r c) (s_jump P)).
  Proof.
    unfold extend_one. rewrite extend_fold. f_equal. f_equal.
    assert (E : forall b1 b2 : bool, Nat.leb grp k && Nat.ltb k (grp + (Nat.min (grp + n + 1) ng - grp))
                = Nat.leb grp k && Nat.leb k (grp + n) && Nat.ltb k ng).
    { intros _ _. clear. destruct (Nat.leb_spec grp k); [|reflexivity]. cbn [andb].
      destruct (Nat.ltb_spec k (grp + (Nat.min (grp + n + 1) ng - grp))), (Nat.leb_spec k (grp + n)), (Nat.ltb_spec k ng); lia || reflexivity. }
    rewrite <- (andb_assoc (Nat.eqb i' i)), (E true true), !andb_assoc. reflexivity.
  Qed.
  Variable rnd : fo -> Z.
  Variable disk : Z -> Z -> fo -> Z -> Z -> bool.
  Lemma extend_ellipses_spec ng nr nc i grp es x n : forall g i' k r c,
    extend_ellipses fo P rnd disk ng nr nc i grp es x n g i' k r c
    = N.lor (g i' k r c) (flag_if (Nat.eqb i' i && Nat.leb grp k && Nat.leb k (grp + n) && Nat.ltb k ng && unsat_through g i grp k r c
         && existsb (fun e => drawn fo rnd disk nr nc e (compute_axes fo P rnd e x) r c) es) (s_jump P)).
  Proof.
    unfold extend_ellipses. induction es as [|e es IH]; intros g i' k r c.
    - cbn. rewrite andb_false_r. cbn. rewrite N.lor_0_r. reflexivity.
    - cbn [fold_left existsb]. rewrite IH. clear IH.
      rewrite (unsat_ext (extend_one fo P ng i grp n (drawn fo rnd disk nr nc e (compute_axes fo P rnd e x)) g) g) by (intro; rewrite extend_one_spec; apply lor_sat).
      rewrite extend_one_spec, <- N.lor_assoc. f_equal.
      set (A := Nat.eqb i' i && Nat.leb grp k && Nat.leb k (grp + n) && Nat.ltb k ng). set (U := unsat_through _ _ _ _ _ _).
      set (D := drawn _ _ _ _ _ _ _ _ _). set (X := existsb _ _).
      destruct A, U, D, X; cbn; rewrite ?N.lor_0_r, ?N.lor_0_l, ?N.lor_diag; reflexivity.
  Qed.

  Lemma extend_saturation_spec ng nr nc i grp es : forall g p i' k r c,
    (fst (extend_saturation fo P rnd disk ng nr nc i grp es (g, p)) i' k r c
     = if Nat.eqb i' i && Nat.leb grp k && Nat.ltb k ng && existsb (fun e => big_core fo P e && drawn fo rnd disk nr nc e (sat_axes fo P rnd e) r c) es
       then s_sat P else g i' k r c) /\
    (snd (extend_saturation fo P rnd disk ng nr nc i grp es (g, p)) r c
     = if existsb (fun e => big_core fo P e && drawn fo rnd disk nr nc e (half fo rnd (e_h e), half fo rnd (e_w e)) r c) es then s_jump P else p r c).
  Proof.
    unfold extend_saturation. induction es as [|e es IH]; intros g p i' k r c.
    - cbn. rewrite andb_false_r. auto.
    - cbn [fold_left existsb]. destruct (big_core fo P e); cbn [andb orb].
      + destruct (IH (fun i' k r c => if Nat.eqb i' i && Nat.leb grp k && Nat.ltb k ng && drawn fo rnd disk nr nc e (sat_axes fo P rnd e) r c then s_sat P else g i' k r c)
          (fun r c => if drawn fo rnd disk nr nc e (half fo rnd (e_h e), half fo rnd (e_w e)) r c then s_jump P else p r c) i' k r c) as [E1 E2].
        split; [refine (eq_trans E1 _)|refine (eq_trans E2 _)]; clear E1 E2.
        * destruct (Nat.eqb i' i && Nat.leb grp k && Nat.ltb k ng), (existsb _ es), (drawn _ _ _ _ _ _ _ _ _); reflexivity.
        * destruct (existsb _ es), (drawn _ _ _ _ _ _ _ _ _); reflexivity.
      + apply IH.
  Qed.
End Extend.

(** the subimage holds the whole ellipse *)
Lemma drawn_covers (fo : FOps) rnd (disk : Z -> Z -> fo -> Z -> Z -> bool) nr nc e h r c : within_radius disk -> r < nr -> c < nc ->
  drawn fo rnd disk nr nc e h r c = covers fo rnd disk e h r c.
Proof.
  intros W Hr Hc. unfold drawn, subim, covers. destruct h as [h1 h2]. cbn [fst snd].
  set (cr := rnd (e_row e)). set (cc := rnd (e_col e)).
  match goal with |- context [disk h2 h1 _ ?x ?y] => replace x with (Z.of_nat r - cr)%Z by lia; replace y with (Z.of_nat c - cc)%Z by lia end.
  destruct (disk h2 h1 (e_angle e) (Z.of_nat r - cr)%Z (Z.of_nat c - cc)%Z) eqn:D; [|rewrite !andb_false_r; reflexivity].
  destruct (W _ _ _ _ _ D) as [W1 W2]. rewrite !andb_true_r, negb_orb, (andb_comm (negb (Z.eqb h2 0))).
  match goal with |- ?b && _ = _ => replace b with true; [reflexivity|] end.
  symmetry. rewrite !andb_true_iff, !Z.leb_le, !Z.ltb_lt. lia.
Qed.

Section Select.
  Variable fo : FOps.
  Variable P : snow fo.
  Variable inside : fo * fo -> ellipse fo -> bool.
  Notation selects := (select fo P inside).
  (** what is selected *)
  Lemma select_spec ng nr g jumps sats nexts (D : ellipse fo -> bool) :
    (forall e e', In e jumps -> In e' jumps -> same_numbers e e' -> e = e') ->
    existsb D (selects ng nr g jumps sats nexts) =
    existsb (fun e => (near_edge fo P nr e || existsb (fun s => inside (e_col s, e_row s) e) (sats ++ (if Nat.ltb g (ng - 1) then nexts else []))) && D e) jumps.
  Proof.
    intro T'. assert (T : forall e e', In e jumps -> In e' jumps -> ell_eq fo e e' = true -> e = e').
    { intros e e' I I' Q. apply T'; [assumption..|]. unfold ell_eq in Q. rewrite !andb_true_iff in Q. unfold same_numbers. tauto. }
    clear T'. unfold select.
    assert (A : forall (l : list (ellipse fo)) e acc, In e jumps -> (forall x, In x acc -> In x jumps) ->
      let out := fold_left (fun acc s => if inside (e_col s, e_row s) e && negb (existsb (ell_eq fo e) acc) then acc ++ [e] else acc) l acc in
      existsb D out = existsb D acc || (existsb (fun s => inside (e_col s, e_row s) e) l && D e) /\ (forall x, In x out -> In x jumps)).
    { induction l as [|s l IH]; intros e acc He Hacc; [cbn; rewrite orb_false_r; auto|]. cbn [fold_left existsb].
      destruct (inside (e_col s, e_row s) e) eqn:I; cbn [andb].
      - destruct (existsb (ell_eq fo e) acc) eqn:X; cbn [negb].
        + destruct (IH e acc He Hacc) as [IH1 IH2]. cbv zeta in *. split; [|exact IH2]. rewrite IH1. clear IH1 IH2.
          apply existsb_exists in X. destruct X as (x & Hx & Ex). assert (x = e) by (symmetry; apply T; auto). subst x.
          destruct (D e) eqn:De; rewrite ?andb_false_r; [|reflexivity].
          assert (existsb D acc = true) as -> by (apply existsb_exists; eauto). reflexivity.
        + destruct (IH e (acc ++ [e]) He) as [IH1 IH2].
          { intros x Hx. apply in_app_or in Hx. destruct Hx as [Hx|[<-|[]]]; auto. }
          cbv zeta in *. split; [|exact IH2]. rewrite IH1, existsb_app. cbn. rewrite orb_false_r.
          destruct (existsb D acc), (D e), (existsb _ l); reflexivity.
      - apply (IH e acc He Hacc). }
    assert (B : forall l acc, (forall x, In x l -> In x jumps) -> (forall x, In x acc -> In x jumps) ->
      existsb D (fold_left (fun acc j =>
        if near_edge fo P nr j then acc ++ [j]
        else
          let add := fun acc s => if inside (e_col s, e_row s) j && negb (existsb (ell_eq fo j) acc) then acc ++ [j] else acc in
          let acc := fold_left add sats acc in
          if Nat.ltb g (ng - 1)%nat then fold_left add nexts acc else acc) l acc)
      = existsb D acc || existsb (fun e => (near_edge fo P nr e || existsb (fun s => inside (e_col s, e_row s) e) (sats ++ (if Nat.ltb g (ng - 1) then nexts else []))) && D e) l).
    { induction l as [|j l IH]; intros acc Hl Hacc; [cbn; rewrite orb_false_r; reflexivity|].
      cbn [fold_left existsb]. destruct (near_edge fo P nr j) eqn:E.
      - rewrite IH; [|intros; apply Hl; right; assumption|].
        + rewrite existsb_app. cbn. rewrite orb_false_r. destruct (existsb D acc), (D j); reflexivity.
        + intros x Hx. apply in_app_or in Hx. destruct Hx as [Hx|[<-|[]]]; [auto|apply Hl; left; reflexivity].
      - cbv zeta. assert (Hj' : In j jumps) by (apply Hl; left; reflexivity).
        destruct (A sats j acc Hj' Hacc) as [A1 A2]. cbv zeta in A1, A2.
        rewrite existsb_app. destruct (Nat.ltb g (ng - 1)).
        + destruct (A nexts j _ Hj' A2) as [A3 A4]. cbv zeta in A3, A4.
          rewrite IH; [|intros; apply Hl; right; assumption|exact A4]. rewrite A3, A1.
          destruct (existsb D acc), (D j), (existsb _ sats), (existsb _ nexts); reflexivity.
        + rewrite IH; [|intros; apply Hl; right; assumption|exact A2]. rewrite A1. cbn.
          destruct (existsb D acc), (D j), (existsb _ sats); reflexivity. }
    rewrite B; [reflexivity|auto|intros x []].
  Qed.
End Select.

Section Run.
  Variable fo : FOps.
  Variable P : snow fo.
  Variables kj ks : N.
  Hypothesis Hj : s_jump P = bit kj.
  Hypothesis Hs : s_sat P = bit ks.
  Hypothesis Hjs : kj <> ks.
  Variable rnd : fo -> Z.
  Variable disk : Z -> Z -> fo -> Z -> Z -> bool.
  Variable sat_regions jump_regions : img bool -> list (ellipse fo).
  Variable inside : fo * fo -> ellipse fo -> bool.
  Variables nr nc : nat.
  Hypothesis HW : within_radius disk.
  Hypothesis HFs : looks_at_frame nr nc sat_regions.
  Hypothesis HFj : looks_at_frame nr nc jump_regions.
  Hypothesis HT : no_twins fo jump_regions.
  Variable ng : nat.
  Notation MARK := (mark fo P rnd disk sat_regions jump_regions inside ng nr).
  Notation CORE := (core fo P rnd disk sat_regions).
  Notation STEP := (step fo P rnd disk sat_regions jump_regions inside ng nr nc).
  Notation GROUPS := (groups fo P rnd disk sat_regions jump_regions inside ng nr).
  Notation INTS := (ints fo P rnd disk sat_regions jump_regions inside ng nr).
  Notation BEFORE := (before fo P rnd disk sat_regions jump_regions inside ng nr).

  Definition eqf (a b : arr4 N) : Prop := forall i k r c, r < nr -> c < nc -> a i k r c = b i k r c.
  Lemma eqf_refl a : eqf a a. Proof. intros i k r c _ _. reflexivity. Qed.
  Lemma eqf_trans a b c : eqf a b -> eqf b c -> eqf a c.
  Proof. intros H1 H2 i k r q Hr Hq. rewrite H1, H2 by assumption. reflexivity. Qed.
  Lemma became_ext a b i g : eqf a b -> became_sat fo P sat_regions a i g = became_sat fo P sat_regions b i g.
  Proof. intro H. unfold became_sat. apply HFs. intros r c Hr Hc. rewrite !H by assumption. reflexivity. Qed.
  Lemma areas_ext a b i g : eqf a b -> jump_areas fo P jump_regions a i g = jump_areas fo P jump_regions b i g.
  Proof. intro H. unfold jump_areas. apply HFj. intros r c Hr Hc. rewrite !H by assumption. reflexivity. Qed.
  Lemma core_ext a b i g r c : eqf a b -> CORE a i g r c = CORE b i g r c.
  Proof. intro H. unfold core. rewrite (became_ext a b) by assumption. reflexivity. Qed.
  Lemma mark_ext a b i g : eqf a b -> eqf (MARK a i g) (MARK b i g).
  Proof.
    intros H i' k r c Hr Hc. unfold mark, grown, hit, snowball, will_sat. rewrite (H i' k r c) by assumption.
    rewrite !(became_ext a b), (areas_ext a b) by assumption. reflexivity.
  Qed.
  Lemma groups_ext a b n i : eqf a b -> eqf (GROUPS n a i) (GROUPS n b i).
  Proof. intro H. induction n as [|n IH]; [exact H|]. cbn [groups]. apply mark_ext. exact IH. Qed.

  Lemma step_spec gdq per nxt tot i g : 1 <= g < ng ->
    match STEP i (gdq, per, nxt, tot) g with
    | None => nxt = None /\ g = ng - 1
    | Some (gdq', per', nxt', _) => (nxt <> None \/ g < ng - 1) /\ nxt' <> None /\ eqf gdq' (MARK gdq i g) /\
        (forall r c, r < nr -> c < nc -> per' r c = if CORE gdq i g r c then s_jump P else per r c)
    end.
  Proof.
    intro Hg. unfold step.
    set (nsat := new_sat fo P (gdq i (g - 1)) (gdq i g)).
    set (nxt1 := if Nat.ltb g (ng - 1) then _ else nxt).
    assert (Hn : nxt1 = None -> nxt = None /\ g = ng - 1).
    { unfold nxt1. destruct (Nat.ltb_spec g (ng - 1)); [discriminate|]. intros; split; [assumption|lia]. }
    assert (Hn' : nxt1 <> None -> nxt <> None \/ g < ng - 1).
    { unfold nxt1. destruct (Nat.ltb_spec g (ng - 1)); intros; [right; assumption|left; assumption]. }
    destruct nxt1 as [nx|] eqn:EN; [|apply Hn; reflexivity]. specialize (Hn' ltac:(discriminate)).
    assert (Enx : Nat.ltb g (ng - 1) = true -> sat_regions nx = became_sat fo P sat_regions gdq i (g + 1)).
    { intro L. unfold nxt1 in EN. rewrite L in EN. injection EN as <-. unfold became_sat, new_sat.
      replace (g + 1 - 1) with g by lia. reflexivity. }
    assert (Esat : sat_regions nsat = became_sat fo P sat_regions gdq i g) by reflexivity.
    set (jumps := jump_regions _).
    assert (EW : (if Nat.ltb g (ng - 1) then sat_regions nx else []) = will_sat fo P sat_regions ng gdq i g).
    { unfold will_sat. replace (Nat.ltb (g + 1) ng) with (Nat.ltb g (ng - 1)).
      - destruct (Nat.ltb g (ng - 1)); [apply Enx; reflexivity|reflexivity].
      - clear -Hg. destruct (Nat.ltb_spec g (ng - 1)), (Nat.ltb_spec (g + 1) ng); lia || reflexivity. }
    clear EN Hn. clearbody nxt1. clear nxt1.
    destruct (s_required P) eqn:ER.
    - destruct (extend_saturation fo P rnd disk ng nr nc i g (sat_regions nsat) (gdq, per)) as [gdq1 per1] eqn:ES.
      pose proof (fun i' k r c => extend_saturation_spec fo P rnd disk ng nr nc i g (sat_regions nsat) gdq per i' k r c) as SP.
      rewrite ES in SP. cbn [fst snd] in SP. clear ES.
      split; [exact Hn'|]. split; [discriminate|]. split.
      + intros i' k r c Hr Hc.
        assert (G : existsb (fun e => big_core fo P e && drawn fo rnd disk nr nc e (sat_axes fo P rnd e) r c) (sat_regions nsat)
                    = grown fo P rnd disk sat_regions gdq i g r c).
        { unfold grown. rewrite ER, Esat. cbn [andb]. apply existsb_ext_in. intros e _. rewrite (drawn_covers fo rnd disk nr nc) by assumption. reflexivity. }
        assert (W1 : forall i' k, gdq1 i' k r c = if Nat.eqb i' i && Nat.leb g k && Nat.ltb k ng && grown fo P rnd disk sat_regions gdq i g r c then s_sat P else gdq i' k r c).
        { intros i'' k''. rewrite (proj1 (SP i'' k'' r c)), G. reflexivity. }
        rewrite (extend_ellipses_spec fo P kj ks Hj Hs Hjs). rewrite (select_spec fo P inside ng nr g jumps _ _ _ (HT _)).
        rewrite EW, Esat. unfold mark. rewrite <- W1.
        assert (HH : existsb (fun e => (near_edge fo P nr e || existsb (fun s => inside (e_col s, e_row s) e)
             (became_sat fo P sat_regions gdq i g ++ will_sat fo P sat_regions ng gdq i g)) && drawn fo rnd disk nr nc e (compute_axes fo P rnd e (s_expand P)) r c) jumps
             = hit fo P rnd disk sat_regions jump_regions inside ng nr gdq i g r c).
        { unfold hit, jump_areas. fold jumps. apply existsb_ext_in. intros e _. unfold snowball. rewrite ER. cbn [negb orb].
          rewrite (drawn_covers fo rnd disk nr nc) by assumption. reflexivity. }
        rewrite HH. rewrite Nat.add_0_r.
        destruct (Nat.eqb_spec i' i) as [->|]; cbn [andb]; [|cbn; rewrite N.lor_0_r; reflexivity].
        destruct (Nat.eqb_spec k g) as [->|Hk].
        * rewrite Nat.leb_refl. replace (Nat.ltb g ng) with true by (symmetry; apply Nat.ltb_lt; lia). cbn [andb].
          unfold unsat_through. replace (g + 1 - g) with 1 by lia. cbn [seq forallb]. rewrite andb_true_r, Hs, has_bit, andb_comm.
          destruct (_ && _); cbn [flag_if]; [reflexivity|apply N.lor_0_r].
        * replace (Nat.leb g k && Nat.leb k g) with false; [cbn; apply N.lor_0_r|].
          symmetry. apply andb_false_iff. rewrite !Nat.leb_gt. lia.
      + intros r c Hr Hc. rewrite (proj2 (SP 0 0 r c)), Esat. unfold core. rewrite ER. cbn [andb].
        erewrite existsb_ext_in; [reflexivity|]. intros e _. cbv beta. rewrite (drawn_covers fo rnd disk nr nc) by assumption. reflexivity.
    - split; [exact Hn'|]. split; [discriminate|]. split.
      + intros i' k r c Hr Hc. rewrite (extend_ellipses_spec fo P kj ks Hj Hs Hjs). unfold mark, grown. rewrite ER. cbn [andb]. rewrite andb_false_r.
        assert (HH : existsb (fun e => drawn fo rnd disk nr nc e (compute_axes fo P rnd e (s_expand P)) r c) jumps
             = hit fo P rnd disk sat_regions jump_regions inside ng nr gdq i g r c).
        { unfold hit, jump_areas. fold jumps. apply existsb_ext_in. intros e _. unfold snowball. rewrite ER. cbn [negb orb andb].
          rewrite (drawn_covers fo rnd disk nr nc) by assumption. reflexivity. }
        rewrite HH. rewrite Nat.add_0_r.
        destruct (Nat.eqb_spec i' i) as [->|]; cbn [andb]; [|cbn; rewrite N.lor_0_r; reflexivity].
        destruct (Nat.eqb_spec k g) as [->|Hk].
        * rewrite Nat.leb_refl. replace (Nat.ltb g ng) with true by (symmetry; apply Nat.ltb_lt; lia). cbn [andb].
          unfold unsat_through. replace (g + 1 - g) with 1 by lia. cbn [seq forallb]. rewrite andb_true_r, Hs, has_bit, andb_comm.
          destruct (_ && _); cbn [flag_if]; [reflexivity|apply N.lor_0_r].
        * replace (Nat.leb g k && Nat.leb k g) with false; [cbn; apply N.lor_0_r|].
          symmetry. apply andb_false_iff. rewrite !Nat.leb_gt. lia.
      + intros r c Hr Hc. unfold core. rewrite ER. reflexivity.
  Qed.

  Lemma run_groups gdq per nxt tot i n : n <= ng - 1 -> (nxt <> None \/ ng <> 2) ->
    exists gdq' per' nxt' tot', foldM (STEP i) (seq 1 n) (gdq, per, nxt, tot) = Some (gdq', per', nxt', tot')
      /\ (nxt <> None \/ 1 <= n -> nxt' <> None) /\ eqf gdq' (GROUPS n gdq i)
      /\ (forall r c, r < nr -> c < nc -> per' r c = if existsb (fun g => CORE (GROUPS (g - 1) gdq i) i g r c) (seq 1 n) then s_jump P else per r c).
  Proof.
    intros Hn Hb. induction n as [|n IH].
    - exists gdq, per, nxt, tot. cbn. split; [reflexivity|]. split; [intros [H|H]; [exact H|lia]|]. split; [apply eqf_refl|reflexivity].
    - destruct IH as (g1 & p1 & x1 & t1 & E & HX & HG & HP); [lia|].
      rewrite seq_S, foldM_app, E. cbn [foldM bind]. replace (1 + n) with (S n) by lia.
      pose proof (step_spec g1 p1 x1 t1 i (S n) ltac:(lia)) as SS.
      destruct (STEP i (g1, p1, x1, t1) (S n)) as [[[[g2 p2] x2] t2]|] eqn:E2.
      + destruct SS as (_ & S2 & S3 & S4).
        exists g2, p2, x2, t2. split; [reflexivity|]. split; [intros _; exact S2|]. split.
        * eapply eqf_trans; [exact S3|]. cbn [groups]. apply mark_ext. exact HG.
        * intros r c Hr Hc. rewrite S4, HP by assumption. rewrite existsb_app. cbn [existsb plus]. rewrite orb_false_r.
          replace (S n - 1) with n by lia. rewrite (core_ext _ _ i (S n) r c HG).
          destruct (existsb _ (seq 1 n)), (CORE _ i (S n) r c); reflexivity.
      + exfalso. destruct SS as [S1 S2]. subst x1. destruct Hb as [Hb|Hb]; [apply HX; [left; exact Hb|reflexivity]|].
        assert (1 <= n) by lia. apply HX; [right; assumption|reflexivity].
  Qed.

  Lemma run_ints gdq n : ng <> 2 ->
    exists gdq' per' nxt' tot', foldM (fun (st : arr4 N * cube N * option (img bool) * nat) i =>
        let '(gdq, per, nxt, tot) := st in
        do t <- foldM (STEP i) (seq 1 (ng - 1)) (gdq, per i, nxt, tot);
        let '(gdq', p', nxt', tot') := t in
        Some (gdq', upd i p' per, nxt', tot')) (seq 0 n) (gdq, fun _ _ _ => 0%N, None, 0) = Some (gdq', per', nxt', tot')
      /\ eqf gdq' (INTS n gdq)
      /\ (forall i r c, r < nr -> c < nc -> per' i r c =
            flag_if (Nat.ltb i n && was_core fo P rnd disk sat_regions jump_regions inside ng nr gdq i r c) (s_jump P)).
  Proof.
    intro Hng. induction n as [|n IH].
    - exists gdq, (fun _ _ _ => 0%N), None, 0. split; [reflexivity|]. split; [apply eqf_refl|]. intros. reflexivity.
    - destruct IH as (g1 & p1 & x1 & t1 & E & HG & HP). rewrite seq_S, foldM_app, E. cbn [foldM bind plus].
      destruct (run_groups g1 (p1 n) x1 t1 n (ng - 1) ltac:(lia) (or_intror Hng)) as (g2 & p2 & x2 & t2 & E2 & _ & HG2 & HP2).
      rewrite E2. cbn [bind]. exists g2, (upd n p2 p1), x2, t2. split; [reflexivity|]. split.
      + eapply eqf_trans; [exact HG2|]. cbn [ints]. apply groups_ext. exact HG.
      + intros i r c Hr Hc. unfold upd. destruct (Nat.eqb_spec i n) as [->|Hi].
        * rewrite HP2 by assumption. rewrite HP by assumption. rewrite Nat.ltb_irrefl. replace (Nat.ltb n (S n)) with true by (symmetry; apply Nat.ltb_lt; lia).
          cbn [andb flag_if]. unfold was_core, before. erewrite existsb_ext_in; [unfold flag_if; reflexivity|].
          intros g _. cbv beta. apply core_ext. apply groups_ext. exact HG.
        * rewrite HP by assumption. f_equal. f_equal. destruct (Nat.ltb_spec i n), (Nat.ltb_spec i (S n)); lia || reflexivity.
  Qed.
End Run.
