(** Large-event and shower flagging depend on the frame only: lemmas for the jump step as a whole. *)
From Verif Require Import Base BaseLemmas FLaws JumpModel JumpSpec JumpProofs JumpStage JumpProps SnowModel SnowSpec SnowProofs SnowProps JdModel.
From Coq Require Import ZifyBool ZifyNat ZifyN.

Section Frame.
  Variables nints nr nc : nat.
  (** equal in every integration and pixel of the frame *)
  Definition same4 {A} (a b : arr4 A) : Prop := forall i k r c, i < nints -> r < nr -> c < nc -> a i k r c = b i k r c.
  Definition same2 {A} (a b : img A) : Prop := forall r c, r < nr -> c < nc -> a r c = b r c.
  Lemma same4_refl {A} (a : arr4 A) : same4 a a. Proof. intros i k r c _ _ _. reflexivity. Qed.
  Lemma same4_trans {A} (a b c : arr4 A) : same4 a b -> same4 b c -> same4 a c.
  Proof. intros H1 H2 i k r q Hi Hr Hq. rewrite H1, H2 by assumption. reflexivity. Qed.

  Variable fo : FOps.
  Variable P : snow fo.
  Variables kj ks : N.
  Hypothesis Hj : s_jump P = bit kj.
  Hypothesis Hs : s_sat P = bit ks.
  Hypothesis Hjs : kj <> ks.
  Variable rnd : fo -> Z.
  Variable disk : Z -> Z -> fo -> Z -> Z -> bool.
  Variable sr jr : img bool -> list (ellipse fo).
  Variable inside : fo * fo -> ellipse fo -> bool.
  Hypothesis HFs : looks_at_frame nr nc sr.
  Hypothesis HFj : looks_at_frame nr nc jr.
  Variable ng : nat.

  Lemma ellipses_same i grp es x n a b : i < nints -> same4 a b ->
    same4 (extend_ellipses fo P rnd disk ng nr nc i grp es x n a) (extend_ellipses fo P rnd disk ng nr nc i grp es x n b).
  Proof.
    intros Hi H i' k r c Hi' Hr Hc. rewrite !(extend_ellipses_spec fo P kj ks Hj Hs Hjs). rewrite (H i' k r c) by assumption.
    rewrite (unsat_ext ks a b); [reflexivity|]. intro j. rewrite H by assumption. reflexivity.
  Qed.
  Lemma saturation_same i grp es a b p q : same4 a b -> same2 p q ->
    same4 (fst (extend_saturation fo P rnd disk ng nr nc i grp es (a, p))) (fst (extend_saturation fo P rnd disk ng nr nc i grp es (b, q))) /\
    same2 (snd (extend_saturation fo P rnd disk ng nr nc i grp es (a, p))) (snd (extend_saturation fo P rnd disk ng nr nc i grp es (b, q))).
  Proof.
    intros H1 H2. split.
    - intros i' k r c Hi' Hr Hc. rewrite !(proj1 (extend_saturation_spec fo P rnd disk ng nr nc i grp es _ _ i' k r c)). rewrite H1 by assumption. reflexivity.
    - intros r c Hr Hc. rewrite !(proj2 (extend_saturation_spec fo P rnd disk ng nr nc i grp es _ _ 0 0 r c)). rewrite H2 by assumption. reflexivity.
  Qed.
  Definition same_opt (x y : option (img bool)) : Prop := match x, y with Some p, Some q => same2 p q | None, None => True | _, _ => False end.
  Definition same_state (s t : state) : Prop :=
    let '(a, p, x, m) := s in let '(b, q, y, n) := t in same4 a b /\ same2 p q /\ same_opt x y /\ m = n.
  Definition same_res (s t : option state) : Prop := match s, t with Some s, Some t => same_state s t | None, None => True | _, _ => False end.
  Lemma new_sat_same a b i g h : i < nints -> same4 a b -> same2 (SnowModel.new_sat fo P (a i g) (a i h)) (SnowModel.new_sat fo P (b i g) (b i h)).
  Proof. intros Hi H r c Hr Hc. unfold SnowModel.new_sat. rewrite !H by assumption. reflexivity. Qed.
  Lemma step_same i g s t : i < nints -> same_state s t ->
    same_res (SnowModel.step fo P rnd disk sr jr inside ng nr nc i s g) (SnowModel.step fo P rnd disk sr jr inside ng nr nc i t g).
  Proof.
    intros Hi. destruct s as [[[a p] x] m], t as [[[b q] y] n]. intros (H1 & H2 & H3 & <-). unfold SnowModel.step.
    set (x' := if Nat.ltb g (ng - 1) then _ else x). set (y' := if Nat.ltb g (ng - 1) then _ else y).
    assert (HX : same_opt x' y') by (unfold x', y'; destruct (Nat.ltb g (ng - 1)); [cbn; apply new_sat_same; assumption|exact H3]).
    clearbody x' y'. destruct x' as [x'|], y' as [y'|]; cbn in HX; try (exfalso; exact HX); [|exact I].
    rewrite (HFs _ _ HX), (HFs _ _ (new_sat_same a b i (g - 1) g Hi H1)).
    assert (HJ : jr (fun r c => has (a i g r c) (s_jump P)) = jr (fun r c => has (b i g r c) (s_jump P))).
    { apply HFj. intros r c Hr Hc. rewrite H1 by assumption. reflexivity. }
    rewrite HJ. clear HJ. set (sats := sr (SnowModel.new_sat fo P (b i (g - 1)) (b i g))). set (js := jr _). destruct (s_required P).
    - destruct (saturation_same i g sats a b p q H1 H2) as [E1 E2].
      destruct (extend_saturation fo P rnd disk ng nr nc i g sats (a, p)) as [a' p'], (extend_saturation fo P rnd disk ng nr nc i g sats (b, q)) as [b' q'].
      cbn [fst snd] in E1, E2. cbn. repeat split; [apply ellipses_same; assumption|exact E2|exact HX].
    - cbn. repeat split; [apply ellipses_same; assumption|exact H2|exact HX].
  Qed.
  Lemma steps_same i l : i < nints -> forall s t, same_state s t ->
    same_res (foldM (SnowModel.step fo P rnd disk sr jr inside ng nr nc i) l s) (foldM (SnowModel.step fo P rnd disk sr jr inside ng nr nc i) l t).
  Proof.
    intro Hi. induction l as [|g l IH]; intros s t H; [exact H|]. cbn [foldM]. pose proof (step_same i g s t Hi H) as S.
    destruct (SnowModel.step _ _ _ _ _ _ _ _ _ _ i s g), (SnowModel.step _ _ _ _ _ _ _ _ _ _ i t g); cbn in S; try (exfalso; exact S); [apply IH; exact S|exact I].
  Qed.
  (** snowballs: the same frame gives the same flags and the same number *)
  Lemma snow_same a b : same4 a b ->
    match flag_large_events fo P rnd disk sr jr inside nints ng nr nc a, flag_large_events fo P rnd disk sr jr inside nints ng nr nc b with
    | Some (x, m), Some (y, n) => same4 x y /\ m = n | None, None => True | _, _ => False end.
  Proof.
    intro H. unfold flag_large_events, events.
    set (body := fun (st : arr4 N * cube N * option (img bool) * nat) i => _).
    assert (G : forall l (s t : arr4 N * cube N * option (img bool) * nat), (forall i, In i l -> i < nints) ->
      (let '(a, p, x, m) := s in let '(b, q, y, n) := t in same4 a b /\ (forall i, same2 (p i) (q i)) /\ same_opt x y /\ m = n) ->
      match foldM body l s, foldM body l t with
      | Some (a, p, x, m), Some (b, q, y, n) => same4 a b /\ (forall i, same2 (p i) (q i)) /\ same_opt x y /\ m = n
      | None, None => True | _, _ => False end).
    { induction l as [|i l IH]; intros s t HI HS.
      - cbn. destruct s as [[[? ?] ?] ?], t as [[[? ?] ?] ?]. exact HS.
      - cbn [foldM]. destruct s as [[[a0 p0] x0] m0], t as [[[b0 q0] y0] n0]. destruct HS as (S1 & S2 & S3 & <-).
        assert (Hi : i < nints) by (apply HI; left; reflexivity).
        pose proof (steps_same i (seq 1 (ng - 1)) Hi (a0, p0 i, x0, m0) (b0, q0 i, y0, m0) (conj S1 (conj (S2 i) (conj S3 eq_refl)))) as S.
        assert (EB : forall a p x m, body (a, p, x, m) i = bind (foldM (SnowModel.step fo P rnd disk sr jr inside ng nr nc i) (seq 1 (ng - 1)) (a, p i, x, m))
          (fun t => let '(g, p', x', m') := t in Some (g, upd i p' p, x', m'))) by reflexivity.
        rewrite !EB. clear EB.
        destruct (foldM (SnowModel.step fo P rnd disk sr jr inside ng nr nc i) (seq 1 (ng - 1)) (a0, p0 i, x0, m0)) as [[[[a1 p1] x1] m1]|],
          (foldM (SnowModel.step fo P rnd disk sr jr inside ng nr nc i) (seq 1 (ng - 1)) (b0, q0 i, y0, m0)) as [[[[b1 q1] y1] n1]|]; cbn in S;
          try (exfalso; exact S); cbn [bind]; [|exact I]. destruct S as (T1 & T2 & T3 & <-). apply IH; [intros; apply HI; right; assumption|].
        split; [exact T1|]. split; [|split; [exact T3|reflexivity]]. intros j. unfold upd. destruct (Nat.eqb j i); [exact T2|apply S2]. }
    specialize (G (seq 0 nints) (a, fun _ _ _ => 0%N, None, 0) (b, fun _ _ _ => 0%N, None, 0)).
    assert (G' := G ltac:(intros i Hi; apply in_seq in Hi; lia) ltac:(split; [exact H|split; [intros i r c _ _; reflexivity|split; [exact I|reflexivity]]])). clear G.
    destruct (foldM body (seq 0 nints) (a, fun _ _ _ => 0%N, None, 0)) as [[[[a1 p1] x1] m1]|], (foldM body (seq 0 nints) (b, fun _ _ _ => 0%N, None, 0)) as [[[[b1 q1] y1] n1]|];
      try (exfalso; exact G'); cbn [bind]; [|exact I]. destruct G' as (T1 & T2 & _ & <-). split; [|reflexivity].
    intros i k r c Hi Hr Hc. unfold persist_phase. rewrite T1, (T2 (i - 1) r c) by assumption. reflexivity.
  Qed.

  (** ** Showers *)
  Variable kd : N.
  Hypothesis Hd : s_dnu P = bit kd.
  Variable mean : list fo -> fo.
  Variable reg : arr4 fo -> arr4 N -> img N -> nat -> nat -> list (ellipse fo).
  (** the region search looks at the integrations and pixels of the frame only *)
  Hypothesis HR : forall d d' g g' p p' i k, i < nints -> same4 d d' -> same4 g g' -> same2 p p' -> reg d g p i k = reg d' g' p' i k.
  Lemma all_pix_same (p q : img bool) : same2 p q -> all_pix nr nc p = all_pix nr nc q.
  Proof.
    intro H. unfold all_pix. apply forallb_ext_in'. intros r Hr. apply forallb_ext_in'. intros c Hc. apply in_seq in Hr, Hc. apply H; lia.
  Qed.
  Lemma count_same a b : same4 a b -> count_dnu_groups fo P nints ng nr nc a = count_dnu_groups fo P nints ng nr nc b.
  Proof.
    intro H. unfold count_dnu_groups. f_equal. apply map_ext_in. intros i Hi. apply in_seq in Hi. unfold count_if. f_equal. apply filter_ext_in'. intros g _.
    apply all_pix_same. intros r c Hr Hc. rewrite H by (assumption || lia). reflexivity.
  Qed.
  Lemma first_same (a b : nat -> img N) : (forall k, same2 (a k) (b k)) -> first_good_group fo P ng nr nc a = first_good_group fo P ng nr nc b.
  Proof.
    intro H. unfold first_good_group. replace (List.find (fun k => negb (all_pix nr nc (fun r c => has (b k r c) (s_dnu P)))) (seq 0 ng)) with (List.find (fun k => negb (all_pix nr nc (fun r c => has (a k r c) (s_dnu P)))) (seq 0 ng)); [reflexivity|].
    induction (seq 0 ng) as [|k l IH]; [reflexivity|]. cbn. rewrite IH. rewrite (all_pix_same (fun r c => has (a k r c) (s_dnu P)) (fun r c => has (b k r c) (s_dnu P))); [reflexivity|].
    intros r c Hr Hc. rewrite H by assumption. reflexivity.
  Qed.
  Lemma flag_showers_same evs : (forall i g es, In (i, g, es) evs -> i < nints) -> forall a b, same4 a b ->
    same4 (flag_showers fo P rnd disk ng nr nc evs a) (flag_showers fo P rnd disk ng nr nc evs b).
  Proof.
    unfold flag_showers. induction evs as [|[[i g] es] evs IH]; intros HI a b H; [exact H|]. cbn [fold_left]. apply IH; [intros i' g' es' X; apply (HI i' g' es'); right; exact X|].
    apply ellipses_same; [apply (HI i g es); left; reflexivity|exact H].
  Qed.
  (** showers: the data may differ where a group is flagged, as long as it is blanked *)
  Lemma shower_same d d' a b p p' : same4 a b -> same2 p p' -> same4 (nan_invalid fo P d a) (nan_invalid fo P d' b) ->
    (forall i k r c, i < nints -> r < nr -> c < nc -> d i k r c = d' i k r c \/ has (a i k r c) (N.lor (s_dnu P) (s_sat P)) = true) ->
    let x := find_faint_extended fo P rnd disk reg mean nints ng nr nc d a p in
    let y := find_faint_extended fo P rnd disk reg mean nints ng nr nc d' b p' in
    same4 (fst x) (fst y) /\ snd x = snd y.
  Proof.
    intros H HP HN HD. cbv zeta. unfold find_faint_extended. rewrite (count_same a b H). destruct (Z.ltb _ 10); [split; [exact H|reflexivity]|].
    cbv zeta. cbn [fst snd].
    assert (RM : same4 (ref_masked fo P a p) (ref_masked fo P b p')).
    { intros i k r c Hi Hr Hc. unfold ref_masked. rewrite HP, H by assumption. reflexivity. }
    assert (EV : shower_events fo P reg nints ng nr nc (nan_invalid fo P d a) (ref_masked fo P a p) p = shower_events fo P reg nints ng nr nc (nan_invalid fo P d' b) (ref_masked fo P b p') p').
    { unfold shower_events. rewrite !flat_map_concat_map. f_equal. apply map_ext_in. intros i Hi. apply in_seq in Hi.
      rewrite (first_same (ref_masked fo P a p i) (ref_masked fo P b p' i)) by (intros k r c Hr Hc; apply RM; (assumption || lia)).
      apply map_ext. intro g. rewrite (HR _ (nan_invalid fo P d' b) _ (ref_masked fo P b p') _ p') by (assumption || lia). reflexivity. }
    rewrite EV. set (evs := shower_events fo P reg nints ng nr nc _ _ p'). split; [|reflexivity].
    assert (EI : forall i g es, In (i, g, es) evs -> i < nints).
    { intros i g es X. unfold evs, shower_events in X. apply in_flat_map in X. destruct X as (i0 & X1 & X2). apply in_map_iff in X2. destruct X2 as (g0 & X2 & _).
      injection X2 as <- _ _. apply in_seq in X1. lia. }
    set (a1 := flag_showers fo P rnd disk ng nr nc evs (ref_masked fo P a p)). set (b1 := flag_showers fo P rnd disk ng nr nc evs (ref_masked fo P b p')).
    assert (S1 : same4 a1 b1) by (apply flag_showers_same; assumption).
    assert (FL : forall (u v : arr4 N), same4 u v -> (forall i k r c, i < nints -> r < nr -> c < nc -> has (a i k r c) (N.lor (s_dnu P) (s_sat P)) = true -> has (u i k r c) (N.lor (s_dnu P) (s_sat P)) = true) ->
      forall i r c, i < nints -> r < nr -> c < nc -> flux fo P mean ng d u i r c = flux fo P mean ng d' v i r c).
    { intros u v Huv HU i r c Hi Hr Hc. unfold flux. cbv zeta. f_equal. apply map_ext. intro g.
      assert (V : forall k, (if has (u i k r c) (N.lor (N.lor (s_dnu P) (s_sat P)) (s_jump P)) then fnan fo else d i k r c) =
        (if has (v i k r c) (N.lor (N.lor (s_dnu P) (s_sat P)) (s_jump P)) then fnan fo else d' i k r c)).
      { intro k. rewrite <- (Huv i k r c) by assumption. destruct (HD i k r c Hi Hr Hc) as [E|E]; [rewrite E; reflexivity|].
        apply (HU i k r c Hi Hr Hc) in E. replace (has (u i k r c) (N.lor (N.lor (s_dnu P) (s_sat P)) (s_jump P))) with true; [reflexivity|].
        symmetry. rewrite (flagged_spec fo P kj ks kd Hj Hs Hd). unfold flagged. rewrite Hd, Hs, has_or in E. rewrite E. reflexivity. }
      rewrite !V. reflexivity. }
    intros i k r c Hi Hr Hc. unfold max_flux_showers.
    rewrite (FL a b H) by (auto). rewrite (FL a1 b1 S1); try assumption.
    - rewrite H, S1 by assumption. reflexivity.
    - intros i' k' r' c' Hi' Hr' Hc' E. unfold a1. rewrite (shower_fold fo P kj ks Hj Hs Hjs). rewrite Hd, Hs, has_or in *. unfold ref_masked.
      rewrite !N.lor_spec. destruct (N.eqb (p r' c') (s_ref P)); [rewrite Hd, bit_testbit, N.eqb_refl; reflexivity|].
      apply orb_true_iff in E. destruct E as [E|E]; rewrite E; cbn [orb]; rewrite ?orb_true_r; reflexivity.
  Qed.
End Frame.
