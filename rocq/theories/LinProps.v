(** C12-C14, C56: linearity correction *)
From Verif Require Import Base BaseLemmas RBase SFLemmas LinModel LinSpec LinProofs.
From Coq Require Import Reals Lra SpecFloat ZifyBool ZifyNat ZifyN.
Local Open Scope nat_scope.

(** the coefficients of pixel (r, c) in the caller's array *)
Local Notation pix cs r c := (map (fun p => p r c) cs).

(** ** C12 *)
(** Plain correction, in whatever arithmetic: saturated samples unchanged, all others are the
    nested-form value of the reference polynomial (any number of terms). *)
Theorem C12_polynomial : forall (fo : FOps) fmean ac satval f12 fmin nints ng nr nc sat nlc
    data gdq pdq (cs : list (img fo)) lin_dq zf rp,
  2 <= length cs -> whole_flag nr nc nlc lin_dq ->
  exists o, linearity_correction fo fmean ac satval f12 fmin nints ng nr nc sat nlc data gdq pdq cs lin_dq zf None rp = Some o /\
  forall i g r c, i < nints -> r < nr -> c < nc ->
    (has (gdq i g r c) sat = true -> l_data o i g r c = data i g r c) /\
    (has (gdq i g r c) sat = false -> ~ unusable fo (pix cs r c) (lin_dq r c) nlc ->
       l_data o i g r c = horner fo (pix cs r c) (data i g r c)).
Proof.
  intros fo fmean ac satval f12 fmin nints ng nr nc sat nlc data gdq pdq cs lin_dq zf rp H2 WF.
  unfold linearity_correction. destruct (prepare_ok fo nr nc nlc cs lin_dq pdq H2 WF) as (cs' & p' & -> & L & V).
  cbn [bind].
  destruct (all_ints_total fo (fun i => Some (simple_int fo sat cs' (data i) (gdq i))) nints data) as [d' E]; [eauto|].
  rewrite E. cbn [bind]. exists {| l_data := d'; l_pdq := p'; l_zframe := match zf with None => None | Some z => Some (correct_zframe fo sat cs' z) end;
    l_coeffs := cs'; l_icoeffs := None |}. split; [destruct rp; reflexivity|].
  intros i g r c Hi Hr Hc. cbn [l_data]. pose proof (all_ints_spec fo _ _ _ _ E i) as S.
  destruct (Nat.ltb_spec i nints); [|lia]. injection S as S. rewrite <- S. unfold simple_int, poly_dq.
  split; intro Hs; rewrite Hs; [reflexivity|]. intro Hu. destruct (V r c Hr Hc) as [-> _].
  destruct (bad_pix fo nlc (at_pix fo cs r c) (lin_dq r c)) eqn:EB.
  - exfalso. apply Hu. apply bad_pix_unusable; [|exact EB]. rewrite map_length; exact H2.
  - apply poly_horner. unfold at_pix; rewrite map_length; exact H2.
Qed.
Print Assumptions C12_polynomial.

Lemma horner_polyR (cs : list R) x : horner RF cs x = polyR cs x.
Proof.
  unfold polyR. induction cs as [|a cs IH]; [reflexivity|].
  cbn [length seq map fold_right]. rewrite <- seq_shift, map_map. cbn [nth pow].
  destruct cs as [|b cs]; [cbn; lra|].
  change (horner RF (a :: b :: cs) x) with (horner RF (b :: cs) x * x + a)%R. rewrite IH.
  assert (G : forall l, fold_right Rplus 0%R (map (fun k => nth k (b :: cs) 0 * (x * x ^ k))%R l)
     = (fold_right Rplus 0 (map (fun k => nth k (b :: cs) 0 * x ^ k) l) * x)%R).
  { intro l. induction l as [|k l IHl]; cbn [map fold_right]; [lra|rewrite IHl; ring]. }
  rewrite G. lra.
Qed.

(** In exact arithmetic that value is c0 + c1 x + ... + cn x^n. *)
Theorem C12_exact_polynomial : forall fmean ac satval f12 fmin nints ng nr nc sat nlc
    data gdq pdq (cs : list (img RF)) lin_dq zf rp,
  2 <= length cs -> whole_flag nr nc nlc lin_dq ->
  exists o, linearity_correction RF fmean ac satval f12 fmin nints ng nr nc sat nlc data gdq pdq cs lin_dq zf None rp = Some o /\
  forall i g r c, i < nints -> r < nr -> c < nc ->
    has (gdq i g r c) sat = false ->
    N.land (lin_dq r c) nlc = 0%N -> nth 1 (pix cs r c) 0%R <> 0%R ->
    l_data o i g r c = polyR (pix cs r c) (data i g r c).
Proof.
  intros fmean ac satval f12 fmin nints ng nr nc sat nlc data gdq pdq cs lin_dq zf rp H2 WF.
  destruct (C12_polynomial RF fmean ac satval f12 fmin nints ng nr nc sat nlc data gdq pdq cs lin_dq zf rp H2 WF) as (o & E & V).
  exists o. split; [exact E|]. intros i g r c Hi Hr Hc Hs HL H1. destruct (V i g r c Hi Hr Hc) as [_ V2].
  rewrite (V2 Hs); [apply horner_polyR|]. intros [U|[(a & _ & U)|(a & Ea & U)]].
  - congruence.
  - discriminate U.
  - cbn in U. apply Reqb_spec in U. apply H1. change (RF : Type) with R in *. rewrite (nth_error_nth _ _ _ Ea). exact U.
Qed.
Print Assumptions C12_exact_polynomial.

(** ZEROFRAME: zeros (meaning bad data) stay zero, other values get the same polynomial. *)
Theorem C12_zeroframe : forall (fo : FOps) fmean ac satval f12 fmin nints ng nr nc sat nlc
    data gdq pdq (cs : list (img fo)) lin_dq z ilin rp o,
  2 <= length cs -> whole_flag nr nc nlc lin_dq ->
  linearity_correction fo fmean ac satval f12 fmin nints ng nr nc sat nlc data gdq pdq cs lin_dq (Some z) ilin rp = Some o ->
  exists z', l_zframe o = Some z' /\ forall i r c, r < nr -> c < nc ->
    (feq fo (z i r c) (fzero fo) = true -> z' i r c = fzero fo) /\
    (feq fo (z i r c) (fzero fo) = false -> ~ unusable fo (pix cs r c) (lin_dq r c) nlc ->
       z' i r c = horner fo (pix cs r c) (z i r c)).
Proof.
  intros fo fmean ac satval f12 fmin nints ng nr nc sat nlc data gdq pdq cs lin_dq z ilin rp o H2 WF.
  unfold linearity_correction. destruct (prepare_ok fo nr nc nlc cs lin_dq pdq H2 WF) as (cs' & p' & -> & L & V).
  cbn [bind]. intro E.
  assert (E' : exists d' p2 il, o = {| l_data := d'; l_pdq := p2; l_zframe := Some (correct_zframe fo sat cs' z); l_coeffs := cs'; l_icoeffs := il |}).
  { destruct ilin as [ics|]; [destruct rp as [rp|]; [|discriminate]|];
      [apply bind_Some in E; destruct E as ([il p2] & _ & E)|destruct rp as [rp|]; cbn [bind] in E];
      apply bind_Some in E; destruct E as (d' & _ & [= <-]); eauto. }
  destruct E' as (d' & p2 & il & ->). cbn [l_zframe]. eexists; split; [reflexivity|]. intros i r c Hr Hc.
  unfold correct_zframe. split; intro Hz; rewrite Hz; [reflexivity|]. intro Hu.
  unfold poly_dq, has. cbn [N.land N.eqb negb]. destruct (V r c Hr Hc) as [-> _].
  destruct (bad_pix fo nlc (at_pix fo cs r c) (lin_dq r c)) eqn:EB.
  - exfalso. apply Hu. apply bad_pix_unusable; [|exact EB]. rewrite map_length; exact H2.
  - apply poly_horner. unfold at_pix; rewrite map_length; exact H2.
Qed.
Print Assumptions C12_zeroframe.

(** ** C13 *)
(** Exact pixel DQ of the step, with or without inverse coefficients. *)
Theorem C13_flags : forall (fo : FOps) fmean ac satval f12 fmin nints ng nr nc sat nlc
    data gdq pdq (cs : list (img fo)) lin_dq zf ilin rp o,
  linearity_correction fo fmean ac satval f12 fmin nints ng nr nc sat nlc data gdq pdq cs lin_dq zf ilin rp = Some o ->
  forall r c b, r < nr -> c < nc ->
    (N.testbit (l_pdq o r c) b = true <->
     N.testbit (pdq r c) b = true \/ N.testbit (lin_dq r c) b = true \/
     N.testbit nlc b = true /\
       (unusable fo (pix cs r c) (lin_dq r c) nlc \/
        exists ics, ilin = Some ics /\ unusable fo (pix ics r c) (lin_dq r c) nlc)).
Proof.
  intros fo fmean ac satval f12 fmin nints ng nr nc sat nlc data gdq pdq cs lin_dq zf ilin rp o E r c b Hr Hc.
  assert (PR : forall cs0 p0 cs1 p1, prepare fo nr nc nlc cs0 lin_dq p0 = Some (cs1, p1) ->
     (N.testbit (p1 r c) b = true <-> N.testbit (p0 r c) b = true \/ N.testbit (lin_dq r c) b = true \/
       N.testbit nlc b = true /\ unusable fo (pix cs0 r c) (lin_dq r c) nlc)).
  { intros cs0 p0 cs1 p1 Ep.
    destruct (le_lt_dec 2 (length cs0)) as [H2|H2]; [|rewrite prepare_short in Ep by exact H2; discriminate].
    assert (WF : whole_flag nr nc nlc lin_dq).
    { intros r1 c1 Hr1 Hc1.
      destruct (N.eq_dec (N.land (lin_dq r1 c1) nlc) 0) as [|Z1]; [left; assumption|].
      destruct (N.eq_dec (N.land (lin_dq r1 c1) nlc) nlc) as [|Z2]; [right; assumption|].
      exfalso. rewrite prepare_partial_flag in Ep; [discriminate|]. intro W. destruct (W r1 c1 Hr1 Hc1); contradiction. }
    destruct (prepare_ok fo nr nc nlc cs0 lin_dq p0 H2 WF) as (cs' & p' & Ep' & _ & V).
    rewrite Ep in Ep'. injection Ep' as <- <-. destruct (V r c Hr Hc) as [_ ->].
    rewrite !N.lor_spec, !orb_true_iff.
    rewrite <- (bad_pix_unusable fo nlc (pix cs0 r c) (lin_dq r c)) by (rewrite map_length; exact H2).
    change (at_pix fo cs0 r c) with (pix cs0 r c).
    destruct (bad_pix fo nlc (pix cs0 r c) (lin_dq r c)); cbn [flag_if]; rewrite ?N.bits_0; intuition congruence. }
  unfold linearity_correction in E.
  destruct ilin as [ics|].
  - destruct rp as [rp|]; [|discriminate].
    apply bind_Some in E. destruct E as ([cs' p1] & E1 & E).
    apply bind_Some in E. destruct E as ([il p2] & E2 & E).
    apply bind_Some in E2. destruct E2 as ([ics' q] & E2 & [= <- <-]).
    apply bind_Some in E. destruct E as (d' & _ & [= <-]). cbn [l_pdq].
    rewrite (PR _ _ _ _ E2), (PR _ _ _ _ E1). split.
    + intros [[H|[H|[H1 H2]]]|[H|[H1 H2]]]; [tauto|tauto|tauto|tauto|].
      right; right. split; [exact H1|]. right. exists ics. split; [reflexivity|exact H2].
    + intros [H|[H|[H1 [H2|(x & [= <-] & H2)]]]]; tauto.
  - assert (X : exists cs' d' z', prepare fo nr nc nlc cs lin_dq pdq = Some (cs', l_pdq o) /\
        o = {| l_data := d'; l_pdq := l_pdq o; l_zframe := z'; l_coeffs := cs'; l_icoeffs := None |}).
    { destruct rp as [rp|]; apply bind_Some in E; destruct E as ([cs' p1] & E1 & E); cbn [bind] in E;
        apply bind_Some in E; destruct E as (d' & _ & [= <-]); cbn [l_pdq]; eauto. }
    destruct X as (cs' & d' & z' & E1 & _). rewrite (PR _ _ _ _ E1). split.
    + intros [H|[H|[H1 H2]]]; tauto.
    + intros [H|[H|[H1 [H2|(x & X & _)]]]]; [tauto|tauto|tauto|discriminate].
Qed.
Print Assumptions C13_flags.

(** The step raises exactly when a coefficient array has fewer than two terms, or the
    reference DQ carries only part of a multi-bit NO_LIN_CORR value (plain path). *)
Theorem C13_raises_exactly : forall (fo : FOps) fmean ac satval f12 fmin nints ng nr nc sat nlc
    data gdq pdq (cs : list (img fo)) lin_dq zf rp,
  linearity_correction fo fmean ac satval f12 fmin nints ng nr nc sat nlc data gdq pdq cs lin_dq zf None rp = None <->
  length cs < 2 \/ exists r c, r < nr /\ c < nc /\ N.land (lin_dq r c) nlc <> 0%N /\ N.land (lin_dq r c) nlc <> nlc.
Proof.
  intros fo fmean ac satval f12 fmin nints ng nr nc sat nlc data gdq pdq cs lin_dq zf rp.
  assert (B : forall (x : option (list (img fo) * img N)) , x = None ->
     prepare fo nr nc nlc cs lin_dq pdq = x ->
     linearity_correction fo fmean ac satval f12 fmin nints ng nr nc sat nlc data gdq pdq cs lin_dq zf None rp = None).
  { intros x -> Ex. unfold linearity_correction. rewrite Ex. destruct rp; reflexivity. }
  split.
  - intro E. destruct (le_lt_dec 2 (length cs)) as [H2|H2]; [right|left; exact H2].
    destruct (all_pixels nr nc (fun r c => N.eqb (N.land (lin_dq r c) nlc) 0 || N.eqb (N.land (lin_dq r c) nlc) nlc)) eqn:EA.
    + exfalso. assert (WF : whole_flag nr nc nlc lin_dq).
      { intros r c Hr Hc. pose proof (proj1 (all_pixels_spec _ _ _) EA r c Hr Hc) as X. cbv beta in X.
        apply orb_true_iff in X. rewrite !N.eqb_eq in X. exact X. }
      destruct (C12_polynomial fo fmean ac satval f12 fmin nints ng nr nc sat nlc data gdq pdq cs lin_dq zf rp H2 WF) as (o & Eo & _).
      congruence.
    + unfold all_pixels in EA.
      assert (G : forall (f : nat -> bool) l, forallb f l = false -> exists x, In x l /\ f x = false).
      { clear. intros f l. induction l as [|x l IH]; cbn; [discriminate|]. destruct (f x) eqn:Ef; cbn.
        - intro H. destruct (IH H) as (y & Hy & Fy). eauto.
        - intros _. eauto. }
      destruct (G _ _ EA) as (r & Hr & E1). destruct (G _ _ E1) as (c & Hc & E2).
      apply in_seq in Hr, Hc. apply orb_false_iff in E2. rewrite !N.eqb_neq in E2.
      exists r, c. intuition lia.
  - intros [H|(r & c & Hr & Hc & H0 & H1)].
    + apply (B None eq_refl). apply prepare_short; exact H.
    + apply (B None eq_refl). apply prepare_partial_flag. intro W. destruct (W r c Hr Hc); contradiction.
Qed.
Print Assumptions C13_raises_exactly.

(** Unusable pixel, IEEE arithmetic of any width whose one is a power-of-two mantissa (binary32
    and binary64 below): every finite sample comes out as it went in; zero stays zero. *)
Lemma horner_ben prec emax k n (x : spec_float) : 2 <= n ->
  fone (ieee prec emax) = sf_one k -> valid_binary prec emax x = true -> sf_isfinite x = true ->
  let y := horner (ieee prec emax) (ben (ieee prec emax) n) x in
  (sf_zero x /\ sf_zero y) \/ y = x.
Proof.
  intros Hn H1 V Fi. cbv zeta.
  set (fo := ieee prec emax) in *.
  assert (Z : forall m, exists s, horner fo (repeat (fzero fo) m) x = S754_zero s).
  { induction m as [|m [s IH]]; [exists false; reflexivity|]. cbn [repeat].
    destruct m as [|m]; [exists false; reflexivity|].
    change (horner fo (fzero fo :: repeat (fzero fo) (S m)) x)
      with (fadd fo (fmul fo (horner fo (repeat (fzero fo) (S m)) x) x) (fzero fo)). rewrite IH.
    destruct x as [sx|sx| |sx mx ex]; try discriminate; cbn; destruct s, sx; cbn; eauto. }
  assert (B : ben fo n = fzero fo :: fone fo :: repeat (fzero fo) (n - 2)).
  { apply nth_ext with (d := fzero fo) (d' := fzero fo); [rewrite ben_length; cbn; rewrite repeat_length; lia|].
    intros j Hj. rewrite ben_length in Hj. rewrite ben_nth by exact Hj.
    destruct j as [|[|j]]; cbn; [reflexivity|reflexivity|].
    rewrite nth_repeat. reflexivity. }
  rewrite B.
  assert (T : horner fo (fone fo :: repeat (fzero fo) (n - 2)) x = fone fo).
  { destruct (n - 2) as [|m]; [reflexivity|]. cbn [repeat].
    change (horner fo (fone fo :: fzero fo :: repeat (fzero fo) m) x)
      with (fadd fo (fmul fo (horner fo (repeat (fzero fo) (S m)) x) x) (fone fo)).
    destruct (Z (S m)) as [s ->]. rewrite H1. unfold sf_one.
    destruct x as [sx|sx| |sx mx ex]; try discriminate; cbn; reflexivity. }
  change (horner fo (fzero fo :: fone fo :: repeat (fzero fo) (n - 2)) x)
    with (fadd fo (fmul fo (horner fo (fone fo :: repeat (fzero fo) (n - 2)) x) x) (fzero fo)).
  rewrite T, H1. change (fmul fo) with (SFmul prec emax). rewrite SFmul_one by exact V.
  destruct x as [sx|sx| |sx mx ex]; try discriminate; [left|right; reflexivity].
  destruct sx; cbn; split; eexists; reflexivity.
Qed.

Lemma passthrough prec emax k (fo := ieee prec emax) : fone fo = sf_one k ->
  forall fmean ac satval f12 fmin nints ng nr nc sat nlc data gdq pdq (cs : list (img fo)) lin_dq zf rp o,
  linearity_correction fo fmean ac satval f12 fmin nints ng nr nc sat nlc data gdq pdq cs lin_dq zf None rp = Some o ->
  forall i g r c, i < nints -> r < nr -> c < nc ->
    unusable fo (pix cs r c) (lin_dq r c) nlc ->
    valid_binary prec emax (data i g r c) = true -> sf_isfinite (data i g r c) = true ->
    (sf_zero (data i g r c) /\ sf_zero (l_data o i g r c)) \/ l_data o i g r c = data i g r c.
Proof.
  intros H1 fmean ac satval f12 fmin nints ng nr nc sat nlc data gdq pdq cs lin_dq zf rp o E i g r c Hi Hr Hc HU V Fi.
  destruct (le_lt_dec 2 (length cs)) as [H2|H2].
  2: { rewrite (proj2 (C13_raises_exactly fo fmean ac satval f12 fmin nints ng nr nc sat nlc data gdq pdq cs lin_dq zf rp)) in E;
       [discriminate|left; exact H2]. }
  assert (WF : whole_flag nr nc nlc lin_dq).
  { intros r1 c1 Hr1 Hc1.
    destruct (N.eq_dec (N.land (lin_dq r1 c1) nlc) 0) as [|Z1]; [left; assumption|].
    destruct (N.eq_dec (N.land (lin_dq r1 c1) nlc) nlc) as [|Z2]; [right; assumption|].
    rewrite (proj2 (C13_raises_exactly fo fmean ac satval f12 fmin nints ng nr nc sat nlc data gdq pdq cs lin_dq zf rp)) in E;
      [discriminate|right; exists r1, c1; auto]. }
  unfold linearity_correction in E. destruct (prepare_ok fo nr nc nlc cs lin_dq pdq H2 WF) as (cs' & p' & Ep & L & PV).
  rewrite Ep in E. cbn [bind] in E.
  assert (E' : exists d', all_ints fo (fun i => Some (simple_int fo sat cs' (data i) (gdq i))) nints data = Some d' /\ l_data o = d').
  { destruct rp as [rp|]; apply bind_Some in E; destruct E as (d' & Ed & [= <-]); exists d'; split; auto. }
  destruct E' as (d' & Ed & ->). pose proof (all_ints_spec fo _ _ _ _ Ed i) as S.
  destruct (Nat.ltb_spec i nints); [|lia]. injection S as S. rewrite <- S. unfold simple_int, poly_dq.
  destruct (has (gdq i g r c) sat); [right; reflexivity|].
  destruct (PV r c Hr Hc) as [-> _].
  assert (EB : bad_pix fo nlc (at_pix fo cs r c) (lin_dq r c) = true).
  { apply bad_pix_unusable; [rewrite at_pix_length; exact H2|exact HU]. }
  rewrite EB. rewrite poly_horner by (rewrite ben_length; exact H2).
  apply (horner_ben prec emax k); assumption.
Qed.

Theorem C13_passthrough_single : forall fmean ac satval f12 fmin nints ng nr nc sat nlc data gdq pdq (cs : list (img B32)) lin_dq zf rp o,
  linearity_correction B32 fmean ac satval f12 fmin nints ng nr nc sat nlc data gdq pdq cs lin_dq zf None rp = Some o ->
  forall i g r c, i < nints -> r < nr -> c < nc ->
    unusable B32 (pix cs r c) (lin_dq r c) nlc ->
    valid_binary 24 128 (data i g r c) = true -> fisfinite B32 (data i g r c) = true ->
    (sf_zero (data i g r c) /\ sf_zero (l_data o i g r c)) \/ l_data o i g r c = data i g r c.
Proof. apply (passthrough 24 128 23). reflexivity. Qed.
Print Assumptions C13_passthrough_single.

Theorem C13_passthrough_double : forall fmean ac satval f12 fmin nints ng nr nc sat nlc data gdq pdq (cs : list (img B64)) lin_dq zf rp o,
  linearity_correction B64 fmean ac satval f12 fmin nints ng nr nc sat nlc data gdq pdq cs lin_dq zf None rp = Some o ->
  forall i g r c, i < nints -> r < nr -> c < nc ->
    unusable B64 (pix cs r c) (lin_dq r c) nlc ->
    valid_binary 53 1024 (data i g r c) = true -> fisfinite B64 (data i g r c) = true ->
    (sf_zero (data i g r c) /\ sf_zero (l_data o i g r c)) \/ l_data o i g r c = data i g r c.
Proof. apply (passthrough 53 1024 52). reflexivity. Qed.
Print Assumptions C13_passthrough_double.

(** The step overwrites the coefficient array it is given.  Correcting a second exposure with
    the same array gives the same values as a fresh array would ... *)
Theorem C13_reuse_same_values : forall (fo : FOps) fmean ac satval f12 fmin nints ng nr nc sat nlc
    data gdq pdq (cs : list (img fo)) lin_dq zf rp o nints' ng' data' gdq' pdq' zf' rp' o2 ofresh,
  linearity_correction fo fmean ac satval f12 fmin nints ng nr nc sat nlc data gdq pdq cs lin_dq zf None rp = Some o ->
  linearity_correction fo fmean ac satval f12 fmin nints' ng' nr nc sat nlc data' gdq' pdq' (l_coeffs o) lin_dq zf' None rp' = Some o2 ->
  linearity_correction fo fmean ac satval f12 fmin nints' ng' nr nc sat nlc data' gdq' pdq' cs lin_dq zf' None rp' = Some ofresh ->
  forall i g r c, i < nints' -> r < nr -> c < nc -> l_data o2 i g r c = l_data ofresh i g r c.
Proof.
  intros fo fmean ac satval f12 fmin nints ng nr nc sat nlc data gdq pdq cs lin_dq zf rp o nints' ng' data' gdq' pdq' zf' rp' o2 ofresh E1 E2 E3.
  assert (SH : forall nints ng data gdq pdq cs zf rp o,
     linearity_correction fo fmean ac satval f12 fmin nints ng nr nc sat nlc data gdq pdq cs lin_dq zf None rp = Some o ->
     exists p', prepare fo nr nc nlc cs lin_dq pdq = Some (l_coeffs o, p') /\
     forall i, i < nints -> l_data o i = simple_int fo sat (l_coeffs o) (data i) (gdq i)).
  { clear. intros nints ng data gdq pdq cs zf rp o E. unfold linearity_correction in E.
    assert (X : exists cs' p' d', prepare fo nr nc nlc cs lin_dq pdq = Some (cs', p') /\
      all_ints fo (fun i => Some (simple_int fo sat cs' (data i) (gdq i))) nints data = Some d' /\ l_coeffs o = cs' /\ l_data o = d').
    { destruct rp as [rp|]; apply bind_Some in E; destruct E as ([cs' p1] & E1 & E); cbn [bind] in E;
        apply bind_Some in E; destruct E as (d' & Ed & [= <-]); exists cs', p1, d'; auto. }
    destruct X as (cs' & p' & d' & Ep & Ed & -> & ->). exists p'. split; [exact Ep|]. intros i Hi.
    pose proof (all_ints_spec fo _ _ _ _ Ed i) as S. destruct (Nat.ltb_spec i nints); [|lia]. injection S as <-. reflexivity. }
  destruct (SH _ _ _ _ _ _ _ _ _ E1) as (p1 & P1 & _). destruct (SH _ _ _ _ _ _ _ _ _ E2) as (p2 & P2 & D2).
  destruct (SH _ _ _ _ _ _ _ _ _ E3) as (p3 & P3 & D3).
  destruct (le_lt_dec 2 (length cs)) as [H2|H2]; [|rewrite prepare_short in P1 by exact H2; discriminate].
  assert (WF : whole_flag nr nc nlc lin_dq).
  { intros r1 c1 Hr1 Hc1.
    destruct (N.eq_dec (N.land (lin_dq r1 c1) nlc) 0) as [|Z1]; [left; assumption|].
    destruct (N.eq_dec (N.land (lin_dq r1 c1) nlc) nlc) as [|Z2]; [right; assumption|].
    exfalso. rewrite prepare_partial_flag in P1; [discriminate|]. intro W. destruct (W r1 c1 Hr1 Hc1); contradiction. }
  intros i g r c Hi Hr Hc. rewrite D2, D3 by exact Hi. unfold simple_int. f_equal.
  destruct (prepare_ok fo nr nc nlc cs lin_dq pdq H2 WF) as (x & y & Ex & L & V). rewrite P1 in Ex. injection Ex as <- <-.
  destruct (prepare_ok fo nr nc nlc cs lin_dq pdq' H2 WF) as (x & y & Ex & _ & V3). rewrite P3 in Ex. injection Ex as <- <-.
  destruct (prepare_ok fo nr nc nlc (l_coeffs o) lin_dq pdq' ltac:(lia) WF) as (x & y & Ex & _ & V2). rewrite P2 in Ex. injection Ex as <- <-.
  rewrite (proj1 (V2 r c Hr Hc)), (proj1 (V3 r c Hr Hc)), (proj1 (V r c Hr Hc)), L.
  destruct (bad_pix fo nlc (at_pix fo cs r c) (lin_dq r c)) eqn:EB; [destruct (bad_pix fo nlc (ben fo (length cs)) (lin_dq r c)); reflexivity|].
  rewrite EB. reflexivity.
Qed.
Print Assumptions C13_reuse_same_values.

(** Read-level path, exact arithmetic, no additional correction and no saturation cap: a pixel
    whose forward coefficients are unusable keeps its data there too, whatever the inverse
    coefficients (rewinding to single reads and back is neutral for the group mean). *)
Theorem C13_readlevel_passthrough : forall f12 fmin nints ng nr nc sat nlc data gdq pdq (cs ics : list (img RF)) lin_dq zf rp o,
  linearity_correction RF Rmean None None f12 fmin nints ng nr nc sat nlc data gdq pdq cs lin_dq zf (Some ics) (Some rp) = Some o ->
  (forall g, g < ng -> nth g rp [] <> []) ->
  forall i g r c, i < nints -> g < ng -> r < nr -> c < nc ->
    unusable RF (pix cs r c) (lin_dq r c) nlc -> l_data o i g r c = data i g r c.
Proof.
  intros f12 fmin nints ng nr nc sat nlc data gdq pdq cs ics lin_dq zf rp o E Hne i g r c Hi Hg Hr Hc HU.
  unfold linearity_correction in E.
  apply bind_Some in E. destruct E as ([cs' p1] & E1 & E).
  apply bind_Some in E. destruct E as ([il p2] & E2 & E).
  apply bind_Some in E2. destruct E2 as ([ics' q'] & E2 & [= <- <-]).
  apply bind_Some in E. destruct E as (d' & Ed & [= <-]). cbn [l_data].
  pose proof (all_ints_spec RF _ _ _ _ Ed i) as SI. destruct (Nat.ltb_spec i nints); [|lia].
  unfold readlevel_int in SI. cbn [Nat.eqb] in SI. destruct (Nat.ltb 0 nr && _)%bool; [discriminate|]. injection SI as SI. rewrite <- SI.
  rewrite (tiles_ok RF Rmean None None f12 fmin rp sat ng nr nc 64 cs' ics' (data i) (gdq i))
    by (try discriminate; try lia; intros; reflexivity).
  replace (Nat.leb 0 r && Nat.ltb r nr)%bool with true by lia. unfold tile.
  destruct (has (gdq i g r c) sat); [reflexivity|].
  destruct (le_lt_dec 2 (length cs)) as [H2|H2]; [|rewrite prepare_short in E1 by exact H2; discriminate].
  assert (WF : whole_flag nr nc nlc lin_dq).
  { intros r1 c1 Hr1 Hc1.
    destruct (N.eq_dec (N.land (lin_dq r1 c1) nlc) 0) as [|Z1]; [left; assumption|].
    destruct (N.eq_dec (N.land (lin_dq r1 c1) nlc) nlc) as [|Z2]; [right; assumption|].
    exfalso. rewrite prepare_partial_flag in E1; [discriminate|]. intro W. destruct (W r1 c1 Hr1 Hc1); contradiction. }
  destruct (prepare_ok RF nr nc nlc cs lin_dq pdq H2 WF) as (x & y & Ex & L & V). rewrite E1 in Ex. injection Ex as <- <-.
  assert (EB : bad_pix RF nlc (at_pix RF cs r c) (lin_dq r c) = true).
  { apply bad_pix_unusable; [rewrite at_pix_length; exact H2|exact HU]. }
  destruct (V r c Hr Hc) as [Vc _]. rewrite EB in Vc. rewrite Vc.
  assert (ID : forall x : R, LinModel.poly RF (ben RF (length cs)) x = x).
  { intro u. rewrite poly_horner by (rewrite ben_length; exact H2).
    assert (B : ben RF (length cs) = 0%R :: 1%R :: repeat 0%R (length cs - 2)).
    { apply nth_ext with (d := 0%R) (d' := 0%R); [rewrite ben_length; cbn [length]; rewrite repeat_length; lia|].
      intros j Hj. rewrite ben_length in Hj. change (nth j (ben RF (length cs)) 0%R) with (nth j (ben RF (length cs)) (fzero RF)).
      rewrite ben_nth by exact Hj. destruct j as [|[|j]]; cbn; [reflexivity|reflexivity|]. rewrite nth_repeat. reflexivity. }
    rewrite B.
    assert (Z : forall m, horner RF (repeat 0%R m) u = 0%R).
    { induction m as [|m IH]; [reflexivity|]. destruct m as [|m]; [reflexivity|].
      change (horner RF (repeat 0%R (S (S m))) u) with (horner RF (repeat 0%R (S m)) u * u + 0)%R. rewrite IH. toR. ring. }
    destruct (length cs - 2) as [|m]; [cbn [repeat horner]; toR; ring|].
    change (horner RF (0%R :: 1%R :: repeat 0%R (S m)) u) with ((horner RF (repeat 0%R (S m)) u * u + 1) * u + 0)%R.
    rewrite Z. toR. ring. }
  set (us := reads_unlin RF Rmean rp sat ng (ben RF (length cs)) (at_pix RF ics' r c) (fun g => data i g r c) (fun g => gdq i g r c) g).
  transitivity (Rmean us).
  - f_equal. assert (Lus : length us = length (nth g rp [])) by (unfold us, reads_unlin; rewrite !map_length; reflexivity).
    apply nth_ext with (d := 0%R) (d' := 0%R); [rewrite map_length, seq_length, Lus; reflexivity|].
    intros j Hj. rewrite map_length, seq_length in Hj.
    assert (NS : forall (f : nat -> R) n t, t < n -> nth t (map f (seq 0 n)) 0%R = f t).
    { intros f n0 t Ht. rewrite (nth_indep _ _ (f 0)) by (rewrite map_length, seq_length; exact Ht).
      rewrite map_nth, seq_nth by exact Ht. reflexivity. }
    change (RF : Type) with R. rewrite NS by exact Hj. apply ID.
  - unfold us, reads_unlin. set (u0 := map _ (nth g rp [])).
    change (Rmean (map (fun u : R => u + (data i g r c - Rmean u0)) u0) = data i g r c)%R.
    rewrite Rmean_shift; [rewrite map_id; lra|].
    unfold u0. intro H0. apply map_eq_nil in H0. exact (Hne g Hg H0).
Qed.
Print Assumptions C13_readlevel_passthrough.

(** ** C14 *)
(** Read-level path: the tile height never matters, and equals one pass over the whole frame;
    the row-wise additional correction is the documented requirement on that callable. *)
Theorem C14_tile_height : forall (fo : FOps) fmean ac satval f12 fmin rp sat ng nr nc th th'
    (cs ics : list (img fo)) data gdq,
  (forall f, ac = Some f -> row_local fo f) -> 1 <= th -> 1 <= th' ->
  match readlevel_int fo fmean ac satval f12 fmin rp sat ng nr nc th cs ics data gdq,
        readlevel_int fo fmean ac satval f12 fmin rp sat ng nr nc th' cs ics data gdq with
  | Some o, Some o' => forall g r c, r < nr -> c < nc -> o g r c = o' g r c
  | None, None => True
  | _, _ => False
  end.
Proof.
  intros fo fmean ac satval f12 fmin rp sat ng nr nc th th' cs ics data gdq RL Ht Ht'.
  unfold readlevel_int. replace (Nat.eqb th 0) with false by lia. replace (Nat.eqb th' 0) with false by lia.
  destruct (_ && _)%bool; [exact I|]. intros g r c Hr Hc.
  rewrite !(tiles_ok fo fmean ac satval f12 fmin rp sat ng nr nc _ cs ics data gdq RL); try lia; try (intros; reflexivity).
Qed.
Print Assumptions C14_tile_height.

(** Each row is processed from its own input only: moving or changing other rows, or cutting
    the row out of the frame, gives the same output row. *)
Theorem C14_rows_independent : forall (fo : FOps) fmean ac f12 fmin rp sat ng nr nr' nc th th' r r'
    satval satval' (cs ics cs' ics' : list (img fo)) data gdq data' gdq' o o',
  (forall f, ac = Some f -> row_local fo f) -> r < nr -> r' < nr' ->
  (forall c, pix cs r c = pix cs' r' c) -> (forall c, pix ics r c = pix ics' r' c) ->
  (match satval, satval' with None, None => True | Some v, Some v' => forall c, v r c = v' r' c | _, _ => False end) ->
  (forall g c, data g r c = data' g r' c) -> (forall g c, gdq g r c = gdq' g r' c) ->
  readlevel_int fo fmean ac satval f12 fmin rp sat ng nr nc th cs ics data gdq = Some o ->
  readlevel_int fo fmean ac satval' f12 fmin rp sat ng nr' nc th' cs' ics' data' gdq' = Some o' ->
  forall g c, c < nc -> o g r c = o' g r' c.
Proof.
  intros fo fmean ac f12 fmin rp sat ng nr nr' nc th th' r r' satval satval' cs ics cs' ics' data gdq data' gdq' o o'
    RL Hr Hr' E1 E2 E3 E4 E5 R1 R2 g c Hc. unfold readlevel_int in R1, R2.
  destruct (Nat.eqb_spec th 0); [discriminate|]. destruct (Nat.eqb_spec th' 0); [discriminate|].
  destruct (Nat.ltb 0 nr && _)%bool; [discriminate|]. destruct (Nat.ltb 0 nr' && _)%bool; [discriminate|].
  injection R1 as <-. injection R2 as <-.
  rewrite (tiles_ok fo fmean ac satval f12 fmin rp sat ng nr nc th cs ics data gdq RL) by (try lia; intros; reflexivity).
  rewrite (tiles_ok fo fmean ac satval' f12 fmin rp sat ng nr' nc th' cs' ics' data' gdq' RL) by (try lia; intros; reflexivity).
  replace (Nat.leb 0 r && Nat.ltb r nr)%bool with true by lia. replace (Nat.leb 0 r' && Nat.ltb r' nr')%bool with true by lia.
  apply tile_row; assumption.
Qed.
Print Assumptions C14_rows_independent.

(** Saturated groups are left alone by the read-level path as well. *)
Theorem C14_saturated_unchanged : forall (fo : FOps) fmean ac satval f12 fmin rp sat ng nr nc th
    (cs ics : list (img fo)) data gdq o,
  (forall f, ac = Some f -> row_local fo f) ->
  readlevel_int fo fmean ac satval f12 fmin rp sat ng nr nc th cs ics data gdq = Some o ->
  forall g r c, c < nc -> has (gdq g r c) sat = true -> o g r c = data g r c.
Proof.
  intros fo fmean ac satval f12 fmin rp sat ng nr nc th cs ics data gdq o RL E g r c Hc Hs. unfold readlevel_int in E.
  destruct (Nat.eqb_spec th 0); [discriminate|]. destruct (_ && _)%bool; [discriminate|]. injection E as <-.
  rewrite (tiles_ok fo fmean ac satval f12 fmin rp sat ng nr nc th cs ics data gdq RL) by (try lia; intros; reflexivity).
  destruct (_ && _)%bool; [|reflexivity]. unfold tile. rewrite Hs. reflexivity.
Qed.
Print Assumptions C14_saturated_unchanged.

(** ** C56 *)
(** A ramp that is truly linear in time, seen through a nonlinearity the two polynomials
    describe exactly, is recovered exactly by the read-level path, however many reads are
    averaged into a group.  [m] groups are unsaturated; the first group and group [m-2] hold a
    single read each, at different times. *)
Theorem C56_readlevel_recovers_ramp : forall rp satval f12 sat ng nr nc th (cs ics : list (img RF)) data gdq o
    r c (a b : R) k0 kl m,
  readlevel_int RF Rmean None satval f12 Rmin rp sat ng nr nc th cs ics data gdq = Some o ->
  r < nr -> c < nc -> 2 <= length cs -> 2 <= length ics ->
  3 <= m -> m <= ng ->
  (forall g, g < ng -> has (gdq g r c) sat = Nat.leb m g) ->
  nth 0 rp [] = [k0] -> nth (m - 2) rp [] = [kl] -> k0 <> kl ->
  (forall g, g < m -> nth g rp [] <> []) ->
  (* the true ramp a + b t, and the polynomials *)
  (forall g k, g < m -> In k (nth g rp []) ->
     (polyR (pix cs r c) (polyR (pix ics r c) (a + b * IZR k)) = a + b * IZR k)%R) ->
  (forall g k v, g < m -> In k (nth g rp []) -> satval = Some v ->
     (polyR (pix ics r c) (a + b * IZR k) <= f12 * v r c)%R) ->
  (forall g, g < m -> data g r c = Rmean (map (fun k => polyR (pix ics r c) (a + b * IZR k)%R) (nth g rp []))) ->
  forall g, g < m -> o g r c = Rmean (map (fun k => a + b * IZR k)%R (nth g rp [])).
Proof.
  intros rp satval f12 sat ng nr nc th cs ics data gdq o r c a b k0 kl m E Hr Hc Lc Li Hm3 Hmn Hsat R0 Rl Hk Hne Hinv Hcap Hdata g Hg.

  unfold readlevel_int in E. destruct (Nat.eqb_spec th 0); [discriminate|].
  destruct (_ && _)%bool; [discriminate|]. injection E as <-.
  rewrite (tiles_ok RF Rmean None satval f12 Rmin rp sat ng nr nc th cs ics data gdq) by (try discriminate; try lia; intros; reflexivity).
  replace (Nat.leb 0 r && Nat.ltb r nr)%bool with true by lia. unfold tile.
  rewrite Hsat by lia. replace (Nat.leb m g) with false by lia.
  assert (P : forall cs0 x, 2 <= length cs0 -> LinModel.poly RF cs0 x = polyR cs0 x).
  { intros cs0 x H0. rewrite poly_horner by exact H0. apply horner_polyR. }
  assert (M1 : forall x, Rmean [x] = x) by (intro x; unfold Rmean, Rsum; cbn [fold_right length]; change (INR 1) with 1%R; field).
  change (at_pix RF cs r c) with (pix cs r c). change (at_pix RF ics r c) with (pix ics r c).
  set (p := pix cs r c) in *. set (q := pix ics r c) in *.
  assert (Lp : 2 <= length p) by (unfold p; rewrite map_length; exact Lc).
  assert (Lq : 2 <= length q) by (unfold q; rewrite map_length; exact Li).
  assert (LV : last_valid sat ng (fun g => gdq g r c) = m - 2).
  { unfold last_valid, n_unsat.
    assert (F : filter (fun g => negb (has (gdq g r c) sat)) (seq 0 ng) = seq 0 m).
    { replace ng with (m + (ng - m)) by lia. rewrite seq_app, filter_app.
      assert (F1 : forall l, (forall x, In x l -> x < m) -> filter (fun g => negb (has (gdq g r c) sat)) l = l).
      { induction l as [|x l IH]; intro Hx; cbn [filter]; [reflexivity|].
        assert (x < m) by (apply Hx; left; reflexivity). rewrite Hsat by lia. replace (Nat.leb m x) with false by lia. cbn [negb].
        rewrite IH; [reflexivity|]. intros y Hy. apply Hx; right; exact Hy. }
      assert (F2 : forall l, (forall x, In x l -> m <= x < ng) -> filter (fun g => negb (has (gdq g r c) sat)) l = []).
      { induction l as [|x l IH]; intro Hx; cbn [filter]; [reflexivity|].
        assert (m <= x < ng) by (apply Hx; left; reflexivity). rewrite Hsat by lia. replace (Nat.leb m x) with true by lia. cbn [negb].
        apply IH. intros y Hy. apply Hx; right; exact Hy. }
      rewrite F1, F2, app_nil_r; [reflexivity| |]; intros x Hx; apply in_seq in Hx; lia. }
    rewrite F, seq_length. destruct (Z.ltb_spec (Z.of_nat m - 1) 2); lia. }
  assert (D0 : data 0 r c = polyR q (a + b * IZR k0)%R).
  { rewrite Hdata, R0 by lia. cbn [map]. apply M1. }
  assert (Dl : data (m - 2) r c = polyR q (a + b * IZR kl)%R).
  { rewrite Hdata, Rl by lia. cbn [map]. apply M1. }
  assert (FL : first_lin RF sat p (fun g => data g r c) (fun g => gdq g r c) = (a + b * IZR k0)%R).
  { unfold first_lin, poly_dq. rewrite Hsat by lia. replace (Nat.leb m 0) with false by lia.
    rewrite P by exact Lp. rewrite D0. apply (Hinv 0); [lia|rewrite R0; left; reflexivity]. }
  assert (MR0 : mean_read RF Rmean rp 0 = IZR k0) by (unfold mean_read; rewrite R0; apply M1).
  assert (MRl : mean_read RF Rmean rp (m - 2) = IZR kl) by (unfold mean_read; rewrite Rl; apply M1).
  assert (CR : count_rate RF Rmean rp sat ng p (fun g => data g r c) (fun g => gdq g r c) = b).
  { unfold count_rate. rewrite LV, FL, MR0, MRl. unfold poly_dq. rewrite Hsat by lia. replace (Nat.leb m (m - 2)) with false by lia.
    rewrite P by exact Lp. rewrite Dl, (Hinv (m - 2)); [|lia|rewrite Rl; left; reflexivity].
    assert (IZR kl - IZR k0 <> 0)%R by (rewrite <- minus_IZR; apply not_0_IZR; lia). toR. field; assumption. }
  assert (US : reads_unlin RF Rmean rp sat ng p q (fun g => data g r c) (fun g => gdq g r c) g
             = map (fun k => polyR q (a + b * IZR k)%R) (nth g rp [])).
  { unfold reads_unlin. rewrite FL, CR, MR0.
    assert (U0 : map (fun rd => LinModel.poly RF q (fadd RF (a + b * IZR k0)%R (fmul RF b (fsub RF (fofZ RF rd) (IZR k0))))) (nth g rp [])
      = map (fun k => polyR q (a + b * IZR k)%R) (nth g rp [])).
    { apply map_ext. intro k. rewrite P by exact Lq. f_equal. toR. ring. }
    rewrite U0. rewrite (Hdata g Hg), map_map. apply map_ext. intro k. toR. ring. }
  f_equal.
  rewrite <- (map_id (map (fun k => (a + b * IZR k)%R) (nth g rp []))).
  apply nth_ext with (d := 0%R) (d' := 0%R); [rewrite !map_length, seq_length; reflexivity|].
  intros j Hj. rewrite map_length, seq_length in Hj.
  assert (NS : forall (f : nat -> R) n t, t < n -> nth t (map f (seq 0 n)) 0%R = f t).
  { intros f n0 t Ht. rewrite (nth_indep _ _ (f 0)) by (rewrite map_length, seq_length; exact Ht).
    rewrite map_nth, seq_nth by exact Ht. reflexivity. }
  change (RF : Type) with R. rewrite NS by exact Hj. rewrite map_id.
  destruct (nth_error (nth g rp []) j) as [k|] eqn:Ek; [|apply nth_error_None in Ek; lia].
  rewrite (nth_error_nth _ _ _ (map_nth_error (fun k => (a + b * IZR k)%R) _ _ Ek)).
  assert (Hin : In k (nth g rp [])) by (apply (nth_error_In _ _ Ek)).
  rewrite P by exact Lp.
  assert (SV : nth j (reads_unlin RF Rmean rp sat ng p q (fun g => data g r c) (fun g => gdq g r c) g) 0%R = polyR q (a + b * IZR k)%R).
  { rewrite US. apply nth_error_nth. apply (map_nth_error (fun k => polyR q (a + b * IZR k)%R) _ _ Ek). }
  change (fzero RF) with 0%R. 
  destruct satval as [v|].
  - transitivity (polyR p (Rmin (nth j (reads_unlin RF Rmean rp sat ng p q (fun g => data g r c) (fun g => gdq g r c) g) 0%R) (f12 * v r c)%R));
      [reflexivity|]. rewrite SV.
    rewrite Rmin_left; [|apply (Hcap g k v Hg Hin eq_refl)]. apply (Hinv g k Hg Hin).
  - transitivity (polyR p (nth j (reads_unlin RF Rmean rp sat ng p q (fun g => data g r c) (fun g => gdq g r c) g) 0%R));
      [reflexivity|]. rewrite SV. apply (Hinv g k Hg Hin).
Qed.
Print Assumptions C56_readlevel_recovers_ramp.

(** ** Instances (IEEE binary32; two rows, one column, two groups) *)
Section Instances.
Let z (k : Z) : B32 := fofZ B32 k.
Definition lmean (l : list B32) : B32 :=
  fdiv B32 (fold_left (fadd B32) l (fzero B32)) (fofZ B32 (Z.of_nat (length l))).
(** c = 1 + 2x + 3x^2 on row 0; row 1 has a NaN quadratic coefficient; row 2 is flagged 4 in the reference *)
Definition lcs : list (img B32) :=
  [fun _ _ => z 1; fun _ _ => z 2; fun r _ => if Nat.eqb r 1 then fnan B32 else z 3].
Definition ldq : img N := fun r _ => if Nat.eqb r 2 then 5%N else 0%N.
Definition lrun (pd : img N) (cs : list (img B32)) (x : B32) :=
  linearity_correction B32 lmean None None (z 1) (fun a _ => a) 1 2 3 1 2 4
    (fun _ g _ _ => if Nat.eqb g 0 then x else z 7) (fun _ g _ _ => if Nat.eqb g 0 then 0%N else 2%N) pd cs ldq None None None.

Example C12_instance :
  match lrun (fun _ _ => 0%N) lcs (z 10) with
  | Some o => map (fun r => l_data o 0 0 r 0) [0; 1; 2] = [z 321; z 10; z 10] /\
              l_data o 0 1 0 0 = z 7 /\ map (fun r => l_pdq o r 0) [0; 1; 2] = [0; 4; 5]%N
  | None => False end /\ 2 <= length lcs /\ whole_flag 3 1 4 ldq.
Proof.
  split; [vm_compute; repeat split|]. split; [cbn; lia|].
  intros r c Hr _. unfold ldq. destruct (Nat.eqb r 2); [right|left]; reflexivity.
Qed.

(** "data unchanged" is false for an infinite sample: the benign cubic evaluates 0 * inf *)
Theorem C13_infinite_sample_refuted : exists o,
  lrun (fun _ _ => 0%N) lcs (fdiv B32 (z 1) (z 0)) = Some o /\
  unusable B32 (pix lcs 1 0) (ldq 1 0) 4 /\
  fisnan B32 (fdiv B32 (z 1) (z 0)) = false /\ l_data o 0 0 1 0 = fnan B32.
Proof.
  assert (H : match lrun (fun _ _ => 0%N) lcs (fdiv B32 (z 1) (z 0)) with
              | Some o => l_data o 0 0 1 0 = fnan B32 | None => False end) by (vm_compute; reflexivity).
  destruct (lrun _ _ _) as [o|] eqn:E; [|contradiction]. exists o. split; [reflexivity|]. split.
  - right; left. exists (fnan B32). split; [right; right; left|]; reflexivity.
  - split; [vm_compute; reflexivity|exact H].
Qed.
Print Assumptions C13_infinite_sample_refuted.

(** ... but its NO_LIN_CORR flag is lost: row 1 has unusable coefficients in the caller's
    array before the first call, and the second exposure comes out unflagged. *)
Theorem C13_reuse_loses_flag_refuted : exists o o2,
  lrun (fun _ _ => 0%N) lcs (z 10) = Some o /\ lrun (fun _ _ => 0%N) (l_coeffs o) (z 10) = Some o2 /\
  unusable B32 (pix lcs 1 0) (ldq 1 0) 4 /\
  has (l_pdq o 1 0) 4 = true /\ has (l_pdq o2 1 0) 4 = false.
Proof.
  assert (H : match lrun (fun _ _ => 0%N) lcs (z 10) with
              | Some o => has (l_pdq o 1 0) 4 = true /\
                          match lrun (fun _ _ => 0%N) (l_coeffs o) (z 10) with
                          | Some o2 => has (l_pdq o2 1 0) 4 = false | None => False end
              | None => False end) by (vm_compute; split; reflexivity).
  destruct (lrun (fun _ _ => 0%N) lcs (z 10)) as [o|] eqn:E; [|contradiction]. destruct H as [H1 H2].
  destruct (lrun (fun _ _ => 0%N) (l_coeffs o) (z 10)) as [o2|] eqn:E2; [|contradiction].
  exists o, o2. split; [reflexivity|]. split; [exact E2|]. split; [|split; assumption].
  right; left. exists (fnan B32). split; [right; right; left|]; reflexivity.
Qed.
Print Assumptions C13_reuse_loses_flag_refuted.

(** Read-level path: a pixel flagged NO_LIN_CORR only because of its inverse coefficients (linear
    term zero) is corrected all the same. *)
Theorem C13_inverse_only_refuted : exists (cs ics : list (img B32)) o,
  linearity_correction B32 lmean None None (z 1) (fun a _ => a) 1 3 1 1 2 4
    (fun _ g _ _ => z (Z.of_nat (10 + g))) (fun _ _ _ _ => 0%N) (fun _ _ => 0%N) cs (fun _ _ => 0%N) None
    (Some ics) (Some [[1]; [2]; [3]]%Z) = Some o /\
  unusable B32 (pix ics 0 0) 0 4 /\ has (l_pdq o 0 0) 4 = true /\ l_data o 0 0 0 0 = z 20.
Proof.
  set (cs := [fun _ _ => z 0; fun _ _ => z 2] : list (img B32)). set (ics := [fun _ _ => z 0; fun _ _ => z 0] : list (img B32)).
  exists cs, ics.
  assert (H : match linearity_correction B32 lmean None None (z 1) (fun a _ => a) 1 3 1 1 2 4
    (fun _ g _ _ => z (Z.of_nat (10 + g))) (fun _ _ _ _ => 0%N) (fun _ _ => 0%N) cs (fun _ _ => 0%N) None
    (Some ics) (Some [[1]; [2]; [3]]%Z) with Some o => has (l_pdq o 0 0) 4 = true /\ l_data o 0 0 0 0 = z 20 | None => False end)
    by (vm_compute; split; reflexivity).
  destruct (linearity_correction _ _ _ _ _ _ _ _ _ _ _ _ _ _ _ _ _ _ _ _) as [o|]; [|contradiction].
  exists o. split; [reflexivity|]. split; [|exact H].
  right; right. exists (z 0). split; vm_compute; reflexivity.
Qed.
Print Assumptions C13_inverse_only_refuted.

(** read-level path on three rows with tiles of one row and of two rows *)
Definition rlrun (th : nat) :=
  readlevel_int B32 lmean (Some (fun n nr nc s => fun k r c => fsub B32 (s k r 0) (s k r 0))) None (z 1) (fun a _ => a)
    [[1]; [2]; [3; 4]; [5]]%Z 2 4 3 1 th [fun _ _ => z 0; fun _ _ => z 2] [fun _ _ => z 0; fun _ _ => fdiv B32 (z 1) (z 2)]
    (fun g r _ => z (Z.of_nat (10 * (r + 1) + 4 * g))) (fun g _ _ => if Nat.eqb g 3 then 2%N else 0%N).
Example C14_instance :
  (match rlrun 1, rlrun 2 with
  | Some o, Some o' => map (fun r => map (fun g => o g r 0) [0; 1; 2; 3]) [0; 1; 2] =
      [[z 20; z 28; z 36; z 22]; [z 40; z 48; z 56; z 32]; [z 60; z 68; z 76; z 42]]
      /\ map (fun r => map (fun g => o' g r 0) [0; 1; 2; 3]) [0; 1; 2] =
      [[z 20; z 28; z 36; z 22]; [z 40; z 48; z 56; z 32]; [z 60; z 68; z 76; z 42]]
  | _, _ => False end) /\
  row_local B32 (fun n nr nc s => fun k r c => fsub B32 (s k r 0) (s k r 0)).
Proof.
  split; [vm_compute; split; reflexivity|].
  intros n nr nr' nc s s' k r r' c Hk _ _ Hc H. rewrite (H k 0) by lia. reflexivity.
Qed.
End Instances.

(** the hypotheses of C56: p(x) = 2x, q(x) = x/2, ramp 3 + 4 t, groups of 1, 1, 2 reads *)
Example C56_instance : exists o,
  readlevel_int RF Rmean None None 1%R Rmin [[1]; [2]; [3; 4]]%Z 2 3 1 1 64
    [fun _ _ => 0%R; fun _ _ => 2%R] [fun _ _ => 0%R; fun _ _ => (/ 2)%R]
    (fun g _ _ => nth g [7 / 2; 11 / 2; 17 / 2]%R 0%R) (fun _ _ _ => 0%N) = Some o /\
  o 2 0 0 = 17%R.
Proof.
  eexists. split; [reflexivity|].
  rewrite (C56_readlevel_recovers_ramp [[1]; [2]; [3; 4]]%Z None 1%R 2%N 3 1 1 64
    [fun _ _ => 0%R; fun _ _ => 2%R] [fun _ _ => 0%R; fun _ _ => (/ 2)%R]
    (fun g _ _ => nth g [7 / 2; 11 / 2; 17 / 2]%R 0%R) (fun _ _ _ => 0%N) _ 0 0 3%R 4%R 1%Z 2%Z 3
    eq_refl).
  - unfold Rmean, Rsum. cbn. lra.
  - lia. - lia. - cbn; lia. - cbn; lia. - lia. - lia.
  - intros g Hg. replace (Nat.leb 3 g) with false by lia. reflexivity.
  - reflexivity. - reflexivity. - lia.
  - intros [|[|[|g]]] Hg; try discriminate; lia.
  - intros g k _ _. unfold polyR. cbn. field.
  - discriminate.
  - intros [|[|[|g]]] Hg; [| | |lia]; unfold Rmean, Rsum, polyR; cbn; lra.
  - lia.
Qed.
