(** Theorems about the shower search (C98). *)
From Verif Require Import Base BaseLemmas FLaws JumpModel SnowModel ShModel SnowSpec SnowProofs SnowProps.
From Coq Require Import Reals Lra Psatz SpecFloat.
From Verif Require Import RBase RNBase Cas22Fit LikelyNoise ShProps2.
Local Open Scope R_scope.

Lemma Rltb_false x y : Rltb x y = false <-> y <= x.
Proof. split; intro H; [destruct (Rle_dec y x); [assumption|]; exfalso; rewrite (proj2 (Rltb_spec x y)) in H by lra; discriminate|apply not_true_is_false; rewrite Rltb_spec; lra]. Qed.
Lemma RN_laws : FLaws RN.
Proof.
  constructor; try (intros [x|] [y|]; cbn; intros; try reflexivity; try discriminate; fail); try (intros [x|]; cbn; intros; try reflexivity; try discriminate; fail).
  - intros [x|]; cbn; [apply Rltb_false; lra|reflexivity].
  - intros [x|] [y|] [z|]; cbn; try discriminate; try reflexivity. rewrite !Rltb_spec. lra.
  - intros [x|] [y|] [z|]; cbn; try discriminate; try reflexivity. rewrite !Rltb_false. lra.
  - intros [x|] [y|]; cbn; try reflexivity. destruct (Rltb y x) eqn:E; cbn.
    + apply Rltb_spec in E. apply not_true_is_false. rewrite Rleb_spec. lra.
    + apply Rltb_false in E. apply Rleb_spec. exact E.
  - left. reflexivity.
  - reflexivity.
  - intros [x|] [y|]; cbn; try reflexivity. f_equal. rewrite Rabs_minus_sym. reflexivity.
  - intros [x|]; cbn; [|reflexivity]. apply Rltb_false. apply Rabs_pos.
  - intros [x|] [y|]; cbn; try reflexivity. destruct (Rltb x y) eqn:E1, (Rltb y x) eqn:E2; cbn; try apply Rltb_spec in E1; try apply Rltb_spec in E2; try apply Rltb_false in E1; try apply Rltb_false in E2;
      try (apply not_true_is_false; rewrite Reqb_spec; lra); try lra. apply Reqb_spec. lra.
  - intros [x|]; cbn; [|reflexivity]. destruct (Reqb x 0); [reflexivity|]. cbn. apply Rltb_false. rewrite Rabs_R0. unfold Rdiv. lra.
Qed.

(** * C98: what the shower search reports *)
(** ** Specification: how far a difference is from the pixel's usual one *)
Definition unusable (P : snow RN) (w : N) : bool := has w (N.lor (N.lor (s_jump P) (s_sat P)) (s_dnu P)).
Section Search.
  Variables (med clip_median clip_std : list RN -> RN) (K : search RN) (P : snow RN).
  Variables (nints ng nr nc n : nat) (k : nat -> nat -> R) (t : R).
  Hypothesis Hrows : k_rows RN K = (2 * n + 1)%nat. Hypothesis Hcols : k_cols RN K = (2 * n + 1)%nat. Hypothesis N1 : (1 <= n)%nat.
  Hypothesis Hker : k_kernel RN K = fun i j => Some (k i j). Hypothesis Hk : forall i j, 0 <= k i j.
  Hypothesis Ht : k_threshold RN K = Some t. Hypothesis T0 : 0 <= t.
  Variables (data : arr4 RN) (gdq : arr4 N) (pdq : img N) (i g : nat).
  (** the significance of the difference that ends in group g, for a pixel usable in that group *)
  Definition significance (r c : nat) : option R :=
    if unusable P (N.lor (gdq i g r c) (pdq r c)) then None else ratio RN med clip_median clip_std K nints ng data i g (g - 1)%nat r c.
  Notation E := (emission RN med clip_median clip_std K P nints ng nr nc data gdq pdq i g).
  Lemma emission_out : exists out, convolve_fast RN nr nc (2 * n + 1) (2 * n + 1) (fun i j => Some (k i j)) significance = Some out /\ exists m, E = Some m /\ forall r c, m r c = match out r c with Some v => Rltb t v | None => false end.
  Proof.
    destruct (C97_weighted_mean nr nc n k significance N1 Hk) as (out & Eo & S). exists out. split; [exact Eo|].
    unfold emission. rewrite Hrows, Hcols, Hker. change (masked_ratio RN med clip_median clip_std K P nints ng data gdq pdq i g) with significance. rewrite Eo. cbn [bind]. eexists. split; [reflexivity|].
    intros r c. rewrite Ht. destruct (out r c); reflexivity.
  Qed.
  (** a reported pixel is usable and has a significant pixel within the ring's reach *)
  Lemma emission_sound m r c : E = Some m -> m r c = true -> (exists s, significance r c = Some s) /\
    exists q s, (fst q < nr)%nat /\ (snd q < nc)%nat /\ near n (r, c) q /\ significance (fst q) (snd q) = Some s /\ t < s.
  Proof.
    intros Em M. destruct emission_out as (out & Eo & m' & Em' & H). rewrite Em in Em'. injection Em' as <-. rewrite H in M.
    destruct (out r c) as [v|] eqn:O; [|discriminate]. apply Rltb_spec in M.
    destruct (C97_weighted_mean nr nc n k significance N1 Hk) as (out' & Eo' & S). rewrite Eo in Eo'. injection Eo' as <-. split.
    - specialize (S r c). rewrite O in S. unfold smooth_spec in S. destruct (significance r c) as [s|]; [eauto|discriminate].
    - set (hits := filter (fun q => match significance (fst q) (snd q) with Some s => Rltb t s | None => false end && Z.leb (Z.abs (zof (fst q) - zof r)) (zof n) && Z.leb (Z.abs (zof (snd q) - zof c)) (zof n)) (pixels nr nc)).
      destruct hits as [|q l] eqn:HQ.
      + exfalso. specialize (S r c). rewrite O in S. unfold smooth_spec in S. destruct (significance r c) as [s|] eqn:Sg; [|discriminate]. destruct (Rlt_dec _ _) as [L|]; [|discriminate]. injection S as S.
        assert (B : forall q w, (fst q < nr)%nat -> (snd q < nc)%nat -> near n (r, c) q -> significance (fst q) (snd q) = Some w -> w <= t).
        { intros q w Q1 Q2 [Na Nb] A. apply Rltb_false. apply not_true_is_false. intro X. assert (In q hits).
          { unfold hits. apply filter_In. split; [unfold pixels; rewrite (surjective_pairing q); apply in_prod; apply in_seq; lia|]. rewrite A, X. cbn [andb]. rewrite andb_true_iff, !Z.leb_le. split; assumption. }
          rewrite HQ in H0. contradiction. }
        pose proof (val_le n k nr nc significance r c t Hk B) as V. pose proof (used_missing n k nr nc significance (r, c)) as UM. destruct (all_weights n k nr nc r c Hk) as [A1 _].
        pose proof (total_pos n k Hk) as T1. assert (K0 : 0 < INR (2 * n + 1)) by (apply lt_0_INR; lia).
        assert (Pp : 0 <= total n k / (1000 * (INR (2 * n + 1) * INR (2 * n + 1)))).
        { unfold Rdiv. apply Rmult_le_pos; [exact T1|]. apply Rlt_le, Rinv_0_lt_compat. apply Rmult_lt_0_compat; [lra|]. apply Rmult_lt_0_compat; assumption. }
        set (W := total n k - missing n k nr nc significance (r, c)) in *. assert (W0 : 0 < W) by lra. assert (UW : used n k nr nc significance (r, c) <= W) by (unfold W; lra).
        assert (v <= t); [|lra]. rewrite S. apply (Rmult_le_reg_r W); [exact W0|]. unfold Rdiv. rewrite Rmult_assoc, Rinv_l by lra. nra.
      + assert (I : In q hits) by (rewrite HQ; left; reflexivity). unfold hits in I. apply filter_In in I. destruct I as [I J]. unfold pixels in I. rewrite (surjective_pairing q) in I. apply in_prod_iff in I. rewrite !in_seq in I.
        rewrite !andb_true_iff, !Z.leb_le in J. destruct J as [[J1 J2] J3]. destruct (significance (fst q) (snd q)) as [s|] eqn:A; [|discriminate]. exists q, s. apply Rltb_spec in J1. repeat split; try assumption; lia.
  Qed.
  (** a usable pixel away from the edges is reported when every usable pixel in reach is significant *)
  Lemma emission_complete r c s : interior n nr nc r c -> significance r c = Some s ->
    total n k / (1000 * (INR (2 * n + 1) * INR (2 * n + 1))) < total n k - missing n k nr nc significance (r, c) ->
    (forall q w, (fst q < nr)%nat -> (snd q < nc)%nat -> near n (r, c) q -> significance (fst q) (snd q) = Some w -> t < w) ->
    exists m, E = Some m /\ m r c = true.
  Proof.
    intros (I1 & I2 & I3 & I4) Sg L B. destruct emission_out as (out & Eo & m & Em & H). exists m. split; [exact Em|]. rewrite H.
    destruct (C97_weighted_mean nr nc n k significance N1 Hk) as (out' & Eo' & S). rewrite Eo in Eo'. injection Eo' as <-. rewrite S. unfold smooth_spec. rewrite Sg.
    destruct (Rlt_dec _ _) as [_|X]; [|contradiction]. apply Rltb_spec.
    pose proof (used_missing n k nr nc significance (r, c)) as UM. destruct (all_weights n k nr nc r c Hk) as [_ A2]. specialize (A2 I1 I2 I3 I4).
    pose proof (total_pos n k Hk) as T1. assert (K0 : 0 < INR (2 * n + 1)) by (apply lt_0_INR; lia).
    assert (Pp : 0 <= total n k / (1000 * (INR (2 * n + 1) * INR (2 * n + 1)))).
    { unfold Rdiv. apply Rmult_le_pos; [exact T1|]. apply Rlt_le, Rinv_0_lt_compat. apply Rmult_lt_0_compat; [lra|]. apply Rmult_lt_0_compat; assumption. }
    set (W := total n k - missing n k nr nc significance (r, c)) in *. assert (UW : used n k nr nc significance (r, c) = W) by (unfold W; lra). assert (W0 : 0 < W) by lra.
    apply (Rmult_lt_reg_r W); [exact W0|]. unfold Rdiv. rewrite Rmult_assoc, Rinv_l by lra. rewrite Rmult_1_r, <- UW.
    apply Rnot_le_lt. intro X.
    set (h := fun q : nat * nat => match significance (fst q) (snd q) with Some v => off (r, c) q (kweight n k) * (v - t) | None => 0 end).
    assert (HS : Rsum (map h (pixels nr nc)) = val_sum n k nr nc significance (r, c) - t * used n k nr nc significance (r, c)).
    { unfold val_sum, used. replace (Rsum (map (fun q => match significance (fst q) (snd q) with Some v => off (r, c) q (kweight n k) * v | None => 0 end) (pixels nr nc)) - t * Rsum (map (fun q => match significance (fst q) (snd q) with Some _ => off (r, c) q (kweight n k) | None => 0 end) (pixels nr nc)))
        with (Rsum (map (fun q => match significance (fst q) (snd q) with Some v => off (r, c) q (kweight n k) * v | None => 0 end) (pixels nr nc)) + (- t) * Rsum (map (fun q => match significance (fst q) (snd q) with Some _ => off (r, c) q (kweight n k) | None => 0 end) (pixels nr nc))) by lra.
      rewrite <- Rsum_scal, <- Rsum_plus. apply Rsum_ext. intros q _. unfold h. destruct (significance (fst q) (snd q)) as [v|]; [ring|lra]. }
    assert (Hh : forall q, In q (pixels nr nc) -> 0 <= h q /\ (h q = 0 -> match significance (fst q) (snd q) with Some _ => off (r, c) q (kweight n k) | None => 0 end = 0)).
    { intros q Q. unfold pixels in Q. rewrite (surjective_pairing q) in Q. apply in_prod_iff in Q. rewrite !in_seq in Q. unfold h. destruct (significance (fst q) (snd q)) as [v|] eqn:A; [|split; [lra|auto]].
      pose proof (kweight_nonneg n k (zof (fst q) - zof (fst (r, c))) (zof (snd q) - zof (snd (r, c))) Hk) as Pk. fold (off (r, c) q (kweight n k)) in Pk.
      destruct (Z.leb_spec (Z.abs (zof (fst q) - zof r)) (zof n)) as [Na|Na]; [destruct (Z.leb_spec (Z.abs (zof (snd q) - zof c)) (zof n)) as [Nb|Nb]|].
      - assert (t < v) by (apply (B q); [lia|lia|split; assumption|exact A]). split; [apply Rmult_le_pos; lra|]. intro Z0. apply Rmult_integral in Z0. destruct Z0; lra.
      - rewrite far_zero by (intros [_ Y]; cbn in Y; lia). split; lra.
      - rewrite far_zero by (intros [Y _]; cbn in Y; lia). split; lra. }
    assert (U0 : used n k nr nc significance (r, c) = 0).
    { unfold used. rewrite (Rsum_ext _ (fun _ => 0)); [rewrite Rsum_const; lra|]. intros q Q. apply (proj2 (Hh q Q)).
      pose proof (Rsum_ge_member h (pixels nr nc) q (fun x X' => proj1 (Hh x X')) Q) as G. pose proof (proj1 (Hh q Q)). lra. }
    lra.
  Qed.
End Search.
(** The search reports a pixel only next to a significant one, and reports every usable pixel surrounded by significant ones. *)
Theorem C98_reported : forall med cm cs K P nints ng nr nc n k t data gdq pdq i g m r c,
  k_rows RN K = (2 * n + 1)%nat -> k_cols RN K = (2 * n + 1)%nat -> (1 <= n)%nat -> k_kernel RN K = (fun i j => Some (k i j)) -> (forall i j, 0 <= k i j) ->
  k_threshold RN K = Some t -> 0 <= t -> emission RN med cm cs K P nints ng nr nc data gdq pdq i g = Some m ->
  let s r c := significance med cm cs K P nints ng data gdq pdq i g r c in
  (m r c = true -> s r c <> None /\ exists q v, (fst q < nr)%nat /\ (snd q < nc)%nat /\ near n (r, c) q /\ s (fst q) (snd q) = Some v /\ t < v) /\
  (interior n nr nc r c -> s r c <> None -> total n k / (1000 * (INR (2 * n + 1) * INR (2 * n + 1))) < total n k - missing n k nr nc s (r, c) ->
   (forall q v, (fst q < nr)%nat -> (snd q < nc)%nat -> near n (r, c) q -> s (fst q) (snd q) = Some v -> t < v) -> m r c = true).
Proof.
  intros med cm cs K P nints ng nr nc n k t data gdq pdq i g m r c Kr Kc N1 Kk Hk Ht T0 Em s. split.
  - intro M. destruct (emission_sound med cm cs K P nints ng nr nc n k t Kr Kc N1 Kk Hk Ht T0 data gdq pdq i g m r c Em M) as [(v & A) B]. split; [unfold s; rewrite A; discriminate|exact B].
  - intros I S L B. destruct (s r c) as [v|] eqn:A; [|congruence].
    destruct (emission_complete med cm cs K P nints ng nr nc n k t Kr Kc N1 Kk Hk Ht data gdq pdq i g r c v I A L B) as (m' & Em' & M). rewrite Em in Em'. injection Em' as <-. exact M.
Qed.
Print Assumptions C98_reported.

(** ** A steady exposure *)
(** the difference of neighbouring groups, where both have a value *)
Definition steady (dat : arr4 RN) (nints ng nr nc : nat) : Prop :=
  forall r c, (r < nr)%nat -> (c < nc)%nat -> exists x, forall i g v w, (i < nints)%nat -> (g + 1 < ng)%nat -> dat i g r c = Some v -> dat i (g + 1)%nat r c = Some w -> w - v = x.
(** a median is a value of the list when all values are the same *)
Definition central (f : list RN -> RN) : Prop := forall x l, l <> [] -> (forall y, In y l -> y = Some x) -> f l = Some x.
(** the same for statistics that skip missing values *)
Definition central_nan (f : list RN -> RN) : Prop := forall x l, (forall y v, In y l -> y = Some v -> v = x) -> f l = Some x \/ f l = None.
Lemma nanmedian_central med : central med -> central_nan (nanmedian RN med).
Proof.
  intros H x l L. unfold nanmedian. destruct (nonnan RN l) as [|y l'] eqn:E; [right; reflexivity|left]. apply H; [discriminate|].
  intros z Z. rewrite <- E in Z. unfold nonnan in Z. apply filter_In in Z. destruct Z as [Z1 Z2]. destruct z as [v|]; [|discriminate]. f_equal. apply (L (Some v) v Z1 eq_refl).
Qed.
(** On ramps that rise evenly, whatever is flagged, no pixel is significant, so no shower is found and no flag changes. *)
Theorem C98_quiet : forall med cm cs K P rnd disk regions mean kj ks kd nints ng nr nc n k t dat gdq pdq,
  k_rows RN K = (2 * n + 1)%nat -> k_cols RN K = (2 * n + 1)%nat -> (1 <= n)%nat -> k_kernel RN K = (fun i j => Some (k i j)) -> (forall i j, 0 <= k i j) ->
  k_threshold RN K = Some t -> 0 <= t -> central med -> central_nan cm ->
  (forall m, (forall r c, (r < nr)%nat -> (c < nc)%nat -> m r c = false) -> regions nr nc m = []) ->
  shower_ok RN P kj ks kd -> within_radius disk -> steady dat nints ng nr nc ->
  let out := find_faint_extended RN P rnd disk (search_regions RN med cm cs K P regions nints ng nr nc) mean nints ng nr nc dat gdq pdq in
  snd out = 0%nat /\ forall i g r c, (r < nr)%nat -> (c < nc)%nat -> fst out i g r c = gdq i g r c.
Proof.
  intros med cm cs K P rnd disk regions mean kj ks kd nints ng nr nc n k t dat gdq pdq Kr Kc N1 Kk Hk Ht T0 Cm Cc Reg Sok Wr St out.
  assert (Q : forall gd i g, (i < nints)%nat -> (1 <= g < ng)%nat -> search_regions RN med cm cs K P regions nints ng nr nc (nan_invalid RN P dat gdq) gd pdq i g = []).
  { intros gd i g I G. unfold search_regions. destruct (emission RN med cm cs K P nints ng nr nc (nan_invalid RN P dat gdq) gd pdq i g) as [m|] eqn:Em; [|reflexivity].
    apply Reg. intros r c R C. apply not_true_is_false. intro M.
    destruct (emission_sound med cm cs K P nints ng nr nc n k t Kr Kc N1 Kk Hk Ht T0 _ _ _ i g m r c Em M) as [_ ([r' c'] & s & Q1 & Q2 & _ & Sg & Ls)]. cbn [fst snd] in *.
    assert (s <= 0); [|lra]. unfold significance in Sg. destruct (unusable _ _); [discriminate|].
    destruct (St r' c' Q1 Q2) as (x & X).
    assert (D : forall i0 g0 v, (i0 < nints)%nat -> (g0 + 1 < ng)%nat -> diffs RN (nan_invalid RN P dat gdq) i0 g0 r' c' = Some v -> v = x).
    { intros i0 g0 v I0 G0 V. unfold diffs, nan_invalid in V. destruct (_ || _)%bool in V; [discriminate|]. destruct (_ || _)%bool in V; [destruct (dat i0 (g0 + 1)%nat r' c'); discriminate|].
      destruct (dat i0 (g0 + 1)%nat r' c') as [w|] eqn:A; [|discriminate]. destruct (dat i0 g0 r' c') as [u|] eqn:B; [|discriminate]. cbn in V. injection V as <-. exact (X i0 g0 u w I0 G0 B A). }
    assert (F : forall mm ss, (mm = Some x \/ mm = None) -> forall sv, fdiv RN (fabs RN (fsub RN (diffs RN (nan_invalid RN P dat gdq) i (g - 1)%nat r' c') mm)) ss = Some sv -> sv <= 0).
    { intros mm ss [-> | ->] sv Y.
      - destruct (diffs RN (nan_invalid RN P dat gdq) i (g - 1)%nat r' c') as [v|] eqn:V; [|discriminate]. apply D in V; [|lia|lia]. subst v. destruct ss as [z|]; [|discriminate]. cbn in Y. destruct (Reqb z 0); [discriminate|]. injection Y as <-. rewrite Rminus_diag_eq, Rabs_R0 by reflexivity. unfold Rdiv. lra.
      - destruct (diffs _ _ _ _ _ _); discriminate. }
    unfold ratio in Sg. destruct (Nat.leb (k_minints RN K) nints); unfold diff_meddiff in Sg; (eapply F; [|exact Sg]).
    - apply Cc. intros y v Y ->. apply in_map_iff in Y. destruct Y as (i0 & Y & I0). apply in_seq in I0. eapply (D i0 (g - 1)%nat); [lia|lia|exact Y].
    - apply (nanmedian_central med Cm). intros y v Y ->. unfold flat2 in Y. apply in_flat_map in Y. destruct Y as (i0 & I0 & Y). apply in_map_iff in Y. destruct Y as (g0 & Y & G0). apply in_seq in I0, G0. eapply (D i0 g0); [lia|lia|exact Y]. }
  split.
  - unfold out, find_faint_extended. destruct (Z.ltb _ 10); [reflexivity|]. cbn [snd].
    set (l := shower_events _ _ _ _ _ _ _ _ _ _).
    assert (A : forall ev, In ev l -> length (snd ev) = 0%nat).
    { intros ev I. unfold l, shower_events in I. apply in_flat_map in I. destruct I as (i & I & J). apply in_map_iff in J. destruct J as (g & <- & G). apply in_seq in I, G. cbn [snd]. rewrite Q by lia. reflexivity. }
    clearbody l. induction l as [|ev l IH]; [reflexivity|]. cbn [map list_sum fold_right]. change (list_sum (map (fun ev0 => length (snd ev0)) l)) with (fold_right Nat.add 0%nat (map (fun ev0 : nat * nat * list (ellipse RN) => length (snd ev0)) l)) in IH. rewrite (A ev (or_introl eq_refl)), IH; [reflexivity|]. intros; apply A; right; assumption.
  - intros i g r c R C.
    pose proof (C60_shower_only_adds_jump RN RN_laws eq_refl P kj ks kd rnd disk (search_regions RN med cm cs K P regions nints ng nr nc) mean nints ng nr nc dat gdq pdq Sok Wr i g r c R C) as (A & B & D).
    apply N.bits_inj. intro b. destruct (N.eq_dec b kj) as [->|NE]; [|apply A; exact NE]. fold out in B, D |- *.
    destruct (N.testbit (fst out i g r c) kj) eqn:E1, (N.testbit (gdq i g r c) kj) eqn:E2; try reflexivity; [|specialize (B eq_refl); congruence].
    destruct (D eq_refl eq_refl) as (I & _ & _ & g0 & e & G0 & G1 & G2 & In0 & _). rewrite Q in In0 by lia. contradiction.
Qed.
Print Assumptions C98_quiet.
(** Examples: two integrations of eight groups rising by 3 per group, 5 x 5 pixels, box kernel, threshold 5.  Without a shower
    nothing is found although one group is flagged; with 100 counts more from group 4 of the first integration on, the central
    pixel is reported in that group. *)
Definition ex_snow : snow RN := {| s_jump := bit 2; s_sat := bit 1; s_dnu := bit 0; s_ref := bit 31; s_required := true; s_minrad := (Some 2 : RN); s_satexpand := (Some 2 : RN); s_maxwidth := (Some 1000 : RN);
  s_expand := (Some 2 : RN); s_edge := 0%Z; s_mask_next := false; s_persist := 0%Z; s_shower_expand := (Some 2 : RN); s_shower_grps := 1%nat; s_maxamp := (Some 4 : RN) |}.
Definition ex_search : search RN := {| k_rows := 3; k_cols := 3; k_kernel := (fun _ _ => Some 1) : img RN; k_threshold := Some 5 : RN; k_minints := 10; k_nframes := 1; k_rn := (fun _ _ => Some 1) : img RN |}.
Definition ex_med (l : list RN) : RN := hd None l.
Definition ex_regions (nr nc : nat) (m : img bool) : list (ellipse RN) :=
  if any_pix nr nc m then [{| e_col := Some 2 : RN; e_row := Some 2 : RN; e_h := Some 2 : RN; e_w := Some 2 : RN; e_angle := Some 0 : RN |}] else [].
Definition ex_dat (h : R) : arr4 RN := fun i g _ _ => Some (3 * INR g + (if Nat.eqb i 0 && Nat.leb 4 g then h else 0)).
Definition ex_gdq : arr4 N := fun i g r c => if Nat.eqb g 2 then 4%N else 0%N.
Lemma ex_central : central ex_med.
Proof. intros x [|y l] NE H; [congruence|]. apply H. left. reflexivity. Qed.
Lemma ex_steady : steady (ex_dat 0) 2 8 5 5.
Proof. intros r c _ _. exists 3. intros i g v w _ _ A B. unfold ex_dat in *. injection A as <-. injection B as <-. rewrite plus_INR. cbn [INR]. destruct (_ && _)%bool, (_ && _)%bool; lra. Qed.
Example C98_quiet_example : forall rnd disk mean, within_radius disk ->
  let out := find_faint_extended RN ex_snow rnd disk (search_regions RN ex_med (nanmedian RN ex_med) (nanmedian RN ex_med) ex_search ex_snow ex_regions 2 8 5 5) mean 2 8 5 5 (ex_dat 0) ex_gdq (fun _ _ => 0%N) in
  snd out = 0%nat /\ fst out 0%nat 2%nat 1%nat 1%nat = 4%N.
Proof.
  intros rnd disk mean W out.
  destruct (C98_quiet ex_med (nanmedian RN ex_med) (nanmedian RN ex_med) ex_search ex_snow rnd disk ex_regions mean 2 1 0 2 8 5 5 1 (fun _ _ => 1) 5 (ex_dat 0) ex_gdq (fun _ _ => 0%N)) as [A B]; try reflexivity; try lia; try (intros; lra); try assumption; try lra.
  - exact ex_central.
  - apply nanmedian_central, ex_central.
  - intros m H. unfold ex_regions. destruct (any_pix 5 5 m) eqn:E; [|reflexivity]. exfalso. unfold any_pix in E. apply existsb_exists in E. destruct E as (r & R & E). apply existsb_exists in E. destruct E as (c & C & E). apply in_seq in R, C. rewrite H in E by lia. discriminate.
  - split; (reflexivity || discriminate).
  - exact ex_steady.
  - split; [exact A|]. unfold out. rewrite B by lia. reflexivity.
Qed.
Example C98_reported_example : exists m, emission RN ex_med (nanmedian RN ex_med) (nanmedian RN ex_med) ex_search ex_snow 2 8 5 5 (nan_invalid RN ex_snow (ex_dat 100) (fun _ _ _ _ => 0%N)) (fun _ _ _ _ => 0%N) (fun _ _ => 0%N) 0 4 = Some m /\ m 2%nat 2%nat = true.
Proof.
  assert (S : forall r c, significance ex_med (nanmedian RN ex_med) (nanmedian RN ex_med) ex_search ex_snow 2 8 (nan_invalid RN ex_snow (ex_dat 100) (fun _ _ _ _ => 0%N)) (fun _ _ _ _ => 0%N) (fun _ _ => 0%N) 0 4 r c = Some (100 / 2)).
  { intros r c. unfold significance, unusable. change (has (N.lor 0 0) _) with false. cbv iota. unfold ratio. change (Nat.leb (k_minints RN ex_search) 2) with false. cbv iota.
    unfold diff_meddiff. assert (M : median_diffs RN ex_med 2 8 (diffs RN (nan_invalid RN ex_snow (ex_dat 100) (fun _ _ _ _ => 0%N))) r c = Some 3).
    { unfold median_diffs, nanmedian, flat2, diffs, nan_invalid. cbn -[INR]. f_equal. cbn [INR]. lra. }
    unfold ShModel.sigma. rewrite M. assert (D : diffs RN (nan_invalid RN ex_snow (ex_dat 100) (fun _ _ _ _ => 0%N)) 0%nat (4 - 1)%nat r c = Some 103) by (unfold diffs, nan_invalid; cbn -[INR]; f_equal; cbn [INR]; lra).
    rewrite D. change (fofZ RN (zn (k_nframes RN ex_search))) with (Some 1). change (k_rn RN ex_search r c) with (Some 1).
    assert (Dv : forall u v, v <> 0 -> fdiv RN (Some u) (Some v) = Some (u / v)) by (intros u v V; cbn; destruct (Reqb v 0) eqn:X; [apply Reqb_spec in X; contradiction|reflexivity]).
    assert (S4 : fsqrt RN (Some (2 * 2)) = Some 2) by (cbn [fsqrt RN]; rewrite (proj2 (Rltb_false _ _)) by lra; rewrite sqrt_square by lra; reflexivity).
    change (fmul RN (Some 1) (Some 1)) with (Some (1 * 1)). rewrite Dv by lra. change (fadd RN (fabs RN (Some 3)) (Some (1 * 1 / 1))) with (Some (Rabs 3 + 1 * 1 / 1)).
    replace (Rabs 3 + 1 * 1 / 1) with (2 * 2) by (rewrite Rabs_right; lra). rewrite S4. change (fabs RN (fsub RN (Some 103) (Some 3))) with (Some (Rabs (103 - 3))). rewrite Dv by lra. f_equal. f_equal. rewrite Rabs_right; lra. }
  apply (emission_complete ex_med (nanmedian RN ex_med) (nanmedian RN ex_med) ex_search ex_snow 2 8 5 5 1 (fun _ _ => 1) 5) with (s := 100 / 2); try reflexivity; try lia; try (intros; lra).
  - unfold interior. lia.
  - apply S.
  - unfold missing. rewrite (Rsum_ext _ (fun _ => 0)) by (intros q _; rewrite S; reflexivity). rewrite Rsum_const. unfold total, pixels. cbn. lra.
  - intros q w _ _ _ A. rewrite S in A. injection A as <-. lra.
Qed.
