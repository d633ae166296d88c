(** C104: groups lost to charge migration.  A group flagged CHARGELOSS and DO_NOT_USE is not fitted, but the read-noise
    variance is that of the ramp with both flags taken away. *)
From Verif Require Import Base BaseLemmas RBase Cas22Model Cas22Spec Cas22Proofs Cas22Fit OlsModel OlsSpec OlsProofs OlsFit OlsProps.
From Coq Require Import Reals Lra SpecFloat.

(** the pixel with the group DQ [g] and no record of the original one *)
Definition fresh {fo} (p : opix fo) (g : nat -> nat -> N) : opix fo :=
  {| x_data := x_data fo p; x_gdq := g; x_dq := x_dq fo p; x_gain := x_gain fo p; x_rn := x_rn fo p; x_dark := x_dark fo p; x_zf := x_zf fo p; x_orig := None |}.
(** both flags taken from a word that has CHARGELOSS *)
Definition restored (dnu chg w : N) : N := if N.testbit w chg then N.clearbit (N.clearbit w chg) dnu else w.

Lemma fresh_prep (fo : FOps) m p k : prep fo m (fresh p (x_gdq fo p)) k = prep fo m p k.
Proof. unfold prep. assert (E : prep0 fo m (fresh p (x_gdq fo p)) k = prep0 fo m p k) by (unfold prep0; reflexivity). rewrite E. cbn [fresh x_zf]. reflexivity. Qed.
Lemma fresh_segment (fo : FOps) powf m p g i mr s : fit_segment fo powf m (fresh p g) i mr s = fit_segment fo powf m p i mr s.
Proof.
  unfold fit_segment. destruct (Nat.eqb 1 _); [unfold fit_len1, var_poisson, rnoise_len1; reflexivity|]. destruct (Nat.eqb 2 _); [unfold fit_len2, var_poisson, rnoise_len2; reflexivity|].
  unfold fit_default, var_poisson, rnoise_default, o_weight. reflexivity.
Qed.
Lemma fresh_finish (fo : FOps) powf m p mr k : finish_integration fo powf m (fresh p (x_gdq fo p)) mr k = finish_integration fo powf m p mr k.
Proof.
  unfold finish_integration. assert (E : fit_integration fo powf m (fresh p (x_gdq fo p)) mr k = fit_integration fo powf m p mr k); [|rewrite E, fresh_prep; reflexivity].
  unfold fit_integration. rewrite fresh_prep. assert (D : int_dq0 fo m (fresh p (x_gdq fo p)) (prep fo m p k) = int_dq0 fo m p (prep fo m p k)) by reflexivity. rewrite D.
  destruct (Z.eqb _ _); [reflexivity|]. unfold fit_slope. destruct (Nat.eqb _ 0); [reflexivity|]. rewrite (map_ext _ _ (fresh_segment fo powf m p _ _ _)). reflexivity.
Qed.
Lemma fresh_fit (fo : FOps) powf m p : fit_pixel fo powf m (fresh p (x_gdq fo p)) = fit_pixel fo powf m p.
Proof.
  unfold fit_pixel. assert (R0 : median_rate fo m (fresh p (x_gdq fo p)) = median_rate fo m p).
  { unfold median_rate. destruct (Nat.eqb 1 _); f_equal; f_equal; apply map_ext; intro k; rewrite fresh_prep; reflexivity. }
  rewrite R0, (map_ext _ _ (fresh_finish fo powf m p _)), (map_ext _ _ (fresh_prep fo m p)). reflexivity.
Qed.
Lemma fresh_pixel (fo : FOps) powf m p g : ols_pixel fo powf m (fresh p g) = fit_pixel fo powf m (fresh p g).
Proof. unfold ols_pixel, chargeloss. cbn [fresh x_orig]. reflexivity. Qed.
Lemma nth_map_seq {A} (h : nat -> A) n k d : (k < n)%nat -> nth k (map h (seq 0 n)) d = h k.
Proof. intro K. rewrite (nth_indep _ d (h 0%nat)) by (rewrite map_length, seq_length; exact K). rewrite map_nth, seq_nth by exact K. reflexivity. Qed.
Lemma chg_int (fo : FOps) m p r k dflt : length (snd r) = m_nints fo m -> (k < m_nints fo m)%nat ->
  nth k (snd (chargeloss fo m p r)) dflt =
  match x_orig fo p with
  | Some orig => if i_chg fo (prep fo m p k) then set_vr fo (nth k (snd r) dflt) (large0 fo (fdiv fo (fone fo) (chargeloss_inv fo m p orig k))) else nth k (snd r) dflt
  | None => nth k (snd r) dflt
  end.
Proof.
  intros L K. unfold chargeloss. destruct (x_orig fo p) as [orig|]; [|reflexivity].
  assert (E : nth k (snd r) (fst r) = nth k (snd r) dflt) by (apply nth_indep; rewrite L; exact K).
  destruct (existsb (i_chg fo) (map (prep fo m p) (seq 0 (m_nints fo m)))) eqn:X; cbn [negb].
  - cbn [snd]. rewrite nth_map_seq by exact K. rewrite E. reflexivity.
  - destruct (i_chg fo (prep fo m p k)) eqn:C; [|reflexivity]. exfalso. rewrite <- not_true_iff_false in X. apply X. apply existsb_exists. exists (prep fo m p k). split; [|exact C]. apply in_map, in_seq. lia.
Qed.

(** ** nothing but the read-noise variance changes *)
Definition same_but_rnoise (fo : FOps) (q q' : pfit fo) : Prop :=
  q_slope fo q = q_slope fo q' /\ q_dq fo q = q_dq fo q' /\ q_vp fo q = q_vp fo q' /\ q_err fo q = q_err fo q'.
Theorem C104_only_rnoise : forall (fo : FOps) powf m p, let r := ols_pixel fo powf m p in let r0 := ols_pixel fo powf m (fresh p (x_gdq fo p)) in
  same_but_rnoise fo (fst r) (fst r0) /\ forall k dflt, k < m_nints fo m -> same_but_rnoise fo (nth k (snd r) dflt) (nth k (snd r0) dflt).
Proof.
  intros fo powf m p. cbv zeta. rewrite fresh_pixel, fresh_fit. unfold ols_pixel. set (r := fit_pixel fo powf m p). assert (L : length (snd r) = m_nints fo m) by apply fit_pixel_length. clearbody r. split.
  - unfold chargeloss. destruct (x_orig fo p); [|repeat split]. destruct (negb _); repeat split.
  - intros k dflt K. rewrite (chg_int fo m p r k dflt L K). destruct (x_orig fo p); [|repeat split]. destruct (i_chg fo _); repeat split.
Qed.
Print Assumptions C104_only_rnoise.
(** an integration none of whose groups lost charge is not touched, nor is a pixel without any *)
Theorem C104_unflagged : forall (fo : FOps) powf m p k dflt, k < m_nints fo m ->
  (forall j, j < m_ng fo m -> has (x_gdq fo p k j) (o_chg (m_f fo m)) = false) ->
  nth k (snd (ols_pixel fo powf m p)) dflt = nth k (snd (ols_pixel fo powf m (fresh p (x_gdq fo p)))) dflt.
Proof.
  intros fo powf m p k dflt K H. rewrite fresh_pixel, fresh_fit. unfold ols_pixel. rewrite chg_int by (try apply fit_pixel_length; exact K).
  destruct (x_orig fo p) as [o|]; [|reflexivity]. destruct (prep_rest fo m p k) as (_ & _ & _ & C & _). rewrite C.
  destruct (existsb _ _) eqn:E; [|reflexivity]. apply existsb_exists in E. destruct E as (j & J & E). apply in_seq in J. rewrite H in E by lia. discriminate.
Qed.
Print Assumptions C104_unflagged.
Theorem C104_unflagged_pixel : forall (fo : FOps) powf m p,
  (forall k j, k < m_nints fo m -> j < m_ng fo m -> has (x_gdq fo p k j) (o_chg (m_f fo m)) = false) ->
  ols_pixel fo powf m p = ols_pixel fo powf m (fresh p (x_gdq fo p)).
Proof.
  intros fo powf m p H. rewrite fresh_pixel, fresh_fit. unfold ols_pixel, chargeloss. destruct (x_orig fo p) as [o|]; [|reflexivity].
  replace (existsb (i_chg fo) (map (prep fo m p) (seq 0 (m_nints fo m)))) with false; [reflexivity|]. symmetry. apply not_true_iff_false. intro E.
  apply existsb_exists in E. destruct E as (i & I & E). apply in_map_iff in I. destruct I as (k & <- & I). apply in_seq in I.
  destruct (prep_rest fo m p k) as (_ & _ & _ & C & _). rewrite C in E. apply existsb_exists in E. destruct E as (j & J & E). apply in_seq in J. rewrite H in E by lia. discriminate.
Qed.
Print Assumptions C104_unflagged_pixel.

(** ** the read-noise variance *)
Lemma remove_restored dnu jump sat pers ngval chg (orig : nat -> N) k : (dnu < 8)%N -> (chg < 8)%N -> dnu <> chg ->
  (N.testbit (orig k) chg = true -> N.testbit (orig k) dnu = true) ->
  remove_chargeloss (flags_at dnu jump sat pers ngval chg) orig k = restored dnu chg (orig k).
Proof.
  intros D C NE H. unfold remove_chargeloss, restored. cbn [flags_at o_chg o_dnu]. rewrite has_bit. destruct (N.testbit (orig k) chg) eqn:E; [|reflexivity]. specialize (H eq_refl).
  apply N.bits_inj. intro j. rewrite N.lxor_spec, N.land_spec, N.lor_spec, !bit_testbit, !N.clearbit_eqb.
  change 255%N with (N.ones 8). destruct (N.eqb_spec dnu j) as [->|Dj]; [rewrite H, N.ones_spec_low by exact D; rewrite andb_false_r; reflexivity|].
  destruct (N.eqb_spec chg j) as [->|Cj]; [rewrite E, N.ones_spec_low by exact C; rewrite andb_false_r; reflexivity|]. cbn [orb andb negb]. rewrite xorb_false_r, !andb_true_r. reflexivity.
Qed.
Lemma scan_ext f g g' n : (forall k, k < n -> g k = g' k) -> scan_segments f g n = scan_segments f g' n.
Proof.
  intro H. unfold scan_segments. replace (fold_left (seg_step f g) (seq 0 n) (None, sl_empty)) with (fold_left (seg_step f g') (seq 0 n) (None, sl_empty)); [reflexivity|].
  assert (E : forall l st, (forall k, In k l -> k < n) -> fold_left (seg_step f g') l st = fold_left (seg_step f g) l st).
  { induction l as [|k l IH]; intros st L; [reflexivity|]. cbn [fold_left]. assert (K : k < n) by (apply L; left; reflexivity).
    rewrite IH by (intros j J; apply L; right; exact J). f_equal. unfold seg_step. rewrite (H k K). destruct st as [st s]. destruct (N.eqb _ 0); [|reflexivity]. destruct st; [reflexivity|].
    rewrite (H (k - 1)) by lia. reflexivity. }
  symmetry. rewrite E; [reflexivity|]. intros k K. apply in_seq in K. lia.
Qed.
(** a segment of two or more groups exists: no single-group segment is fitted *)
Lemma kept_long l s : existsb long l = true -> In s (kept l) -> long s = true.
Proof. intros E I. unfold kept in I. rewrite E in I. apply filter_In in I. apply I. Qed.
Lemma pair_long f g n r k : is_runs (flags_of f g) n r -> k + 1 < n -> N.ldiff (g k) (o_pers f) = 0%N -> N.ldiff (g (k + 1)) (o_pers f) = 0%N -> existsb long (map (extend f g) r) = true.
Proof.
  intros [[S G] Mx] K A B. assert (exists s, In s r /\ fst s <= k /\ k + 1 <= snd s) as (s & I & S1 & S2).
  { assert (Ca : covered r k) by (apply Mx; split; [lia|]; unfold flags_of; rewrite A; reflexivity).
    assert (Cb : covered r (k + 1)) by (apply Mx; split; [lia|]; unfold flags_of; rewrite B; reflexivity).
    destruct Ca as (s & I & Hs), Cb as (t & J & Ht). destruct (Nat.eq_dec (snd s) k) as [E|E]; [|exists s; split; [exact I|lia]].
    exists t. split; [exact J|]. split; [|lia]. destruct (Nat.le_gt_cases (fst t) k) as [L|L]; [exact L|]. exfalso.
    assert (O : s = t \/ snd s + 1 < fst t \/ snd t + 1 < fst s).
    { clear - G I J. induction G as [|a l G IH F]; [destruct I|]. rewrite Forall_forall in F. destruct I as [->|I], J as [->|J]; [left; reflexivity|right; left; apply F, J|right; right; apply F, I|apply IH; assumption]. }
    destruct O as [->|[O|O]]; lia. }
  apply existsb_exists. exists (extend f g s). split; [apply in_map, I|]. unfold long, extend. cbn [fst snd]. apply Nat.ltb_lt. destruct (_ && _); lia.
Qed.
Lemma rnoise_long (fo : FOps) m p p' i i' g : x_rn fo p = x_rn fo p' -> x_gain fo p = x_gain fo p' -> long g = true -> rnoise fo m p i g = rnoise fo m p' i' g.
Proof.
  intros R0 G0 L. unfold long in L. apply Nat.ltb_lt in L. unfold rnoise. destruct (Nat.eqb_spec 1 (snd g - fst g)) as [E|_]; [lia|]. destruct (Nat.eqb 2 _).
  - unfold rnoise_len2. rewrite R0, G0. reflexivity.
  - unfold rnoise_default. rewrite R0, G0. reflexivity.
Qed.
Lemma rnoise_pos (fo : FOps) m p i s : flt fo (fzero fo) (rnoise_len2 fo m p) = true -> (forall n, 2 < n -> flt fo (fzero fo) (rnoise_default fo m p (fnat fo n)) = true) ->
  long s = true -> flt fo (fzero fo) (rnoise fo m p i s) = true.
Proof.
  intros V2 V3 L. unfold long in L. apply Nat.ltb_lt in L. unfold rnoise. destruct (Nat.eqb_spec 1 (snd s - fst s)) as [E|_]; [lia|].
  destruct (Nat.eqb_spec 2 (snd s - fst s)) as [_|E]; [exact V2|]. apply V3. lia.
Qed.
Lemma fold_ext {A B} (h h' : A -> B -> A) l : (forall s x, In s l -> h x s = h' x s) -> forall a, fold_left h l a = fold_left h' l a.
Proof. induction l as [|s l IH]; intros H a; [reflexivity|]. cbn [fold_left]. rewrite H by (left; reflexivity). apply IH. intros t x T. apply H. right. exact T. Qed.
Lemma add_pos (fo : FOps) {B} (v : B -> fo) l a : (forall s, In s l -> flt fo (fzero fo) (v s) = true) ->
  fold_left (fun a g => if flt fo (fzero fo) (v g) then fadd fo a (fdiv fo (fone fo) (v g)) else a) l a = fold_left (fun x s => fadd fo x (fdiv fo (fone fo) (v s))) l a.
Proof. intro H. apply fold_ext. intros s x I. rewrite H by exact I. reflexivity. Qed.
Lemma fit_segment_rnoise (fo : FOps) powf m p i mr g : g_var_r fo (fit_segment fo powf m p i mr g) = rnoise fo m p i g.
Proof. unfold fit_segment, rnoise. destruct (Nat.eqb 1 _); [reflexivity|]. destruct (Nat.eqb 2 _); reflexivity. Qed.
Lemma add_fits_r (fo : FOps) powf m p i mr l : forall a, s_r fo (fold_left (add_fit fo) (map (fit_segment fo powf m p i mr) l) a) = fold_left (fun x g => fadd fo x (fdiv fo (fone fo) (rnoise fo m p i g))) l (s_r fo a).
Proof. induction l as [|g l IH]; intro a; [reflexivity|]. cbn [map fold_left]. rewrite IH. cbn [add_fit s_r]. rewrite fit_segment_rnoise. reflexivity. Qed.

(** The variance of an integration with lost groups is the one the pixel gets when its flags are taken away: provided each
    lost group is also DO_NOT_USE, two neighbouring groups are usable then, and the read noise is positive.  Any arithmetic. *)
Theorem C104_rnoise : forall (fo : FOps) powf m p dnu jump sat pers ngval chg k dflt j,
  m_f fo m = flags_at dnu jump sat pers ngval chg -> NoDup [dnu; jump; sat; pers; ngval; chg] -> (dnu < 8)%N -> (chg < 8)%N ->
  x_orig fo p = Some (x_gdq fo p) -> x_zf fo p = None -> k < m_nints fo m ->
  (forall i, i < m_ng fo m -> N.testbit (x_gdq fo p k i) chg = true -> N.testbit (x_gdq fo p k i) dnu = true) ->
  (exists i, i < m_ng fo m /\ N.testbit (x_gdq fo p k i) chg = true) ->
  let g := fun k i => restored dnu chg (x_gdq fo p k i) in
  j + 1 < m_ng fo m -> N.ldiff (g k j) (bit pers) = 0%N -> N.ldiff (g k (j + 1)) (bit pers) = 0%N -> N.testbit (g k 0) sat = false ->
  N.testbit (x_dq fo p) dnu = false -> N.testbit (x_dq fo p) sat = false -> ~ bad_gain fo p ->
  flt fo (fzero fo) (rnoise_len2 fo m p) = true -> (forall n, 2 < n -> flt fo (fzero fo) (rnoise_default fo m p (fnat fo n)) = true) ->
  q_vr fo (nth k (snd (ols_pixel fo powf m p)) dflt) = q_vr fo (nth k (snd (ols_pixel fo powf m (fresh p g))) dflt).
Proof.
  intros fo powf m p dnu jump sat pers ngval chg k dflt j Hf Hd D8 C8 Ho Hz K Hcd (ic & Ic & Hc) g J G1 G2 S0 Q1 Q2 BG V2 V3.
  rewrite <- bad_gain_iff, not_true_iff_false in BG.
  assert (NE : dnu <> chg) by (intro E; inversion Hd as [|? ? N0 _]; apply N0; rewrite E; cbn; tauto).
  assert (Jn : In j (seq 0 (m_ng fo m))) by (apply in_seq; clear - J; lia).
  assert (NN : jump <> dnu /\ pers <> dnu /\ jump <> sat /\ pers <> sat /\ dnu <> pers /\ sat <> pers) by (clear - Hd; repeat match goal with H : NoDup (_ :: _) |- _ => inversion H; subst; clear H end; cbn in *; intuition congruence).
  destruct NN as (n1 & n2 & n3 & n4 & n5 & n6).
  assert (Ssz : forall q, existsb long (map (extend (m_f fo m) (g q)) (init_ramps (flags_of (m_f fo m) (g q)) (m_ng fo m))) = true -> sl_size (scan_segments (m_f fo m) (g q) (m_ng fo m)) <> 0).
  { intros q E Z. pose proof (init_ramps_runs (flags_of (m_f fo m) (g q)) (m_ng fo m)) as Hr. apply (proj2 (segments_kept _ _ _ _ Hr)) in Z. rewrite Z in E. discriminate. }
  pose proof (init_ramps_runs (flags_of (m_f fo m) (g k)) (m_ng fo m)) as Hr.
  assert (Lg : existsb long (map (extend (m_f fo m) (g k)) (init_ramps (flags_of (m_f fo m) (g k)) (m_ng fo m))) = true).
  { apply (pair_long (m_f fo m) (g k) (m_ng fo m) _ j Hr J); rewrite Hf; assumption. }
  assert (Ll : forall s, In s (sl_nodes (scan_segments (m_f fo m) (g k) (m_ng fo m))) -> long s = true).
  { intros s I. rewrite (proj1 (segments_kept _ _ _ _ Hr)) in I. eapply kept_long; eassumption. }
  (* the recomputed one *)
  unfold ols_pixel at 1. rewrite chg_int by (try apply fit_pixel_length; exact K). rewrite Ho.
  destruct (prep_rest fo m p k) as (_ & _ & _ & Ci & _). rewrite Ci.
  assert (E1 : existsb (fun i => has (x_gdq fo p k i) (o_chg (m_f fo m))) (seq 0 (m_ng fo m)) = true).
  { apply existsb_exists. exists ic. split; [apply in_seq; clear - Ic; lia|]. rewrite Hf. cbn [flags_at o_chg]. rewrite has_bit. exact Hc. }
  rewrite E1. cbn [set_vr q_vr].
  assert (Sc : scan_segments (m_f fo m) (remove_chargeloss (m_f fo m) (x_gdq fo p k)) (m_ng fo m) = scan_segments (m_f fo m) (g k) (m_ng fo m)).
  { apply scan_ext. intros i I. rewrite Hf. apply remove_restored; try assumption. apply Hcd, I. }
  assert (Pos : forall s i, long s = true -> flt fo (fzero fo) (rnoise fo m p i s) = true).
  { intros s i L. apply rnoise_pos; assumption. }
  assert (Inv : chargeloss_inv fo m p (x_gdq fo p) k = fold_left (fun x s => fadd fo x (fdiv fo (fone fo) (rnoise fo m p (prep fo m p k) s))) (sl_nodes (scan_segments (m_f fo m) (g k) (m_ng fo m))) (fzero fo)).
  { unfold chargeloss_inv. rewrite Sc. cbv zeta. apply add_pos. intros s I. apply Pos, Ll, I. }
  rewrite Inv. clear Inv Sc Pos.
  (* the fresh one *)
  rewrite fresh_pixel. unfold fit_pixel. cbn [snd]. rewrite map_map, nth_map_seq by exact K. set (p' := fresh p g). set (mr := median_rate fo m p').
  assert (NZ : zf_used fo m p' k = false) by (unfold zf_used; cbn [p' fresh x_zf]; rewrite Hz, andb_false_r; reflexivity).
  destruct (prep_rest fo m p' k) as (X & _ & _ & _ & Dn & _). rewrite NZ in X, Dn. rewrite Z.sub_0_r in Dn. cbn [p' fresh x_gdq] in X, Dn. fold p' in X, Dn.
  unfold finish_integration. assert (FI : q_vr fo (fst (fit_integration fo powf m p' mr k)) = large0 fo (fdiv fo (fone fo) (fold_left (fun x s => fadd fo x (fdiv fo (fone fo) (rnoise fo m p' (prep fo m p' k) s))) (sl_nodes (scan_segments (m_f fo m) (g k) (m_ng fo m))) (fzero fo)))).
  { unfold fit_integration. rewrite X, Dn, count_all.
    assert (Hs : has (g k 0) (o_sat (m_f fo m)) = false) by (rewrite Hf; cbn [flags_at o_sat]; rewrite has_bit; exact S0). rewrite Hs.
    assert (Nb : forallb (fun i => has (g k i) (o_dnu (m_f fo m)) || has (g k i) (o_sat (m_f fo m))) (seq 0 (m_ng fo m)) = false).
    { apply not_true_iff_false. intro A. rewrite forallb_forall in A. specialize (A j Jn). rewrite Hf in A. cbn [flags_at o_dnu o_sat] in A. rewrite !has_bit in A.
      assert (T : forall b, b <> pers -> N.testbit (g k j) b = false).
      { intros b Hb. assert (Z : N.testbit (N.ldiff (g k j) (bit pers)) b = false) by (rewrite G1; apply N.bits_0). rewrite N.ldiff_spec, bit_testbit in Z. destruct (N.eqb_spec pers b) as [E|_]; [congruence|]. cbn [negb] in Z. rewrite andb_true_r in Z. exact Z. }
      rewrite !T in A; [discriminate A|exact n6|exact n5]. }
    rewrite Nb. unfold fit_slope. destruct (Nat.eqb_spec (sl_size (scan_segments (m_f fo m) (g k) (m_ng fo m))) 0) as [Z|_]; [exfalso; exact (Ssz k Lg Z)|].
    cbn [q_dq]. assert (Dq : has (int_dq0 fo m p' (prep fo m p' k)) (N.lor (o_dnu (m_f fo m)) (o_sat (m_f fo m))) = false).
    { rewrite Hf. cbn [flags_at o_dnu o_sat]. unfold has. apply negb_false_iff, N.eqb_eq. apply N.bits_inj_0. intro b. rewrite N.land_spec, N.lor_spec, !bit_testbit.
      unfold int_dq0. assert (Pd : pixel_dq fo m p' = x_dq fo p) by (unfold pixel_dq; cbn [p' fresh x_gain x_dq]; rewrite BG; reflexivity). rewrite Pd, !N.lor_spec, !flag_if_testbit, Hf. cbn [flags_at o_jump o_pers]. rewrite !bit_testbit.
      destruct (N.eqb_spec dnu b) as [<-|]; [rewrite Q1; rewrite (proj2 (N.eqb_neq jump dnu)), (proj2 (N.eqb_neq pers dnu)) by assumption; rewrite !andb_false_r; reflexivity|].
      destruct (N.eqb_spec sat b) as [<-|]; [rewrite Q2; rewrite (proj2 (N.eqb_neq jump sat)), (proj2 (N.eqb_neq pers sat)) by assumption; rewrite !andb_false_r; reflexivity|]. apply andb_false_r. }
    rewrite Dq. cbn [fst q_vr]. rewrite add_fits_r. reflexivity. }
  destruct (fit_integration fo powf m p' mr k) as [q c]. cbn [u_fit q_vr fst] in *. rewrite FI. f_equal. f_equal.
  apply fold_ext. intros s x I. rewrite (rnoise_long fo m p p' (prep fo m p k) (prep fo m p' k) s) by (try reflexivity; apply Ll, I). reflexivity.
Qed.
Print Assumptions C104_rnoise.

(** In exact arithmetic positive read noise, group time and gain are enough. *)
Theorem C104_rnoise_real : forall powf m p dnu jump sat pers ngval chg k dflt j,
  m_f RF m = flags_at dnu jump sat pers ngval chg -> NoDup [dnu; jump; sat; pers; ngval; chg] -> (dnu < 8)%N -> (chg < 8)%N ->
  x_orig RF p = Some (x_gdq RF p) -> x_zf RF p = None -> k < m_nints RF m ->
  (forall i, i < m_ng RF m -> N.testbit (x_gdq RF p k i) chg = true -> N.testbit (x_gdq RF p k i) dnu = true) ->
  (exists i, i < m_ng RF m /\ N.testbit (x_gdq RF p k i) chg = true) ->
  let g := fun k i => restored dnu chg (x_gdq RF p k i) in
  j + 1 < m_ng RF m -> N.ldiff (g k j) (bit pers) = 0%N -> N.ldiff (g k (j + 1)) (bit pers) = 0%N -> N.testbit (g k 0) sat = false ->
  N.testbit (x_dq RF p) dnu = false -> N.testbit (x_dq RF p) sat = false ->
  (0 < x_rn RF p)%R -> (0 < m_tgroup RF m)%R -> (0 < x_gain RF p)%R ->
  q_vr RF (nth k (snd (ols_pixel RF powf m p)) dflt) = q_vr RF (nth k (snd (ols_pixel RF powf m (fresh p g))) dflt).
Proof.
  intros powf m p dnu jump sat pers ngval chg k dflt j Hf Hd D8 C8 Ho Hz K Hcd Hc g J G1 G2 S0 Q1 Q2 Rp Tp Gp.
  assert (P : forall len : R, (0 < len)%R -> (0 < 12 * (x_rn RF p / m_tgroup RF m) * (x_rn RF p / m_tgroup RF m) / (len * x_gain RF p * x_gain RF p))%R).
  { intros len L. assert (A : (0 < x_rn RF p / m_tgroup RF m)%R) by (apply Rdiv_lt_0_compat; assumption). set (a := (x_rn RF p / m_tgroup RF m)%R) in *. clearbody a. apply Rdiv_lt_0_compat; repeat apply Rmult_lt_0_compat; try assumption; lra. }
  assert (GB : fle RF (x_gain RF p) (fzero RF) || fisnan RF (x_gain RF p) = false).
  { cbn [fle fzero fisnan RF]. rewrite orb_false_r. apply not_true_iff_false. rewrite Rleb_spec. lra. }
  apply (C104_rnoise RF powf m p dnu jump sat pers ngval chg k dflt j); try assumption.
  - rewrite <- bad_gain_iff, not_true_iff_false. exact GB.
  - unfold rnoise_len2. cbn [flt fzero fmul fdiv fofZ RF]. apply Rltb_spec. apply P. lra.
  - intros n N2. unfold rnoise_default. rewrite GB. cbn [flt fzero fmul fdiv fsub fofZ fnat RF]. apply Rltb_spec. apply P. unfold fnat. cbn [fofZ RF].
    assert (3 <= IZR (Z.of_nat n))%R by (apply (IZR_le 3); lia). nra.
Qed.
Print Assumptions C104_rnoise_real.

(** ** the exposure: the integrations' reported variances combine as usual *)
Lemma inv_inv (c : R) : c <> 0%R -> c = (1 / (1 / c))%R.
Proof. intro. field. assumption. Qed.
Theorem C104_exposure : forall powf m p (orig : nat -> nat -> N) k0, x_orig RF p = Some orig -> k0 < m_nints RF m ->
  (exists i, i < m_ng RF m /\ has (x_gdq RF p k0 i) (o_chg (m_f RF m)) = true) ->
  let r := ols_pixel RF powf m p in
  (forall k, k < m_nints RF m -> (0 < q_vr RF (nth k (snd r) (fst r)))%R) ->
  q_vr RF (fst r) = (1 / Rsum (map (fun k => 1 / q_vr RF (nth k (snd r) (fst r))) (seq 0 (m_nints RF m))))%R.
Proof.
  intros powf m p orig k0 Ho K0 (i0 & I0 & C0) r Hp.
  set (f0 := fit_pixel RF powf m p). assert (L : length (snd f0) = m_nints RF m) by apply fit_pixel_length.
  assert (Hk : forall k, k < m_nints RF m -> nth k (snd r) (fst r) = if i_chg RF (prep RF m p k) then set_vr RF (nth k (snd f0) (fst f0)) (large0 RF (fdiv RF (fone RF) (chargeloss_inv RF m p orig k))) else nth k (snd f0) (fst f0)).
  { intros k K. unfold r, ols_pixel. fold f0. rewrite chg_int by assumption. rewrite Ho. destruct (i_chg RF (prep RF m p k)); [f_equal|]; apply nth_indep; rewrite L; exact K. }
  assert (Cx : i_chg RF (prep RF m p k0) = true).
  { destruct (prep_rest RF m p k0) as (_ & _ & _ & Ci & _). rewrite Ci. apply existsb_exists. exists i0. split; [apply in_seq; lia|exact C0]. }
  assert (Lg : forall v : R, (0 < large0 RF v)%R -> large0 RF v = v /\ (0 < v < 1000000)%R).
  { intros v. unfold large0, LARGE. cbn [fle fofZ fzero RF]. destruct (Rleb 1000000 v) eqn:E; [lra|]. intros V. apply not_true_iff_false in E. rewrite Rleb_spec in E. lra. }
  set (W := fun k => (1 / q_vr RF (nth k (snd r) (fst r)))%R).
  assert (Wp : forall k, k < m_nints RF m -> (0 < W k)%R) by (intros k K; unfold W; apply Rdiv_lt_0_compat; [lra|apply Hp, K]).
  assert (Ex : fold_left (fun a k => if i_chg RF (prep RF m p k) then fadd RF a (chargeloss_inv RF m p orig k)
      else let v := q_vr RF (nth k (snd f0) (fst f0)) in if flt RF (fzero RF) v then fadd RF a (fdiv RF (fone RF) v) else a) (seq 0 (m_nints RF m)) (fzero RF) = Rsum (map W (seq 0 (m_nints RF m)))).
  { rewrite (fold_ext _ (fun (a : R) k => a + W k)%R).
    - assert (A : forall l (a : R), fold_left (fun (a : R) k => a + W k)%R l a = (a + Rsum (map W l))%R).
      { induction l as [|k l IH]; intro a; cbn [fold_left map]; rewrite ?Rsum_nil, ?Rsum_cons; [lra|]. rewrite IH. lra. }
      rewrite A. cbn [fzero RF]. lra.
    - intros k a I. apply in_seq in I. assert (K : k < m_nints RF m) by lia. specialize (Hp k K). unfold W. rewrite (Hk k K) in Hp |- *. destruct (i_chg RF (prep RF m p k)).
      + cbn [set_vr q_vr] in Hp |- *. destruct (Lg _ Hp) as [-> V]. cbn [fadd fdiv fone RF] in *. set (c := chargeloss_inv RF m p orig k) in *. clearbody c.
        assert (c <> 0)%R by (intro Z; rewrite Z in V; unfold Rdiv in V; rewrite Rinv_0 in V; lra). f_equal. apply inv_inv. assumption.
      + cbv zeta. cbn [flt fzero fadd fdiv fone RF]. rewrite (proj2 (Rltb_spec _ _) Hp). reflexivity. }
  assert (E0 : q_vr RF (fst r) = large0 RF (1 / Rsum (map W (seq 0 (m_nints RF m))))%R).
  { unfold r at 1, ols_pixel. fold f0. unfold chargeloss. rewrite Ho.
    replace (existsb (i_chg RF) (map (prep RF m p) (seq 0 (m_nints RF m)))) with true.
    2: { symmetry. apply existsb_exists. exists (prep RF m p k0). split; [apply in_map, in_seq; lia|exact Cx]. }
    cbn [negb]. cbv zeta in Ex |- *. rewrite Ex. cbn [fst set_vr q_vr]. cbn [flt fzero fdiv fone RF]. f_equal.
    replace (Rltb 0 (Rsum (map W (seq 0 (m_nints RF m))))) with true; [reflexivity|]. symmetry. apply Rltb_spec.
    apply (Rsum_pos _ _ k0); [intros k I; left; apply Wp; apply in_seq in I; lia|apply in_seq; lia|apply Wp, K0]. }
  rewrite E0. fold W. assert (B : (W k0 <= Rsum (map W (seq 0 (m_nints RF m))))%R).
  { assert (A : forall l, (forall k, In k l -> (0 < W k)%R) -> In k0 l -> (W k0 <= Rsum (map W l))%R).
    { induction l as [|k l IH]; intros P I; [destruct I|]. cbn [map]. rewrite Rsum_cons. destruct I as [->|I].
      - assert (0 <= Rsum (map W l))%R by (apply Rsum_nonneg; intros j J; left; apply P; right; exact J). lra.
      - specialize (IH (fun j J => P j (or_intror J)) I). specialize (P k (or_introl eq_refl)). lra. }
    apply A; [intros k I; apply Wp; apply in_seq in I; lia|apply in_seq; lia]. }
  specialize (Hp k0 K0). assert (V : (1 / W k0 < 1000000)%R).
  { unfold W. rewrite (Hk k0 K0) in Hp |- *. rewrite Cx in Hp |- *. cbn [set_vr q_vr] in Hp |- *. destruct (Lg _ Hp) as [-> V]. cbn [fdiv fone RF] in *.
    replace (1 / (1 / (1 / chargeloss_inv RF m p orig k0)))%R with (1 / chargeloss_inv RF m p orig k0)%R; [lra|]. set (c := (1 / chargeloss_inv RF m p orig k0)%R) in *. clearbody c. rewrite <- inv_inv; [reflexivity|lra]. }
  apply large_small. specialize (Wp k0 K0). apply Rle_lt_trans with (2 := V). unfold Rdiv. rewrite !Rmult_1_l. apply Rinv_le_contravar; lra.
Qed.
Print Assumptions C104_exposure.

(** ** Where the claim fails *)
(** a group flagged CHARGELOSS but not DO_NOT_USE: exclusive-or sets DO_NOT_USE on it instead of clearing anything *)
Theorem C104_not_dnu_refuted : exists (m : ometa B64) (p : opix B64), m_f B64 m = flags_at 0 2 1 3 4 7 /\ x_orig B64 p = Some (x_gdq B64 p) /\
  (forall i, N.testbit (x_gdq B64 p 0 i) 0 = false) /\
  q_vr B64 (nth 0 (snd (ols_pixel B64 one_pow m p)) (fst (ols_pixel B64 one_pow m p))) <>
  q_vr B64 (nth 0 (snd (ols_pixel B64 one_pow m (fresh p (fun k i => restored 0 7 (x_gdq B64 p k i))))) (fst (ols_pixel B64 one_pow m p))).
Proof.
  exists (ex_meta B64 4 1 false), (ex_pix B64 [[10; 20; 30; 39]%Z] [[0; 0; 0; 128]%N] 1 1 None (Some [[0; 0; 0; 128]%N])).
  split; [reflexivity|]. split; [reflexivity|]. split; [intro i; do 5 (destruct i as [|i]; [reflexivity|]); reflexivity|]. vm_compute. discriminate.
Qed.
Print Assumptions C104_not_dnu_refuted.
(** no two neighbouring usable groups: the isolated first group is weighed with the one-group time of the flagged ramp *)
Theorem C104_isolated_refuted : exists (m : ometa B64) (p : opix B64), m_f B64 m = flags_at 0 2 1 3 4 7 /\ x_orig B64 p = Some (x_gdq B64 p) /\
  (forall i, N.testbit (x_gdq B64 p 0 i) 7 = true -> N.testbit (x_gdq B64 p 0 i) 0 = true) /\
  q_vr B64 (nth 0 (snd (ols_pixel B64 one_pow m p)) (fst (ols_pixel B64 one_pow m p))) <>
  q_vr B64 (nth 0 (snd (ols_pixel B64 one_pow m (fresh p (fun k i => restored 0 7 (x_gdq B64 p k i))))) (fst (ols_pixel B64 one_pow m p))).
Proof.
  exists (ex_meta B64 3 1 false), (ex_pix B64 [[10; 20; 30]%Z] [[0; 1; 129]%N] 1 1 None (Some [[0; 1; 129]%N])).
  split; [reflexivity|]. split; [reflexivity|]. split; [intros i H; do 4 (destruct i as [|i]; [first [reflexivity|discriminate H]|]); discriminate H|]. vm_compute. discriminate.
Qed.
Print Assumptions C104_isolated_refuted.

(** ** Examples: the last group of four lost; two integrations, one of them lost *)
Definition chg_pix : opix B64 := ex_pix B64 [[10; 20; 30; 39]; [10; 20; 30; 40]]%Z [[0; 0; 0; 129]; [0; 0; 0; 0]]%N 1 3 None (Some [[0; 0; 0; 129]; [0; 0; 0; 0]]%N).
Definition chg_meta : ometa B64 := ex_meta B64 4 2 false.
Example C104_example :
  m_f B64 chg_meta = flags_at 0 2 1 3 4 7 /\ x_orig B64 chg_pix = Some (x_gdq B64 chg_pix) /\ x_zf B64 chg_pix = None /\
  (N.testbit (x_gdq B64 chg_pix 0 3) 7 = true /\ N.testbit (x_gdq B64 chg_pix 0 3) 0 = true) /\
  (N.ldiff (restored 0 7 (x_gdq B64 chg_pix 0 2)) 8 = 0 /\ N.ldiff (restored 0 7 (x_gdq B64 chg_pix 0 3)) 8 = 0)%N /\
  flt B64 (fzero B64) (rnoise_len2 B64 chg_meta chg_pix) = true /\ flt B64 (fzero B64) (rnoise_default B64 chg_meta chg_pix (fnat B64 4)) = true /\
  let vr p k := q_vr B64 (nth k (snd (ols_pixel B64 one_pow chg_meta p)) (fst (ols_pixel B64 one_pow chg_meta p))) in
  vr chg_pix 0 = vr (fresh chg_pix (fun k i => restored 0 7 (x_gdq B64 chg_pix k i))) 0 /\
  vr chg_pix 0 <> vr (fresh chg_pix (x_gdq B64 chg_pix)) 0 /\ vr chg_pix 1 = vr (fresh chg_pix (x_gdq B64 chg_pix)) 1.
Proof. vm_compute. repeat split; discriminate. Qed.
(** the hypotheses of the exact-arithmetic theorems: positive quantities, a flagged first integration *)
Example C104_real_example : let m := ex_meta RF 4 2 false in let p := ex_pix RF [[10; 20; 30; 39]; [10; 20; 30; 40]]%Z [[0; 0; 0; 129]; [0; 0; 0; 0]]%N 1 3 None (Some [[0; 0; 0; 129]; [0; 0; 0; 0]]%N) in
  (0 < x_rn RF p /\ 0 < m_tgroup RF m /\ 0 < x_gain RF p)%R /\ x_orig RF p = Some (x_gdq RF p) /\ has (x_gdq RF p 0 3) (o_chg (m_f RF m)) = true /\ NoDup [0; 2; 1; 3; 4; 7]%N.
Proof.
  cbv zeta. split; [cbn; lra|]. split; [reflexivity|]. split; [reflexivity|]. repeat (constructor; [cbn; intuition discriminate|]). constructor.
Qed.
