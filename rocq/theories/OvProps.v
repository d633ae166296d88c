(** C112: the rate behind the least-squares Poisson variance, and that variance. *)
From Verif Require Import Base BaseLemmas FLaws RBase Cas22Model Cas22Spec Cas22Proofs Cas22Fit OlsModel OlsSpec OlsProofs OlsFit OlsErr OlsProps.
From Coq Require Import Reals Lra Lia Permutation.
Local Open Scope nat_scope.

(** ** Specification *)
Section Spec.
  Variable fo : FOps.
  (** no later value is smaller *)
  Definition ordered (s : list fo) : Prop := forall i j, i < j < length s -> flt fo (nth j s (fnan fo)) (nth i s (fnan fo)) = false.
  (** the middle value, or the mean of the two middle values *)
  Definition median_of (l : list fo) (v : fo) : Prop := exists s, Permutation s l /\ ordered s /\
    let n := length l in let a := nth (n / 2 - 1) s (fnan fo) in let b := nth (n / 2) s (fnan fo) in
    if Nat.odd n then v = b else v = fdiv fo (fadd fo a b) (fofZ fo 2) \/ v = fdiv fo (fadd fo b a) (fofZ fo 2).
  (** counting rates between consecutive groups that are both usable, leaving out those that contain a jump *)
  Definition good_group (m : ometa fo) (p : opix fo) (k j : nat) : bool :=
    negb (has (x_gdq fo p k j) (o_dnu (m_f fo m))) && negb (has (x_gdq fo p k j) (o_sat (m_f fo m))).
  Definition good_diff (m : ometa fo) (p : opix fo) (k j : nat) : bool :=
    good_group m p k j && good_group m p k (j + 1) && negb (has (x_gdq fo p k (j + 1)) (o_jump (m_f fo m))).
  Definition diff_rate (m : ometa fo) (p : opix fo) (k j : nat) : fo :=
    fsub fo (fdiv fo (x_data fo p k (j + 1)) (m_tgroup fo m)) (fdiv fo (x_data fo p k j) (m_tgroup fo m)).
  Definition rates (m : ometa fo) (p : opix fo) (k : nat) : list fo := map (diff_rate m p k) (filter (good_diff m p k) (seq 0 (m_ng fo m - 1))).
End Spec.

(** ** The median *)
Section Median.
  Variable fo : FOps.
  Variable L : FLaws fo.
  Notation ins := (insert fo). Notation num := (fun x => negb (fisnan fo x)).
  Lemma ins_perm x l : Permutation (ins x l) (x :: l).
  Proof.
    induction l as [|y l IH]; [apply Permutation_refl|]. cbn [insert]. destruct (flt fo _ _); [apply Permutation_refl|].
    eapply Permutation_trans; [apply perm_skip, IH|apply perm_swap].
  Qed.
  Lemma sort_perm l : Permutation (fold_right ins [] l) l.
  Proof. induction l as [|x l IH]; [constructor|]. cbn [fold_right]. eapply Permutation_trans; [apply ins_perm|]. constructor. exact IH. Qed.
  (** every value is not greater than those after it *)
  Fixpoint asc (l : list fo) : Prop := match l with [] => True | x :: r => (forall y, In y r -> flt fo y x = false) /\ asc r end.
  Lemma ins_asc x l : fisnan fo x = false -> (forall y, In y l -> fisnan fo y = false) -> asc l -> asc (ins x l).
  Proof.
    intros Hx. induction l as [|y l IH]; intros Hl A; [split; [intros ? []|exact I]|]. cbn [insert]. destruct A as [A1 A2].
    assert (Hy : fisnan fo y = false) by (apply Hl; left; reflexivity).
    destruct (flt fo x y) eqn:E.
    - split; [|split; assumption]. intros v [<-|V].
      + destruct (flt fo y x) eqn:F; [|reflexivity]. pose proof (flt_trans fo L _ _ _ E F) as Q. rewrite (flt_irrefl fo L) in Q. discriminate.
      + assert (G : flt fo y x = false).
        { destruct (flt fo y x) eqn:F; [|reflexivity]. pose proof (flt_trans fo L _ _ _ E F) as Q. rewrite (flt_irrefl fo L) in Q. discriminate. }
        apply (nflt_trans fo L v y x Hy (A1 v V) G).
    - split; [|apply IH; [intros; apply Hl; right; assumption|exact A2]].
      intros v V. apply (Permutation_in _ (ins_perm x l)) in V. destruct V as [<-|V]; [exact E|apply A1; exact V].
  Qed.
  Lemma sort_asc l : (forall y, In y l -> fisnan fo y = false) -> asc (fold_right ins [] l).
  Proof.
    induction l as [|x l IH]; intro H; [exact I|]. cbn [fold_right]. apply ins_asc; [apply H; left; reflexivity| |apply IH; intros; apply H; right; assumption].
    intros y Y. apply H. right. apply (Permutation_in _ (sort_perm l)). exact Y.
  Qed.
  Lemma asc_ordered s : asc s -> ordered fo s.
  Proof.
    induction s as [|x s IH]; intros A i j H; [cbn in H; lia|]. destruct A as [A1 A2]. cbn [length] in H. destruct j as [|j]; [lia|]. destruct i as [|i]; cbn [nth].
    - apply A1, nth_In. lia.
    - apply IH; [exact A2|lia].
  Qed.
  Lemma nan_median_spec l : filter num l <> [] -> median_of fo (filter num l) (nan_median fo l).
  Proof.
    intro NE. exists (OlsModel.sorted fo l). set (s := OlsModel.sorted fo l). set (u := filter num l) in *.
    assert (P : Permutation s u) by apply sort_perm. pose proof (Permutation_length P) as LE.
    split; [exact P|]. split.
    { apply asc_ordered, sort_asc. intros y Y. apply filter_In in Y. apply negb_true_iff, Y. }
    assert (S0 : length s <> 0) by (rewrite LE; destruct u; [congruence|discriminate]).
    assert (LT : forall i, i < length s -> nth i s (fzero fo) = nth i s (fnan fo)) by (intros i Hi; apply nth_indep; exact Hi).
    cbv zeta. unfold nan_median. fold s. rewrite <- LE. clearbody s. clear P LE.
    destruct s as [|a [|b [|c s]]]; [contradiction|reflexivity|cbn; left; reflexivity|].
    remember (a :: b :: c :: s) as v. cbn [Nat.eqb]. assert (3 <= length v) by (subst v; cbn; lia).
    rewrite (proj2 (Nat.eqb_neq (length v) 0)), (proj2 (Nat.eqb_neq (length v) 1)), (proj2 (Nat.eqb_neq (length v) 2)) by lia.
    assert (length v / 2 < length v) by (apply Nat.div_lt; lia).
    destruct (Nat.odd (length v)); [apply LT; assumption|]. right. rewrite !LT by lia. reflexivity.
  Qed.
End Median.

(** The rate of an integration is the median of the counting rates between usable neighbouring groups; none of them:
    the first group's rate if that is usable, else zero. *)
Section Rate.
  Variable fo : FOps.
  Variables (m : ometa fo) (p : opix fo) (k : nat).
  (** the groups are used as they are: one-group suppression is on or two groups carry no flag *)
  Definition ordinary : Prop := m_sup fo m = true \/ exists i j, i < j < m_ng fo m /\ x_gdq fo p k i = 0%N /\ x_gdq fo p k j = 0%N.
  Lemma two_in (q : nat -> bool) n i j : i < j < n -> q i = true -> q j = true -> 2 <= length (filter q (seq 0 n)).
  Proof.
    intros H Qi Qj. assert (ND : NoDup [i; j]) by (constructor; [intros [E|[]]; lia|constructor; [intros []|constructor]]).
    apply (NoDup_incl_length ND). intros x [<-|[<-|[]]]; apply filter_In; (split; [apply in_seq; lia|assumption]).
  Qed.
  Lemma prep_ordinary : ordinary -> prep fo m p k = prep0 fo m p k.
  Proof.
    unfold prep. intros [->|(i & j & H & A & B)]; [reflexivity|]. destruct (m_sup fo m); [reflexivity|].
    assert (C : (2 <= i_good fo (prep0 fo m p k))%Z).
    { cbn [prep0 i_good]. unfold count. pose proof (two_in (fun x => N.eqb 0 (x_gdq fo p k x)) (m_ng fo m) i j H) as T. cbv beta in T. rewrite A, B in T. specialize (T eq_refl eq_refl). lia. }
    destruct (Z.eqb_spec 1 (i_good fo (prep0 fo m p k))); [lia|]. cbn [andb]. destruct (x_zf fo p); [|reflexivity].
    destruct (Z.eqb_spec 0 (i_good fo (prep0 fo m p k))); [lia|]. reflexivity.
  Qed.
  Variable L : FLaws fo.
  Hypothesis HN : fisnan fo (fnan fo) = true.
  Lemma bad_rate j : good_group fo m p k j = false -> fisnan fo (loc_rate fo m (prep0 fo m p k) j) = true.
  Proof.
    unfold good_group, loc_rate. cbn [prep0 i_gdq i_data]. destruct (has _ (o_dnu _)); [intros _; exact HN|]. cbn [negb andb].
    destruct (has _ (o_sat _)); [|discriminate]. intros _. apply (div_nan_l fo L). exact HN.
  Qed.
  Lemma good_rate j : good_group fo m p k j = true -> loc_rate fo m (prep0 fo m p k) j = fdiv fo (x_data fo p k j) (m_tgroup fo m).
  Proof.
    unfold good_group, loc_rate. cbn [prep0 i_gdq i_data]. destruct (has _ (o_dnu _)); [discriminate|]. destruct (has _ (o_sat _)); [discriminate|]. reflexivity.
  Qed.
  Hypothesis numbers : forall j, j + 1 < m_ng fo m -> good_diff fo m p k j = true -> fisnan fo (diff_rate fo m p k j) = false.
  Lemma diffs_filter : filter (fun x => negb (fisnan fo x)) (OlsModel.first_diffs fo m (prep0 fo m p k)) = rates fo m p k.
  Proof.
    unfold OlsModel.first_diffs, rates. assert (SQ : forall j, In j (seq 0 (m_ng fo m - 1)) -> j + 1 < m_ng fo m) by (intros j J; apply in_seq in J; lia).
    induction (seq 0 (m_ng fo m - 1)) as [|j l IH]; [reflexivity|]. specialize (IH (fun i I => SQ i (or_intror I))). specialize (SQ j (or_introl eq_refl)). cbn [map filter].
    set (x := if has _ _ then _ else _). assert (X : if good_diff fo m p k j then x = diff_rate fo m p k j else fisnan fo x = true).
    { unfold x, good_diff. change (i_gdq fo (prep0 fo m p k)) with (x_gdq fo p k). destruct (has (x_gdq fo p k (j + 1)) (o_jump _)); [rewrite !andb_false_r; exact HN|]. cbn [negb]. rewrite andb_true_r.
      destruct (good_group fo m p k j) eqn:A; cbn [andb]; [|apply (sub_nan_r fo L), bad_rate, A].
      destruct (good_group fo m p k (j + 1)) eqn:B; [|apply (sub_nan_l fo L), bad_rate, B]. rewrite !good_rate by assumption. reflexivity. }
    pose proof (numbers j SQ) as NB. destruct (good_diff fo m p k j).
    - rewrite X, (NB eq_refl). cbn [negb map]. rewrite <- IH. reflexivity.
    - rewrite X. cbn [negb]. exact IH.
  Qed.
  Lemma all_nan : rates fo m p k = [] -> forallb (fisnan fo) (OlsModel.first_diffs fo m (prep0 fo m p k)) = true.
  Proof.
    rewrite <- diffs_filter. induction (OlsModel.first_diffs _ _ _) as [|x l IH]; [reflexivity|]. cbn [filter forallb]. destruct (fisnan fo x); [exact IH|discriminate].
  Qed.
  Lemma some_num : rates fo m p k <> [] -> forallb (fisnan fo) (OlsModel.first_diffs fo m (prep0 fo m p k)) = false.
  Proof.
    rewrite <- diffs_filter. induction (OlsModel.first_diffs _ _ _) as [|x l IH]; [intro H; exfalso; apply H; reflexivity|]. cbn [filter forallb]. destruct (fisnan fo x); [exact IH|reflexivity].
  Qed.
  Lemma rate_median : ordinary -> rates fo m p k <> [] -> exists v, median_of fo (rates fo m p k) v /\ integ_rate fo m (prep fo m p k) = if fisnan fo v then fzero fo else v.
  Proof.
    intros O NE. rewrite (prep_ordinary O). unfold integ_rate. cbn [prep0 i_0th i_zf]. fold (prep0 fo m p k).
    exists (median_rate_integration fo m (prep0 fo m p k)). split; [|reflexivity].
    unfold median_rate_integration. cbv zeta. rewrite (some_num NE). cbn [andb]. rewrite <- diffs_filter. apply nan_median_spec; [exact L|]. rewrite diffs_filter. exact NE.
  Qed.
  Lemma rate_first : ordinary -> 2 <= m_ng fo m -> rates fo m p k = [] ->
    let r0 := fdiv fo (x_data fo p k 0) (m_tgroup fo m) in
    integ_rate fo m (prep fo m p k) = if good_group fo m p k 0 && negb (fisnan fo r0) then r0 else fzero fo.
  Proof.
    intros O NG E. cbv zeta. rewrite (prep_ordinary O). unfold integ_rate. cbn [prep0 i_0th i_zf]. fold (prep0 fo m p k).
    unfold median_rate_integration. cbv zeta. rewrite (all_nan E). cbn [andb].
    pose proof diffs_filter as DF. rewrite E in DF.
    assert (ND : exists x l, OlsModel.first_diffs fo m (prep0 fo m p k) = x :: l).
    { unfold OlsModel.first_diffs. destruct (m_ng fo m - 1) eqn:Q; [lia|]. cbn [seq map]. eexists. eexists. reflexivity. }
    destruct ND as (x & l & ED). rewrite ED in DF |- *.
    assert (Fl : filter (fun x => negb (fisnan fo x)) l = []).
    { cbn [filter] in DF. destruct (negb (fisnan fo x)); [discriminate|exact DF]. }
    destruct (good_group fo m p k 0) eqn:G; cbn [andb].
    - rewrite (good_rate 0 G). destruct (fisnan fo (fdiv fo (x_data fo p k 0) (m_tgroup fo m))) eqn:N0; cbn [negb].
      + unfold nan_median, OlsModel.sorted. rewrite DF. cbn. rewrite HN. reflexivity.
      + unfold nan_median, OlsModel.sorted. cbn [filter]. rewrite N0, Fl. cbn. rewrite N0. reflexivity.
    - rewrite (bad_rate 0 G). cbn [negb]. unfold nan_median, OlsModel.sorted. rewrite DF. cbn. rewrite HN. reflexivity.
  Qed.
End Rate.
Theorem C112_rate : forall fo, FLaws fo -> fisnan fo (fnan fo) = true -> forall (m : ometa fo) p k, ordinary fo m p k -> 2 <= m_ng fo m ->
  (forall j, j + 1 < m_ng fo m -> good_diff fo m p k j = true -> fisnan fo (diff_rate fo m p k j) = false) ->
  (rates fo m p k <> [] -> exists v, median_of fo (rates fo m p k) v /\ integ_rate fo m (prep fo m p k) = if fisnan fo v then fzero fo else v) /\
  (rates fo m p k = [] -> let r0 := fdiv fo (x_data fo p k 0) (m_tgroup fo m) in
     integ_rate fo m (prep fo m p k) = if good_group fo m p k 0 && negb (fisnan fo r0) then r0 else fzero fo).
Proof. intros fo L HN m p k O NG H. split; intro; [apply rate_median|apply rate_first]; assumption. Qed.
Print Assumptions C112_rate.

(** The rate of the pixel is the mean over its integrations.  Over the reals there is no NaN, so this is stated for a pixel with no flag;
    C112_rate says what an integration of an IEEE pixel with flags contributes. *)
Local Open Scope R_scope.
Theorem C112_mean : forall (m : ometa RF) (p : opix RF), (2 <= m_ng RF m)%nat -> (1 <= m_nints RF m)%nat ->
  (forall k j, (k < m_nints RF m)%nat -> (j < m_ng RF m)%nat -> x_gdq RF p k j = 0%N) ->
  exists v : nat -> R, median_rate RF m p = Rmean (map v (seq 0 (m_nints RF m))) /\
    forall k, (k < m_nints RF m)%nat -> median_of RF (map (fun j => x_data RF p k (j + 1) / m_tgroup RF m - x_data RF p k j / m_tgroup RF m) (seq 0 (m_ng RF m - 1))) (v k).
Proof.
  intros m p NG NI Z. exists (fun k => integ_rate RF m (prep RF m p k)). split.
  - unfold median_rate, Rmean. rewrite map_length, seq_length. destruct (Nat.eqb_spec 1 (m_ng RF m)); [lia|]. cbn [fdiv RF]. rewrite osum_R, fnat_R. reflexivity.
  - intros k K. rewrite (prep_ordinary RF m p k) by (unfold ordinary; right; exists 0%nat, 1%nat; repeat split; try lia; apply Z; lia). unfold integ_rate. cbn [prep0 i_0th i_zf fisnan RF]. fold (prep0 RF m p k).
    unfold median_rate_integration. cbv zeta. set (l := map _ (seq 0 (m_ng RF m - 1))).
    assert (E : OlsModel.first_diffs RF m (prep0 RF m p k) = l).
    { apply map_ext_in. intros j J. apply in_seq in J. unfold loc_rate. cbn [prep0 i_gdq i_data]. rewrite !Z by lia. reflexivity. }
    assert (FL : filter (fun x : RF => negb (fisnan RF x)) l = l) by (clear; induction l as [|x l IH]; [reflexivity|cbn [filter fisnan RF negb]; f_equal; exact IH]).
    assert (NE : l <> []) by (unfold l; destruct (m_ng RF m - 1)%nat eqn:Q; [lia|discriminate]).
    rewrite E. replace (forallb (fisnan RF) l) with false by (destruct l; [congruence|reflexivity]). cbn [andb].
    pose proof (nan_median_spec RF RF_laws l) as N. rewrite FL in N. exact (N NE).
Qed.
Print Assumptions C112_mean.

Section Poisson.
  Variable pow : R -> R -> R.
  Variable m : ometa RF.
  Variable p : opix RF.
  Notation f := (m_f RF m). Notation ng := (m_ng RF m). Notation d := (x_gdq RF p).
  Notation tg := (m_tgroup RF m : R). Notation tf := (m_tframe RF m : R). Notation rn := (x_rn RF p : R). Notation gn := (x_gain RF p : R). Notation dk := (x_dark RF p : R).
  Variables dnu jump sat pers ngval chg : N.
  Hypothesis Hf : f = flags_at dnu jump sat pers ngval chg.
  Hypothesis Hd : NoDup [dnu; jump; sat; pers; ngval].
  Hypothesis N1 : (1 <= ng)%nat.
  Hypothesis Hr : rn <> 0.
  Hypothesis Ht : 0 < tg.
  Hypothesis Hfr : 0 < tf.
  Hypothesis Hg : 0 < gn.
  Hypothesis Hk : 0 <= dk.
  Hypothesis Hq : N.testbit (x_dq RF p) dnu = false /\ N.testbit (x_dq RF p) sat = false.
  Hypothesis Ho : x_orig RF p = None.
  (** the counts arrive over this time: from the first to the last group of a segment; a segment of one group: one
      group time, or the mean time of the frames of the first group when that is the only unflagged one *)
  Definition span (k : nat) (g : nat * nat) : R :=
    if Nat.eqb (slen g) 1 then
      if negb (m_sup RF m) && Z.eqb 1 (count (fun j => N.eqb 0 (d k j)) ng) && N.eqb 0 (d k 0) then t_one RF m else tg
    else INR (slen g - 1) * tg.
  Lemma plain_timing k : plain m p k -> len1_timing RF m (prep RF m p k) =
    if negb (m_sup RF m) && Z.eqb 1 (count (fun j => N.eqb 0 (d k j)) ng) && N.eqb 0 (d k 0) then t_one RF m else tg.
  Proof.
    intro P. pose proof (plain_zf m p dnu sat N1 Hq k P) as Z. rewrite <- prep_zf in Z. unfold len1_timing. rewrite Z. revert Z. unfold prep. destruct (m_sup RF m); [reflexivity|]. cbn [negb andb].
    change (i_good RF (prep0 RF m p k)) with (count (fun j => N.eqb 0 (d k j)) ng). change (i_gdq RF (prep0 RF m p k) 0) with (d k 0).
    destruct (_ && _); [reflexivity|]. destruct (x_zf RF p); [|reflexivity]. destruct (_ && _); [discriminate|reflexivity].
  Qed.
  Lemma span_pos k g : (1 <= slen g)%nat -> 0 < span k g.
  Proof.
    intro L. unfold span. pose proof (t_one_pos m Hfr). destruct (Nat.eqb_spec (slen g) 1); [destruct (_ && _); assumption|]. apply Rmult_lt_0_compat; [|assumption]. apply lt_0_INR. lia.
  Qed.
  Lemma seg_poisson k mr g : plain m p k -> (1 <= slen g)%nat -> g_var_p RF (fit_segment RF pow m p (prep RF m p k) mr g) = flux p mr / (span k g * gn).
  Proof.
    intros P L. unfold fit_segment, span. fold (slen g). rewrite (Nat.eqb_sym (slen g) 1). destruct (Nat.eqb_spec 1 (slen g)) as [E|E1].
    - cbn [fit_len1 g_var_p]. rewrite var_poisson_flux, (plain_timing k P). reflexivity.
    - destruct (Nat.eqb_spec 2 (slen g)) as [E|E2].
      + cbn [fit_len2 g_var_p]. rewrite var_poisson_flux, <- E. change (INR (2 - 1)) with 1. rewrite Rmult_1_l. reflexivity.
      + cbn [fit_default g_var_p]. rewrite var_poisson_flux. fold (slen g). rewrite fnat_R, minus_INR by lia. cbn [fmul fsub fone RF]. change (INR 1) with 1.
        f_equal. ring.
  Qed.
  Definition spans (k : nat) : R := Rsum (map (span k) (segs_of m p k)).
  Lemma spans_nonneg k : 0 <= spans k.
  Proof. apply Rsum_nonneg. intros g I. left. apply span_pos, (seg_len m p k), I. Qed.
  Lemma spans_pos k : segs_of m p k <> [] -> 0 < spans k.
  Proof.
    intro NE. unfold spans. pose proof (seg_len m p k) as SL. destruct (segs_of m p k) as [|g l]; [congruence|].
    apply (Rsum_pos _ _ g); [intros x I; left|left; reflexivity|]; apply span_pos, SL; [assumption|left; reflexivity].
  Qed.
  Lemma sum_p_spans k mr : plain m p k -> sum_p pow m p k mr = if Rltb 0 (flux p mr) then spans k * gn / flux p mr else 0.
  Proof.
    intro P. unfold sum_p, spans. rewrite map_map. pose proof (seg_len m p k) as SL.
    destruct (Rltb 0 (flux p mr)) eqn:F.
    - apply Rltb_spec in F. unfold Rdiv. rewrite Rmult_assoc, (Rmult_comm (Rsum _)), <- Rsum_scal. apply Rsum_ext. intros g I.
      rewrite (seg_poisson k mr g P (SL g I)). pose proof (span_pos k g (SL g I)).
      replace (Rltb 0 (flux p mr / (span k g * gn))) with true by (symmetry; apply Rltb_spec, Rdiv_lt_0_compat; [assumption|apply Rmult_lt_0_compat; assumption]).
      field. repeat split; lra.
    - assert (Z : flux p mr = 0). { destruct (flux_nonneg p Hk mr) as [A|A]; [|auto]. apply Rltb_spec in A. congruence. }
      rewrite (Rsum_ext _ (fun _ => 0)); [rewrite Rsum_const; ring|]. intros g I. rewrite (seg_poisson k mr g P (SL g I)), Z. unfold Rdiv. rewrite Rmult_0_l.
      destruct (Rltb 0 0) eqn:E; [apply Rltb_spec in E; lra|reflexivity].
  Qed.
  Theorem int_poisson k : plain m p k -> segs_of m p k <> [] -> forall mr : R,
    let v := flux p mr / (gn * spans k) in
    q_vp RF (u_fit RF (finish_integration RF pow m p mr k)) = if Rleb 1000000 v then 0 else v.
  Proof.
    intros P NE mr. cbv zeta.
    destruct (contrib pow m p dnu jump sat pers ngval chg Hf Hd N1 Hg Hq k mr P) as (_ & _ & _ & C). specialize (C NE).
    assert (EQ : q_vp RF (u_fit RF (finish_integration RF pow m p mr k)) = q_vp RF (fst (fit_integration RF pow m p mr k))).
    { unfold finish_integration. destruct (fit_integration RF pow m p mr k). reflexivity. }
    rewrite EQ, C. cbn [q_vp]. rewrite (sum_p_spans k mr P). pose proof (spans_pos k NE) as SP. pose proof (flux_nonneg p Hk mr) as FN.
    assert (V : (if Rltb 0 (if Rltb 0 (flux p mr) then spans k * gn / flux p mr else 0) then 1 / (if Rltb 0 (flux p mr) then spans k * gn / flux p mr else 0) else 0) = flux p mr / (gn * spans k)).
    { destruct (Rltb 0 (flux p mr)) eqn:F.
      - apply Rltb_spec in F. replace (Rltb 0 _) with true by (symmetry; apply Rltb_spec, Rdiv_lt_0_compat; [apply Rmult_lt_0_compat|]; assumption). field. repeat split; lra.
      - assert (Z : flux p mr = 0). { destruct FN as [A|A]; [|auto]. apply Rltb_spec in A. congruence. }
        rewrite Z. destruct (Rltb 0 0) eqn:E; [apply Rltb_spec in E; lra|]. unfold Rdiv. ring. }
    exact (eq_trans (f_equal (large0 RF) V) eq_refl).
  Qed.
  Notation mr := (median_rate RF m p).
  Theorem exp_poisson : (forall k, (k < m_nints RF m)%nat -> plain m p k) -> live m p <> [] ->
    let v := flux p mr / (gn * Rsum (map spans (live m p))) in
    q_vp RF (fst (ols_pixel RF pow m p)) = if Rleb 1000000 v then 0 else v.
  Proof.
    intros PL NE. cbv zeta. destruct (live m p) as [|k0 l0] eqn:LV; [congruence|]. rewrite <- LV in *. assert (K0 : In k0 (live m p)) by (rewrite LV; left; reflexivity). clear NE.
    pose proof K0 as K0'. apply live_in in K0'. destruct K0' as [K1 S0].
    assert (FL : u_dnu RF (finish_integration RF pow m p mr k0) = false /\ u_sat RF (finish_integration RF pow m p mr k0) = false).
    { destruct (contrib pow m p dnu jump sat pers ngval chg Hf Hd N1 Hg Hq k0 mr (PL k0 K1)) as (_ & _ & _ & C). specialize (C S0). unfold finish_integration. destruct (fit_integration RF pow m p mr k0) as [q c]. cbn [fst] in C. subst q.
      cbn [q_dq u_dnu u_sat]. rewrite Hf. cbn [flags_at o_dnu o_sat]. rewrite !has_bit. apply (int_clean m p dnu jump sat pers ngval chg Hf Hd Hg Hq k0). }
    destruct FL as [D0 T0].
    unfold ols_pixel, chargeloss. rewrite Ho. unfold fit_pixel. cbn [fst q_vp]. set (ks := seq 0 (m_nints RF m)) in *.
    assert (IK : forall k, In k ks -> (k < m_nints RF m)%nat) by (intros k L; apply in_seq in L; lia).
    assert (I0 : In k0 ks) by (apply in_seq; lia).
    set (outs := map (finish_integration RF pow m p mr) ks).
    assert (AD : forallb (u_dnu RF) outs = false) by (apply not_true_iff_false; intro A; rewrite forallb_forall in A; specialize (A _ (in_map _ _ _ I0)); congruence).
    assert (AS : forallb (u_sat RF) outs = false) by (apply not_true_iff_false; intro A; rewrite forallb_forall in A; specialize (A _ (in_map _ _ _ I0)); congruence).
    rewrite AD, AS. rewrite (has_invalid m p dnu jump sat pers ngval chg Hf Hq), !N.lor_spec, !flag_if_testbit, Hf. cbn [flags_at o_jump o_pers]. rewrite !bit_testbit. destruct (pix_clean m p dnu sat Hg Hq) as [-> ->].
    destruct (neq_flags dnu jump sat pers ngval Hd) as (A1 & A2 & A3 & A4 & _). rewrite (proj2 (N.eqb_neq _ _) A1), (proj2 (N.eqb_neq _ _) A2), (proj2 (N.eqb_neq _ _) A3), (proj2 (N.eqb_neq _ _) A4), !andb_false_r. cbn [orb].
    rewrite osum_R.
    assert (E1 : Rsum (map (fun u : iout RF => fst (fst (u_con RF u))) outs) = if Rltb 0 (flux p mr) then Rsum (map spans (live m p)) * gn / flux p mr else 0).
    { unfold outs. rewrite map_map. rewrite (Rsum_ext _ (fun k => if Rltb 0 (flux p mr) then spans k * gn / flux p mr else 0)).
      - destruct (Rltb 0 (flux p mr)) eqn:F.
        + rewrite <- (live_sum m p spans) by (intros k E; unfold spans; rewrite E; reflexivity).
          unfold Rdiv. rewrite Rmult_assoc, (Rmult_comm (Rsum _)), <- Rsum_scal. apply Rsum_ext. intros k _. ring.
        + rewrite Rsum_const. ring.
      - intros k L. destruct (contrib pow m p dnu jump sat pers ngval chg Hf Hd N1 Hg Hq k mr (PL k (IK k L))) as (_ & _ & C & _). unfold finish_integration.
        destruct (fit_integration RF pow m p mr k) as [q c]. cbn [fst snd u_con] in *. rewrite C, (sum_p_spans k mr (PL k (IK k L))).
        destruct (Rltb 0 (flux p mr)) eqn:F.
        + apply Rltb_spec in F. destruct (Rltb 0 (spans k * gn / flux p mr)) eqn:G; [reflexivity|].
          destruct (spans_nonneg k) as [A|A]; [|rewrite <- A; unfold Rdiv; ring].
          assert (Rltb 0 (spans k * gn / flux p mr) = true) by (apply Rltb_spec, Rdiv_lt_0_compat; [apply Rmult_lt_0_compat|]; assumption). congruence.
        + destruct (Rltb 0 0); reflexivity. }
    set (S := Rsum (map spans (live m p))) in *.
    assert (SP : 0 < S) by (apply (Rsum_pos _ _ k0); [intros k L; apply spans_nonneg|assumption|apply spans_pos; assumption]).
    assert (V : inv_or RF (if Rltb 0 (flux p mr) then S * gn / flux p mr else 0) = flux p mr / (gn * S)).
    { unfold inv_or. cbn [flt fdiv fone fzero RF]. destruct (Rltb 0 (flux p mr)) eqn:F.
      - apply Rltb_spec in F. replace (Rltb 0 _) with true by (symmetry; apply Rltb_spec, Rdiv_lt_0_compat; [apply Rmult_lt_0_compat|]; assumption). toR. field. repeat split; lra.
      - assert (Z : flux p mr = 0). { destruct (flux_nonneg p Hk mr) as [A|A]; [|auto]. apply Rltb_spec in A. congruence. }
        rewrite Z. destruct (Rltb 0 0) eqn:E; [apply Rltb_spec in E; lra|]. unfold Rdiv. toR. ring. }
    set (w := inv_or RF _). assert (W : w = flux p mr / (gn * S)) by exact (eq_trans (f_equal (inv_or RF) E1) V). clearbody w. rewrite W. cbn [fle flt fzero RF fofZ]. change (LARGE RF) with 1000000.
    assert (NN : 0 <= flux p mr / (gn * S)).
    { apply Rmult_le_pos; [apply flux_nonneg, Hk|]. left. apply Rinv_0_lt_compat, Rmult_lt_0_compat; assumption. }
    replace (Rltb (flux p mr / (gn * S)) 0) with false by (symmetry; apply not_true_iff_false; rewrite Rltb_spec; lra). rewrite orb_false_r. reflexivity.
  Qed.
End Poisson.

(** The Poisson variance of an integration is (rate + dark rate) / (gain x time covered by its segments), the dark rate alone
    when the rate is not positive; of the exposure: the same with the times of all integrations added up; zero in place of 10^6 or more. *)
Theorem C112_poisson : forall pow m p dnu jump sat pers ngval chg,
  m_f RF m = flags_at dnu jump sat pers ngval chg -> NoDup [dnu; jump; sat; pers; ngval] -> (1 <= m_ng RF m)%nat ->
  (x_rn RF p <> 0)%R -> (0 < (m_tgroup RF m : R))%R -> (0 < (m_tframe RF m : R))%R -> (0 < (x_gain RF p : R))%R -> (0 <= (x_dark RF p : R))%R ->
  N.testbit (x_dq RF p) dnu = false -> N.testbit (x_dq RF p) sat = false -> x_orig RF p = None ->
  let rate := if Rltb 0 (median_rate RF m p) then median_rate RF m p + x_dark RF p else x_dark RF p : R in
  let documented (t : R) := let v := rate / (x_gain RF p * t) in if Rleb 1000000 v then 0 else v in
  (forall k dflt, (k < m_nints RF m)%nat -> plain m p k -> segs_of m p k <> [] -> q_vp RF (nth k (snd (ols_pixel RF pow m p)) dflt) = documented (spans m p k)) /\
  ((forall k, (k < m_nints RF m)%nat -> plain m p k) -> live m p <> [] -> q_vp RF (fst (ols_pixel RF pow m p)) = documented (Rsum (map (spans m p) (live m p)))).
Proof.
  intros pow m p dnu jump sat pers ngval chg Hf Hd N1 Hr Ht Hfr Hg Hk Q1 Q2 Ho rate documented. split.
  - intros k dflt K P NE. rewrite (nth_pixel pow m p Ho k dflt K). exact (int_poisson pow m p dnu jump sat pers ngval chg Hf Hd N1 Ht Hfr Hg Hk (conj Q1 Q2) k P NE (median_rate RF m p)).
  - intros P NE. exact (exp_poisson pow m p dnu jump sat pers ngval chg Hf Hd N1 Ht Hfr Hg Hk (conj Q1 Q2) Ho P NE).
Qed.
Print Assumptions C112_poisson.

(** ** Examples *)
(** rates 3, 1, (jump), 4 with a saturated last group: median 3 *)
Example C112_rate_example : let m := ex_meta B64 6 1 false in let p := ex_pix B64 [[0; 30; 40; 90; 130; 500]%Z] [[0; 0; 0; 4; 0; 2]%N] 1 1 None None in
  ordinary B64 m p 0 /\ rates B64 m p 0 = [fofZ B64 3; fofZ B64 1; fofZ B64 4] /\ (forall j, (j + 1 < 6)%nat -> good_diff B64 m p 0 j = true -> fisnan B64 (diff_rate B64 m p 0 j) = false) /\
  integ_rate B64 m (prep B64 m p 0) = fofZ B64 3.
Proof.
  intros m p. split; [right; exists 0%nat, 1%nat; repeat split; cbn; lia|]. split; [vm_compute; reflexivity|]. split; [|vm_compute; reflexivity].
  intros j J _. cbn in J. destruct j as [|[|[|[|[|j]]]]]; [vm_compute; reflexivity..|lia].
Qed.
(** one usable group in front: its own rate *)
Example C112_first_example : let m := ex_meta B64 3 1 true in let p := ex_pix B64 [[20; 30; 40]%Z] [[0; 2; 2]%N] 1 1 None None in
  ordinary B64 m p 0 /\ rates B64 m p 0 = [] /\ integ_rate B64 m (prep B64 m p 0) = fofZ B64 2.
Proof. intros m p. split; [left; reflexivity|]. split; vm_compute; reflexivity. Qed.
(** two segments: 0-1 and 2-5, together 10 + 30 seconds *)
Example C112_poisson_example : let m := ex_meta RF 6 1 false in let p := ex_pix RF [[5; 8; 60; 63; 66; 69]%Z] [[0; 0; 4; 0; 0; 0]%N] 1 1 None None in
  segs_of m p 0 = [(0, 2); (2, 6)]%nat /\ plain m p 0 /\ spans m p 0 = 40 /\ live m p = [0%nat].
Proof.
  intros m p. assert (SG : segs_of m p 0 = [(0, 2); (2, 6)]%nat) by (vm_compute; reflexivity). split; [exact SG|]. split; [left; reflexivity|].
  split; [|unfold live; cbn [m_nints m ex_meta seq filter]; fold m; rewrite SG; reflexivity].
  unfold spans, span. rewrite SG. cbn [map slen fst snd Nat.sub Nat.eqb m_tgroup m ex_meta fofZ RF]. rewrite !Rsum_cons, Rsum_nil. cbn [INR]. lra.
Qed.
Example C112_mean_example : let m := ex_meta RF 3 2 false in let p := ex_pix RF [[5; 8; 60]; [1; 2; 3]]%Z [[0; 0; 0]; [0; 0; 0]]%N 1 1 None None in
  forall k j, (k < m_nints RF m)%nat -> (j < m_ng RF m)%nat -> x_gdq RF p k j = 0%N.
Proof. intros m p k j K J. cbn in K, J. destruct k as [|[|k]]; [| |lia]; destruct j as [|[|[|j]]]; try reflexivity; lia. Qed.
