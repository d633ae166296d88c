(** Variances and errors of the OLS products over the real numbers. *)
From Verif Require Import Base BaseLemmas RBase Cas22Model Cas22Spec Cas22Proofs Cas22Fit OlsModel OlsSpec OlsProofs OlsFit.
From Coq Require Import Reals Lra Lia.
Local Open Scope R_scope.

Section Err.
  Variable pow : R -> R -> R.
  Variable m : ometa RF.
  Variable p : opix RF.
  Notation f := (m_f RF m). Notation ng := (m_ng RF m). Notation d := (x_gdq RF p).
  Notation tg := (m_tgroup RF m : R). Notation tf := (m_tframe RF m : R). Notation rn := (x_rn RF p : R). Notation gn := (x_gain RF p : R). Notation dk := (x_dark RF p : R).
  Variables dnu jump sat pers ngval chg : N.
  Hypothesis Hf : f = flags_at dnu jump sat pers ngval chg.
  Hypothesis Hd : NoDup [dnu; jump; sat; pers; ngval].
  Hypothesis N1 : (1 <= ng)%nat.
  Hypothesis Hr : rn <> 0.
  Hypothesis Ht : 0 < tg.
  Hypothesis Hfr : 0 < tf.
  Hypothesis Hg : 0 < gn.
  Hypothesis Hk : 0 <= dk.
  Hypothesis Hq : N.testbit (x_dq RF p) dnu = false /\ N.testbit (x_dq RF p) sat = false.
  Hypothesis Ho : x_orig RF p = None.
  Notation fs k mr := (map (fit_segment RF pow m p (prep RF m p k) mr) (segs_of m p k)).

  Definition flux (mr : R) : R := if Rltb 0 mr then mr + dk else dk.
  Lemma flux_nonneg mr : 0 <= flux mr.
  Proof. unfold flux. destruct (Rltb 0 mr) eqn:E; [apply Rltb_spec in E|]; lra. Qed.
  Lemma var_poisson_flux mr (t : R) : var_poisson RF p mr t = flux mr / t.
  Proof. unfold var_poisson, flux. cbn [flt fdiv fadd fzero RF]. destruct (Rltb 0 mr); reflexivity. Qed.
  Lemma t_one_pos : 0 < t_one RF m.
  Proof. unfold t_one. rewrite fnat_R. cbn [fdiv fmul fadd fone fofZ RF]. pose proof (pos_INR (m_nframes RF m)). apply Rdiv_lt_0_compat; [apply Rmult_lt_0_compat; lra|lra]. Qed.
  Lemma timing_pos i : 0 < len1_timing RF m i.
  Proof. unfold len1_timing. pose proof t_one_pos. destruct (negb (m_sup RF m)); [|assumption]. destruct (i_0th RF i); [assumption|]. destruct (i_zf RF i); assumption. Qed.
  Lemma rn6_pos (t : R) : 0 < t -> 0 < 12 * (rn / t) * (rn / t) / (6 * gn * gn).
  Proof.
    intro T. apply Rdiv_lt_0_compat; [|repeat apply Rmult_lt_0_compat; lra].
    assert (Q : rn / t <> 0) by (unfold Rdiv; apply Rmult_integral_contrapositive_currified; [assumption|apply Rinv_neq_0_compat; lra]).
    pose proof (Rlt_0_sqr _ Q). unfold Rsqr in *. lra.
  Qed.
  Lemma seg_vars i (mr : R) g : (1 <= slen g)%nat -> let q := fit_segment RF pow m p i mr g in
    0 < g_var_r RF q /\ g_var_e RF q = g_var_p RF q + g_var_r RF q /\ (0 < flux mr -> 0 < g_var_p RF q) /\ (flux mr = 0 -> g_var_p RF q = 0).
  Proof.
    intro L. cbv zeta. assert (D : forall t : R, 0 < t -> (0 < flux mr -> 0 < flux mr / t) /\ (flux mr = 0 -> flux mr / t = 0)).
    { intros t T. split; intro H; [apply Rdiv_lt_0_compat; assumption|rewrite H; unfold Rdiv; ring]. }
    unfold fit_segment. fold (slen g). destruct (Nat.eqb_spec 1 (slen g)) as [E|E1].
    - cbn [fit_len1 g_var_r g_var_e g_var_p]. rewrite var_poisson_flux. pose proof (timing_pos i) as T. split; [exact (rn6_pos _ T)|]. split; [reflexivity|].
      apply D. apply Rmult_lt_0_compat; assumption.
    - destruct (Nat.eqb_spec 2 (slen g)) as [E|E2].
      + cbn [fit_len2 g_var_r g_var_e g_var_p]. rewrite var_poisson_flux. split; [exact (rn6_pos _ Ht)|]. split; [reflexivity|]. apply D. apply Rmult_lt_0_compat; assumption.
      + pose proof (seg_var pow m p i mr g ltac:(lia) Hg) as V. unfold fit_segment in V. fold (slen g) in V. rewrite (proj2 (Nat.eqb_neq 1 (slen g))), (proj2 (Nat.eqb_neq 2 (slen g))) in V by assumption.
        rewrite V. split; [apply rn_var_pos; [lia|assumption|assumption|lra]|]. cbn [fit_default g_var_r g_var_e g_var_p] in *. rewrite V. rewrite var_poisson_flux. fold (slen g). rewrite fnat_R. split; [reflexivity|].
        apply D. assert (2 < INR (slen g)) by (apply (lt_INR 2); lia). cbn [fmul fsub fone RF]. repeat apply Rmult_lt_0_compat; lra.
  Qed.
  Lemma seg_len k g : In g (segs_of m p k) -> (1 <= slen g)%nat.
  Proof.
    clear. unfold segs_of. destruct (has _ _); [intros []|]. intro I. apply kept_in in I. pose proof (extend_valid f (d k) ng _ (init_ramps_runs _ _)) as V. rewrite Forall_forall in V.
    specialize (V g I). unfold valid, slen in *. lia.
  Qed.
  Lemma nth_pixel k dflt : (k < m_nints RF m)%nat -> nth k (snd (ols_pixel RF pow m p)) dflt = u_fit RF (finish_integration RF pow m p (median_rate RF m p) k).
  Proof. intro K. unfold ols_pixel, chargeloss. rewrite Ho. unfold fit_pixel. cbn [snd]. apply nth_ints. assumption. Qed.
  Lemma large_le v : 0 <= v -> large0 RF v <= v /\ 0 <= large0 RF v.
  Proof. intro P. unfold large0. cbn [fle fzero RF]. destruct (Rleb _ _); lra. Qed.
  (** the sums over the segments of an integration *)
  Lemma sums_fact k mr : segs_of m p k <> [] ->
    let A := sum_e pow m p k mr in let P := sum_p pow m p k mr in let V := sum_r pow m p k mr in
    0 < V /\ 0 < A /\ ((0 < flux mr /\ 0 < P /\ A <= P * V / (P + V)) \/ (flux mr = 0 /\ P = 0 /\ A = V)).
  Proof.
    intro NE. cbv zeta. unfold sum_e, sum_p, sum_r. rewrite !map_map. set (l := segs_of m p k) in *. set (fit := fit_segment RF pow m p (prep RF m p k) mr).
    assert (H : forall g, In g l -> 0 < g_var_r RF (fit g) /\ g_var_e RF (fit g) = g_var_p RF (fit g) + g_var_r RF (fit g) /\ (0 < flux mr -> 0 < g_var_p RF (fit g)) /\ (flux mr = 0 -> g_var_p RF (fit g) = 0)).
    { intros g I. apply seg_vars, (seg_len k), I. }
    clearbody fit. destruct (flux_nonneg mr) as [P|Z].
    - rewrite (Rsum_ext (fun g => 1 / g_var_e RF (fit g)) (fun g => 1 / ((g_var_p RF (fit g) : R) + g_var_r RF (fit g)))) by (intros g I; destruct (H g I) as (_ & -> & _); reflexivity).
      rewrite (Rsum_ext (fun g => if Rltb 0 (g_var_p RF (fit g)) then 1 / g_var_p RF (fit g) else 0) (fun g => 1 / (g_var_p RF (fit g) : R))).
      2:{ intros g I. destruct (H g I) as (_ & _ & Q & _). rewrite (proj2 (Rltb_spec 0 _) (Q P)). reflexivity. }
      destruct (harm_sum (fun g => g_var_p RF (fit g)) (fun g => g_var_r RF (fit g)) l NE) as (X1 & X2 & X3 & X4).
      { intros g I. destruct (H g I) as (? & _ & Q & _). split; [apply Q; assumption|assumption]. }
      split; [exact X2|]. split; [exact X3|]. left. split; [assumption|]. split; [exact X1|exact X4].
    - symmetry in Z. assert (B : Rsum (map (fun g => 1 / g_var_e RF (fit g)) l) = Rsum (map (fun g => 1 / g_var_r RF (fit g)) l)).
      { apply Rsum_ext. intros g I. destruct (H g I) as (_ & -> & _ & Q). rewrite (Q Z), Rplus_0_l. reflexivity. }
      assert (V : 0 < Rsum (map (fun g => 1 / g_var_r RF (fit g)) l)).
      { destruct l as [|g l0]; [congruence|]. apply (Rsum_pos _ _ g); [|left; reflexivity|]; [intros x I; left|]; (apply Rdiv_lt_0_compat; [lra|]); apply H; [assumption|left; reflexivity]. }
      split; [exact V|]. split; [rewrite B; exact V|]. right. split; [assumption|]. split; [|exact B].
      rewrite (Rsum_ext _ (fun _ => 0)); [rewrite Rsum_const; ring|]. intros g I. destruct (H g I) as (_ & _ & _ & Q). rewrite (Q Z). destruct (Rltb 0 0) eqn:E; [apply Rltb_spec in E; lra|reflexivity].
  Qed.
  (** the error of an integration is never below the square root of the summed variances *)
  Theorem int_err k dflt : (k < m_nints RF m)%nat -> plain m p k -> segs_of m p k <> [] ->
    let q := nth k (snd (ols_pixel RF pow m p)) dflt in 0 < q_err RF q ->
    q_vp RF q + q_vr RF q <= q_err RF q * q_err RF q /\
    (length (segs_of m p k) = 1%nat -> q_err RF q < 1000 -> q_vp RF q + q_vr RF q = q_err RF q * q_err RF q).
  Proof.
    intros K P NE. cbv zeta. rewrite (nth_pixel k dflt K). set (mr := median_rate RF m p).
    destruct (contrib pow m p dnu jump sat pers ngval chg Hf Hd N1 Hg Hq k mr P) as (_ & _ & _ & C). specialize (C NE).
    assert (EQ : q_err RF (u_fit RF (finish_integration RF pow m p mr k)) = q_err RF (fst (fit_integration RF pow m p mr k)) /\ q_vp RF (u_fit RF (finish_integration RF pow m p mr k)) = q_vp RF (fst (fit_integration RF pow m p mr k)) /\ q_vr RF (u_fit RF (finish_integration RF pow m p mr k)) = q_vr RF (fst (fit_integration RF pow m p mr k))).
    { unfold finish_integration. destruct (fit_integration RF pow m p mr k). repeat split. }
    destruct EQ as (-> & -> & ->). rewrite C. cbn [q_err q_vp q_vr]. clear C.
    pose proof (sums_fact k mr NE) as SF. cbv zeta in SF.
    set (A := sum_e pow m p k mr) in *. set (Pp := sum_p pow m p k mr) in *. set (V := sum_r pow m p k mr) in *.
    destruct SF as (V0 & A0 & SF).
    assert (EA : 0 < 1 / A) by (apply Rdiv_lt_0_compat; lra). assert (EV : 0 < 1 / V) by (apply Rdiv_lt_0_compat; lra).
    cbn [flt fofZ LARGE RF]. change (LARGE RF) with 1000000. destruct (Rltb 1000000 (1 / A)) eqn:Big; [intro X; exfalso; exact (Rlt_irrefl _ X)|]. intros _.
    rewrite sqrt_sqrt by lra.
    set (vp := if Rltb 0 Pp then 1 / Pp else 0).
    assert (VP : 0 <= vp /\ vp + 1 / V <= 1 / A).
    { unfold vp. destruct SF as [(_ & P0 & LE)|(_ & -> & ->)].
      - rewrite (proj2 (Rltb_spec _ _) P0). split; [left; apply Rdiv_lt_0_compat; lra|].
        apply (Rle_trans _ (1 / (Pp * V / (Pp + V)))).
        + right. field. repeat split; lra.
        + unfold Rdiv. rewrite !Rmult_1_l. apply Rinv_le_contravar; [assumption|exact LE].
      - replace (Rltb 0 0) with false by (symmetry; apply not_true_iff_false; rewrite Rltb_spec; lra). lra. }
    destruct VP as [VP0 VP1]. destruct (large_le vp VP0) as [L1 L1']. destruct (large_le (1 / V) ltac:(lra)) as [L2 L2'].
    change (large0 RF vp + large0 RF (1 / V) <= 1 / A /\ (length (segs_of m p k) = 1%nat -> sqrt (1 / A) < 1000 -> large0 RF vp + large0 RF (1 / V) = 1 / A)).
    split; [lra|]. intros One Small.
    assert (SM : 1 / A < 1000000). { pose proof (sqrt_sqrt (1 / A) ltac:(lra)). pose proof (sqrt_pos (1 / A)). cbn in Small. nra. }
    assert (EX : vp + 1 / V = 1 / A).
    { subst vp A Pp V. unfold sum_e, sum_p, sum_r. rewrite !map_map. pose proof (seg_len k) as SLn. destruct (segs_of m p k) as [|g [|g' l]]; cbn [length] in One; try discriminate.
      destruct (seg_vars (prep RF m p k) mr g (SLn g (or_introl eq_refl))) as (Vr & Ve & Vp1 & Vp0). cbn [map]. rewrite !Rsum_cons, !Rsum_nil, !Rplus_0_r. rewrite Ve.
      set (x := g_var_p RF (fit_segment RF pow m p (prep RF m p k) mr g) : R) in *. set (y := g_var_r RF (fit_segment RF pow m p (prep RF m p k) mr g) : R) in *.
      destruct (flux_nonneg mr) as [Pz|Pz].
      - specialize (Vp1 Pz). rewrite (proj2 (Rltb_spec 0 x) Vp1). rewrite (proj2 (Rltb_spec 0 (1 / x))) by (apply Rdiv_lt_0_compat; lra). cbn [fadd RF]. field. repeat split; lra.
      - rewrite (Vp0 (eq_sym Pz)). replace (Rltb 0 0) with false by (symmetry; apply not_true_iff_false; rewrite Rltb_spec; lra).
        replace (Rltb 0 0) with false by (symmetry; apply not_true_iff_false; rewrite Rltb_spec; lra). cbn [fadd RF]. field. lra. }
    rewrite <- EX in SM. rewrite !large_small by lra. exact EX.
  Qed.
  (** the exposure's error is the square root of the sum of its variances *)
  Theorem exp_err : let q := fst (ols_pixel RF pow m p) in q_err RF q = sqrt (q_vp RF q + q_vr RF q).
  Proof.
    clear -Ho. cbv zeta. unfold ols_pixel, chargeloss. rewrite Ho. unfold fit_pixel. cbn [fst q_err q_vp q_vr]. destruct (has _ _); [|reflexivity].
    cbn [fzero RF]. rewrite Rplus_0_r, sqrt_0. reflexivity.
  Qed.

  (** the exposure combines its integrations with inverse read-noise-variance weights *)
  Notation out k dflt := (nth k (snd (ols_pixel RF pow m p)) dflt).
  Definition live : list nat := filter (fun k => negb (Nat.eqb (length (segs_of m p k)) 0)) (seq 0 (m_nints RF m)).
  Lemma live_in k : In k live <-> (k < m_nints RF m)%nat /\ segs_of m p k <> [].
  Proof.
    clear. unfold live. rewrite filter_In, in_seq. destruct (segs_of m p k); cbn [length Nat.eqb negb]; split; intros [A B]; split; try lia; try congruence; try reflexivity; try discriminate; lia.
  Qed.
  Lemma live_sum (h : nat -> R) : (forall k, segs_of m p k = [] -> h k = 0) -> Rsum (map h (seq 0 (m_nints RF m))) = Rsum (map h live).
  Proof.
    clear. intro Z. unfold live. induction (seq 0 (m_nints RF m)) as [|k l IH]; [reflexivity|]. cbn [map filter]. rewrite Rsum_cons, IH.
    destruct (segs_of m p k) eqn:E; cbn [length Nat.eqb negb map]; rewrite ?Rsum_cons; [rewrite (Z k E); lra|reflexivity].
  Qed.
  Theorem exp_combine dflt : (forall k, (k < m_nints RF m)%nat -> plain m p k) -> live <> [] ->
    (forall k, In k live -> 0 < q_vr RF (out k dflt)) -> 0 < q_vr RF (fst (ols_pixel RF pow m p)) ->
    q_vr RF (fst (ols_pixel RF pow m p)) = 1 / Rsum (map (fun k => 1 / q_vr RF (out k dflt)) live) /\
    q_slope RF (fst (ols_pixel RF pow m p)) = Rsum (map (fun k => q_slope RF (out k dflt) / q_vr RF (out k dflt)) live) / Rsum (map (fun k => 1 / q_vr RF (out k dflt)) live).
  Proof.
    intros PL NE VI VE. set (mr := median_rate RF m p).
    assert (I : forall k, In k live -> q_vr RF (out k dflt) = 1 / sum_r pow m p k mr /\ q_slope RF (out k dflt) = sum_n pow m p k mr * (1 / sum_r pow m p k mr) /\ 0 < sum_r pow m p k mr /\
                 u_dnu RF (finish_integration RF pow m p mr k) = false /\ u_sat RF (finish_integration RF pow m p mr k) = false).
    { intros k L. specialize (VI k L). apply live_in in L. destruct L as [L S0]. rewrite (nth_pixel k dflt L) in *. fold mr in VI |- *. destruct (sums_fact k mr S0) as (V0 & _).
      destruct (contrib pow m p dnu jump sat pers ngval chg Hf Hd N1 Hg Hq k mr (PL k L)) as (_ & _ & _ & C). specialize (C S0). unfold finish_integration in *. destruct (fit_integration RF pow m p mr k) as [q c]. cbn [fst] in C. subst q.
      cbn [q_dq q_slope q_vr u_fit u_dnu u_sat] in *. rewrite Hf in *. cbn [flags_at o_dnu o_sat] in *. rewrite !has_bit in *. destruct (int_clean m p dnu jump sat pers ngval chg Hf Hd Hg Hq k) as [A B]. rewrite A, B in *. cbn [orb] in *.
      assert (LS : large0 RF (1 / sum_r pow m p k mr) = 1 / sum_r pow m p k mr).
      { unfold large0 in *. destruct (fle RF _ _); [cbn [fzero RF] in VI; lra|reflexivity]. }
      rewrite LS. repeat split. assumption. }
    destruct live as [|k0 l0] eqn:LV; [congruence|]. rewrite <- LV in *. assert (K0 : In k0 live) by (rewrite LV; left; reflexivity). clear NE.
    destruct (I k0 K0) as (_ & _ & _ & D0 & T0). apply live_in in K0. destruct K0 as [K0 S0].
    assert (W : forall k, In k live -> 1 / q_vr RF (out k dflt) = sum_r pow m p k mr /\ q_slope RF (out k dflt) / q_vr RF (out k dflt) = sum_n pow m p k mr).
    { intros k L. destruct (I k L) as (A & B & C & _). rewrite A, B. split; [|toR]; field; lra. }
    rewrite (Rsum_ext (fun k => 1 / q_vr RF (out k dflt)) (fun k => sum_r pow m p k mr)) by (intros k L; apply W; assumption).
    rewrite (Rsum_ext (fun k => q_slope RF (out k dflt) / q_vr RF (out k dflt)) (fun k => sum_n pow m p k mr)) by (intros k L; apply W; assumption).
    assert (Z : forall k, segs_of m p k = [] -> sum_r pow m p k mr = 0 /\ sum_n pow m p k mr = 0) by (intros k E; unfold sum_r, sum_n; rewrite E; split; reflexivity).
    rewrite <- (live_sum (fun k => sum_r pow m p k mr)), <- (live_sum (fun k => sum_n pow m p k mr)) by (intros k E; apply Z, E).
    clear W Z VI. revert VE. unfold ols_pixel, chargeloss. rewrite Ho. unfold fit_pixel. cbn [fst q_slope q_vr]. fold mr. set (ks := seq 0 (m_nints RF m)) in *.
    assert (IK : forall k, In k ks -> (k < m_nints RF m)%nat) by (intros k L; apply in_seq in L; lia).
    assert (I0 : In k0 ks) by (apply in_seq; lia).
    set (outs := map (finish_integration RF pow m p mr) ks).
    assert (AD : forallb (u_dnu RF) outs = false) by (apply not_true_iff_false; intro A; rewrite forallb_forall in A; specialize (A _ (in_map _ _ _ I0)); congruence).
    assert (AS : forallb (u_sat RF) outs = false) by (apply not_true_iff_false; intro A; rewrite forallb_forall in A; specialize (A _ (in_map _ _ _ I0)); congruence).
    rewrite AD, AS. rewrite (has_invalid m p dnu jump sat pers ngval chg Hf Hq), !N.lor_spec, !flag_if_testbit, Hf. cbn [flags_at o_jump o_pers]. rewrite !bit_testbit. destruct (pix_clean m p dnu sat Hg Hq) as [-> ->].
    destruct (neq_flags dnu jump sat pers ngval Hd) as (A1 & A2 & A3 & A4 & _). rewrite (proj2 (N.eqb_neq _ _) A1), (proj2 (N.eqb_neq _ _) A2), (proj2 (N.eqb_neq _ _) A3), (proj2 (N.eqb_neq _ _) A4), !andb_false_r. cbn [orb].
    cbn [fisnan RF]. rewrite !osum_R.
    assert (C : forall k, In k ks -> snd (fst (u_con RF (finish_integration RF pow m p mr k))) = sum_r pow m p k mr /\ snd (u_con RF (finish_integration RF pow m p mr k)) = sum_n pow m p k mr).
    { intros k L. destruct (contrib pow m p dnu jump sat pers ngval chg Hf Hd N1 Hg Hq k mr (PL k (IK k L))) as (C1 & C2 & _). unfold finish_integration.
      destruct (fit_integration RF pow m p mr k) as [q c]. cbn [fst snd u_con] in *. split; assumption. }
    assert (E1 : Rsum (map (fun u : iout RF => snd (fst (u_con RF u))) outs) = Rsum (map (fun k => sum_r pow m p k mr) ks)).
    { unfold outs. rewrite map_map. apply Rsum_map_ext. intros k L. apply C. assumption. }
    assert (E2 : Rsum (map (fun u : iout RF => snd (u_con RF u)) outs) = Rsum (map (fun k => sum_n pow m p k mr) ks)).
    { unfold outs. rewrite map_map. apply Rsum_map_ext. intros k L. apply C. assumption. }
    assert (WP : 0 < Rsum (map (fun k => sum_r pow m p k mr) ks)).
    { unfold ks. rewrite (live_sum (fun k => sum_r pow m p k mr)) by (intros k E; unfold sum_r; rewrite E; reflexivity).
      apply (Rsum_pos _ _ k0); [intros k L; left; apply I; assumption|apply live_in; split; assumption|apply I, live_in; split; assumption]. }
    set (WR := Rsum (map (fun k => sum_r pow m p k mr) ks)) in *. set (WN := Rsum (map (fun k => sum_n pow m p k mr) ks)) in *.
    change (0 < large0 RF (inv_or RF (Rsum (map (fun u : iout RF => snd (fst (u_con RF u))) outs))) ->
       large0 RF (inv_or RF (Rsum (map (fun u : iout RF => snd (fst (u_con RF u))) outs))) = 1 / WR /\
       Rsum (map (fun u : iout RF => snd (u_con RF u)) outs) * large0 RF (inv_or RF (Rsum (map (fun u : iout RF => snd (fst (u_con RF u))) outs))) = WN / WR).
    rewrite E1, E2. unfold inv_or. cbn [flt fdiv fone fzero RF]. replace (Rltb 0 WR) with true by (symmetry; apply Rltb_spec; assumption).
    unfold large0. destruct (fle RF _ _); [cbn [fzero RF]; lra|]. intros _. split; [reflexivity|]. toR. field. lra.
  Qed.
End Err.
