(** C31 with missing values: groups outside the fitted segments may hold anything, NaN included; saturated groups are NaN in the
    code, the median rate ignores NaN, a division by zero is NaN. *)
From Coq Require Import Reals Lra.
From Verif Require Import Base BaseLemmas RBase RNBase Cas22Model Cas22Spec Cas22Proofs Cas22Fit OlsModel OlsSpec OlsProofs OlsFit OlsProps.
Local Open Scope R_scope.

(** the segments of an integration from its group DQ alone *)
Definition segments (f : oflags) (d : nat -> N) (ng : nat) : list (nat * nat) :=
  if has (d 0%nat) (o_sat f) then [] else kept (map (extend f d) (init_ramps (flags_of f d) ng)).
(** read-noise variance of the slope of [n] equally spaced groups *)
Definition seg_rvar (tg rn gn : R) (n : nat) : R := 12 * (rn / tg) * (rn / tg) / ((INR n * INR n * INR n - INR n) * gn * gn).
(** no ZEROFRAME value takes the place of the first group *)
Definition no_zeroframe (m : ometa RN) (p : opix RN) (k : nat) : Prop := x_zf RN p = None \/ m_sup RN m = true \/ exists j, (j < m_ng RN m)%nat /\ x_gdq RN p k j = 0%N.
(** every segment of the integration has two groups or more and lies on a line of slope [s] counts per group *)
Definition on_line (m : ometa RN) (p : opix RN) (s : R) (k : nat) : Prop :=
  forall g, In g (segments (m_f RN m) (x_gdq RN p k) (m_ng RN m)) -> (2 <= snd g - fst g)%nat /\ exists a : R, forall j, (fst g <= j < snd g)%nat -> x_data RN p k j = (Some (a + s * INR j) : RN).

Lemma o_div (a b : R) : b <> 0 -> fdiv RN (Some a) (Some b) = (Some (a / b) : RN).
Proof. intro H. cbn. destruct (Reqb b 0) eqn:E; [apply Reqb_spec in E; contradiction|reflexivity]. Qed.
Lemma osum_some {A} (g : A -> R) (f : A -> RN) l : (forall i, In i l -> f i = (Some (g i) : RN)) -> osum RN (map f l) = (Some (Rsum (map g l)) : RN).
Proof.
  unfold osum. change (fzero RN) with (Some 0 : RN). intro H. assert (G : forall a : R, fold_left (fadd RN) (map f l) (Some a : RN) = (Some (a + Rsum (map g l)) : RN)).
  { induction l as [|i l IH]; intro a; [cbn; unfold Rsum; cbn; f_equal; ring|]. cbn [map fold_left]. rewrite H by (left; reflexivity). change (fadd RN (Some a : RN) (Some (g i) : RN)) with (Some (a + g i) : RN).
    rewrite IH by (intros; apply H; right; assumption). rewrite Rsum_cons. f_equal. ring. }
  rewrite G. f_equal. ring.
Qed.
Lemma power_some x : exists q : R, snr_power RN x = (Some q : RN).
Proof.
  unfold snr_power. change (fdiv RN (fofZ RN 4) (fofZ RN 10)) with (fdiv RN (Some 4 : RN) (Some 10 : RN)). rewrite o_div by lra.
  destruct (flt RN x _); [exists 0; reflexivity|]. destruct (flt RN x _); [eexists; reflexivity|]. destruct (flt RN x _); [exists 1; reflexivity|].
  destruct (flt RN x _); [exists 3; reflexivity|]. destruct (flt RN x _); [exists 6; reflexivity|]. exists 10. reflexivity.
Qed.

Section Nan.
  Variables (pow : R -> R -> R) (pow' : RN -> RN -> RN).
  Hypothesis POW : pow_ok pow.
  Hypothesis POW' : forall x q, 0 <= x -> pow' (Some x) (Some q) = (Some (pow x q) : RN).
  Variables (m : ometa RN) (p : opix RN) (tg rn gn : R).
  Hypothesis MT : m_tgroup RN m = (Some tg : RN).
  Hypothesis MR : x_rn RN p = (Some rn : RN).
  Hypothesis MG : x_gain RN p = (Some gn : RN).
  Hypothesis Ht : tg <> 0.
  Hypothesis Hr : rn <> 0.
  Hypothesis Hg : 0 < gn.
  (** a pixel over the reals with the same flags, to reuse what is known about segments and weights *)
  Let m0 : ometa RF := {| m_f := m_f RN m; m_nints := m_nints RN m; m_ng := m_ng RN m; m_tgroup := tg : RF; m_tframe := 0 : RF; m_nframes := m_nframes RN m; m_sup := m_sup RN m |}.
  Let p0 : opix RF := {| x_data := fun _ _ => 0 : RF; x_gdq := x_gdq RN p; x_dq := x_dq RN p; x_gain := gn : RF; x_rn := rn : RF; x_dark := 0 : RF; x_zf := None; x_orig := None |}.
  Lemma n_weight q g k : (3 <= slen g)%nat -> o_weight RN pow' p (Some q) g k = (Some (o_weight RF pow p0 q g k : R) : RN).
  Proof.
    intro L. unfold o_weight. fold (slen g). rewrite MR. unfold fnat. cbn [fofZ RN]. rewrite <- !INR_IZR_INZ. rewrite o_div by lra.
    assert (Q : 0 < INR (slen g - 1)) by (apply lt_0_INR; lia). change (fone RN) with (Some 1 : RN). rewrite o_div by lra. cbn [fsub fmul RN rn2 fabs option_map]. rewrite POW' by apply Rabs_pos.
    pose proof (Rlt_0_sqr rn Hr) as R2. unfold Rsqr in R2. rewrite o_div by lra. cbn [fmul RN rn2]. change (fofZ RF) with IZR. rewrite <- ?INR_IZR_INZ. reflexivity.
  Qed.
  Lemma n_seg i mr g a s : (2 <= slen g)%nat -> (forall k, (fst g <= k < snd g)%nat -> i_data RN i k = (Some (a + s * INR k) : RN)) ->
    g_slope RN (fit_segment RN pow' m p i mr g) = (Some (s / tg) : RN) /\ g_var_r RN (fit_segment RN pow' m p i mr g) = (Some (seg_rvar tg rn gn (slen g)) : RN).
  Proof.
    intros L D. unfold fit_segment. fold (slen g). destruct (Nat.eqb_spec 1 (slen g)) as [E|_]; [lia|]. assert (RT : rn / tg <> 0) by (unfold Rdiv; apply Rmult_integral_contrapositive_currified; [assumption|apply Rinv_neq_0_compat; assumption]).
    destruct (Nat.eqb_spec 2 (slen g)) as [E|E].
    - cbn [fit_len2 g_slope g_var_r]. split.
      + unfold slen in *. rewrite (D (fst g + 1)%nat), (D (fst g)) by lia. rewrite MT. cbn [fsub RN rn2]. rewrite o_div by assumption. f_equal. rewrite plus_INR. cbn [INR]. field. assumption.
      + unfold rnoise_len2. rewrite MT, MR, MG. rewrite o_div by assumption. cbn [fofZ RN fmul rn2]. rewrite o_div by nra. unfold seg_rvar. rewrite <- E, cube2. reflexivity.
    - assert (L3 : (3 <= slen g)%nat) by lia. unfold fit_default. cbv zeta. cbn [g_slope g_var_r]. fold (slen g). destruct (power_some (segment_snr RN p i g)) as [q ->]. split.
      + set (w := o_weight RF pow p0 q g : nat -> R). set (x := fun k => INR k + INR (fst g)). set (l := seq 0 (slen g)).
        assert (W : forall k, o_weight RN pow' p (Some q) g k = (Some (w k) : RN)) by (intro k; apply n_weight, L3).
        assert (X : forall k, o_x RN g k = (Some (x k) : RN)) by (intro k; unfold o_x, fnat; cbn [fofZ RN fadd rn2]; rewrite <- !INR_IZR_INZ; reflexivity).
        assert (Y : forall k, In k l -> o_y RN i g k = (Some (a + s * x k) : RN)).
        { intros k I. apply in_seq in I. unfold o_y. rewrite D by (unfold slen in *; lia). cbn [fisnan RN]. f_equal. unfold x. rewrite plus_INR. ring. }
        rewrite (osum_some w) by (intros; apply W). rewrite (osum_some (fun k => x k * w k) (fun k => fmul RN (o_x RN g k) (o_weight RN pow' p (Some q) g k))) by (intros; rewrite W, X; reflexivity).
        rewrite (osum_some (fun k => x k * (x k * w k)) (fun k => fmul RN (o_x RN g k) (fmul RN (o_x RN g k) (o_weight RN pow' p (Some q) g k)))) by (intros; rewrite W, X; reflexivity).
        rewrite (osum_some (fun k => (a + s * x k) * (x k * w k)) (fun k => fmul RN (o_y RN i g k) (fmul RN (o_x RN g k) (o_weight RN pow' p (Some q) g k)))) by (intros k I; rewrite W, X, Y by exact I; reflexivity).
        rewrite (osum_some (fun k => (a + s * x k) * w k) (fun k => fmul RN (o_y RN i g k) (o_weight RN pow' p (Some q) g k))) by (intros k I; rewrite W, Y by exact I; reflexivity).
        cbn [fmul fsub RN rn2]. pose proof (wls_exact w x a s l) as WE. cbv zeta beta in WE. rewrite WE.
        destruct (wt_ends pow p0 q g L3 POW Hr) as (W0 & Wa & Wb). change (o_weight RF pow p0 q g) with w in W0, Wa, Wb.
        assert (DP : 0 < Rsum (map w l) * Rsum (map (fun k => x k * (x k * w k)) l) - Rsum (map (fun k => x k * w k) l) * Rsum (map (fun k => x k * w k) l)).
        { pose proof (det_pos w x l 0%nat (slen g - 1)%nat) as DP.
          rewrite (Rsum_ext (fun k => x k * (x k * w k)) (fun k => w k * (x k * x k))) by (intros; ring).
          rewrite (Rsum_ext (fun k => x k * w k) (fun k => w k * x k)) by (intros; ring).
          rewrite (Rmult_comm (Rsum (map w l))). apply DP; [intros; apply W0| | |assumption|assumption|].
          - apply in_seq. lia.
          - apply in_seq. lia.
          - unfold x. cbn [INR]. assert (INR (slen g - 1) <> 0) by (apply not_0_INR; lia). lra. }
        set (d := _ - _) in *. change (fone RN) with (Some 1 : RN). rewrite o_div by lra. rewrite MT. cbn [fmul RN rn2]. rewrite o_div by assumption. f_equal. field. split; [assumption|lra].
      + unfold rnoise_default. rewrite MT, MR, MG. cbn [fle RN rncmp fzero fisnan]. replace (Rleb gn 0) with false; [|symmetry; apply not_true_iff_false; rewrite Rleb_spec; lra]. cbn [orb].
        rewrite o_div by assumption. unfold fnat. cbn [fofZ RN fmul fsub rn2]. rewrite <- INR_IZR_INZ. pose proof (cube_pos (slen g) L) as CP. rewrite o_div; [reflexivity|].
        repeat apply Rmult_integral_contrapositive_currified; lra.
  Qed.
  Lemma rvar_pos n : (2 <= n)%nat -> 0 < seg_rvar tg rn gn n.
  Proof. intro L. exact (rn_var_pos m0 p0 n L Hg Hr Ht). Qed.

  Variables dnu jump sat pers ngval chg : N.
  Hypothesis Hf : m_f RN m = flags_at dnu jump sat pers ngval chg.
  Hypothesis Hd : NoDup [dnu; jump; sat; pers; ngval].
  Hypothesis N1 : (1 <= m_ng RN m)%nat.
  Hypothesis Hq : N.testbit (x_dq RN p) dnu = false /\ N.testbit (x_dq RN p) sat = false.
  Notation segs k := (segments (m_f RN m) (x_gdq RN p k) (m_ng RN m)).
  Definition weights (k : nat) : R := Rsum (map (fun g => 1 / seg_rvar tg rn gn (snd g - fst g)) (segs k)).
  Lemma n_zf k : no_zeroframe m p k -> zf_used RN m p k = false.
  Proof.
    unfold zf_used. intros [->|[->|(j & L & E)]]; [rewrite andb_false_r; reflexivity|reflexivity|].
    replace (existsb _ _) with true; [rewrite andb_false_r; reflexivity|]. symmetry. apply existsb_exists. exists j. split; [apply in_seq; lia|rewrite E; reflexivity].
  Qed.
  Lemma n_data k j : no_zeroframe m p k -> has (x_gdq RN p k j) (o_sat (m_f RN m)) = false -> i_data RN (prep RN m p k) j = x_data RN p k j.
  Proof.
    intros P S. pose proof (n_zf k P) as Z. rewrite <- prep_zf in Z. unfold prep in *.
    assert (E : i_data RN (prep0 RN m p k) j = x_data RN p k j) by (cbn [prep0 i_data]; rewrite S; reflexivity).
    destruct (m_sup RN m); [exact E|]. destruct (_ && _) in *; [exact E|]. destruct (x_zf RN p); [|exact E]. destruct (_ && _) in *; [discriminate|exact E].
  Qed.
  Lemma n_pix_clean : N.testbit (pixel_dq RN m p) dnu = false /\ N.testbit (pixel_dq RN m p) sat = false.
  Proof. unfold pixel_dq. rewrite MG. cbn [fle fisnan RN fzero rncmp]. replace (Rleb gn 0) with false; [exact Hq|]. symmetry. apply not_true_iff_false. rewrite Rleb_spec. lra. Qed.
  Lemma n_int_clean k : N.testbit (int_dq0 RN m p (prep RN m p k)) dnu = false /\ N.testbit (int_dq0 RN m p (prep RN m p k)) sat = false.
  Proof.
    unfold int_dq0. destruct (prep_rest RN m p k) as (_ & -> & -> & _). rewrite !N.lor_spec, !flag_if_testbit, Hf. cbn [flags_at o_jump o_pers]. rewrite !bit_testbit.
    destruct n_pix_clean as [-> ->]. destruct (neq_flags dnu jump sat pers ngval Hd) as (A & B & C & D & _). rewrite (proj2 (N.eqb_neq _ _) A), (proj2 (N.eqb_neq _ _) B), (proj2 (N.eqb_neq _ _) C), (proj2 (N.eqb_neq _ _) D), !andb_false_r. split; reflexivity.
  Qed.
  Lemma n_sums k mr s : no_zeroframe m p k -> on_line m p s k ->
    let a := fold_left (add_fit RN) (map (fit_segment RN pow' m p (prep RN m p k) mr) (segs k)) (isums0 RN) in
    s_r RN a = (Some (weights k) : RN) /\ s_n RN a = (Some (s / tg * weights k) : RN).
  Proof.
    intros P L a.
    assert (A : forall g, In g (segs k) -> (2 <= slen g)%nat /\ g_slope RN (fit_segment RN pow' m p (prep RN m p k) mr g) = (Some (s / tg) : RN) /\ g_var_r RN (fit_segment RN pow' m p (prep RN m p k) mr g) = (Some (seg_rvar tg rn gn (slen g)) : RN)).
    { intros g I. destruct (L g I) as (L2 & c & H). split; [exact L2|]. apply (n_seg _ mr g c s L2). intros j J. rewrite n_data; [apply H; assumption|assumption|].
      unfold segments in I. destruct (has (x_gdq RN p k 0%nat) (o_sat (m_f RN m))); [destruct I|]. apply kept_in in I. apply (seg_unsat m0 p0 dnu jump sat pers ngval chg Hf Hd N1 Hq k g j); assumption. }
    assert (G : forall l (x : isums RN) (u v : R), (forall g, In g l -> In g (segs k)) -> s_r RN x = (Some u : RN) -> s_n RN x = (Some v : RN) ->
      let y := fold_left (add_fit RN) (map (fit_segment RN pow' m p (prep RN m p k) mr) l) x in
      s_r RN y = (Some (u + Rsum (map (fun g => 1 / seg_rvar tg rn gn (snd g - fst g)) l)) : RN) /\ s_n RN y = (Some (v + s / tg * Rsum (map (fun g => 1 / seg_rvar tg rn gn (snd g - fst g)) l)) : RN)).
    { induction l as [|g l IH]; intros x u v I U V; [cbn [map fold_left]; rewrite Rsum_nil; rewrite U, V; split; f_equal; ring|]. cbn [map fold_left]. destruct (A g (I g (or_introl eq_refl))) as (L2 & S1 & S2).
      pose proof (rvar_pos (slen g) L2) as VP.
      destruct (IH (add_fit RN x (fit_segment RN pow' m p (prep RN m p k) mr g)) (u + 1 / seg_rvar tg rn gn (slen g)) (v + s / tg / seg_rvar tg rn gn (slen g))) as [Q1 Q2].
      - intros h Ih. apply I. right. exact Ih.
      - cbn [add_fit s_r]. rewrite U, S2. change (fone RN) with (Some 1 : RN). rewrite o_div by lra. reflexivity.
      - cbn [add_fit s_n]. rewrite V, S1, S2. rewrite o_div by lra. reflexivity.
      - cbv zeta. rewrite Q1, Q2, Rsum_cons. fold (slen g). split; f_equal; [ring|]. unfold Rdiv. ring. }
    destruct (G (segs k) (isums0 RN) 0 0 (fun g I => I) eq_refl eq_refl) as [Q1 Q2]. unfold a, weights. rewrite Q1, Q2. split; f_equal; ring.
  Qed.
  Lemma weights_pos s k : on_line m p s k -> 0 <= weights k /\ (segs k <> [] -> 0 < weights k).
  Proof.
    intro L. unfold weights. assert (A : forall g, In g (segs k) -> 0 < 1 / seg_rvar tg rn gn (snd g - fst g)).
    { intros g I. destruct (L g I) as [L2 _]. apply Rdiv_lt_0_compat; [lra|]. apply rvar_pos, L2. }
    split; [apply Rsum_nonneg; intros g I; left; apply A, I|]. intro NE. destruct (segs k) as [|g l] eqn:E; [congruence|].
    apply (Rsum_pos _ _ g); [intros; left; apply A; assumption|left; reflexivity|apply A; left; reflexivity].
  Qed.
  Lemma n_large (v : R) : v < 1000000 -> large0 RN (Some v) = (Some v : RN).
  Proof. intro L. unfold large0, LARGE. cbn [fle fofZ RN rncmp]. replace (Rleb 1000000 v) with false; [reflexivity|]. symmetry. apply not_true_iff_false. rewrite Rleb_spec. lra. Qed.
  Lemma n_contrib k mr s : no_zeroframe m p k -> on_line m p s k -> let r := fit_integration RN pow' m p mr k in
    snd (fst (snd r)) = (Some (weights k) : RN) /\ snd (snd r) = (Some (s / tg * weights k) : RN) /\
    (segs k <> [] -> q_dq RN (fst r) = int_dq0 RN m p (prep RN m p k) /\ (1 / weights k < 1000000 -> q_slope RN (fst r) = (Some (s / tg) : RN) /\ q_vr RN (fst r) = (Some (1 / weights k) : RN))).
  Proof.
    intros P L. cbv zeta. pose proof (n_zf k P) as Z. pose proof (n_sums k mr s P L) as NS. cbv zeta in NS. pose proof (weights_pos s k L) as [_ WP].
    unfold fit_integration. destruct (prep_rest RN m p k) as (G & _ & _ & _ & D & _). rewrite Z in G, D. rewrite Z.sub_0_r in D.
    rewrite D, count_all, G. change (forallb _ (seq 0 (m_ng RN m))) with (all_bad RN m p k).
    assert (E0 : segs k = [] -> weights k = 0 /\ s / tg * weights k = 0) by (intro E; unfold weights; rewrite E; cbn [map]; rewrite Rsum_nil; split; [reflexivity|ring]).
    destruct (has (x_gdq RN p k 0%nat) (o_sat (m_f RN m))) eqn:S0.
    - assert (E : segs k = []) by (unfold segments; rewrite S0; reflexivity). destruct (E0 E) as [-> ->]. rewrite E.
      assert (Q : forall q, fit_slope RN pow' m p (prep RN m p k) mr sl_empty q = (q, zero3 RN)) by reflexivity.
      destruct (all_bad RN m p k); rewrite ?Q; repeat split; congruence.
    - pose proof (init_ramps_runs (flags_of (m_f RN m) (x_gdq RN p k)) (m_ng RN m)) as IR. destruct (segments_kept (m_f RN m) (x_gdq RN p k) (m_ng RN m) _ IR) as [SN SZ].
      assert (EK : segs k = kept (map (extend (m_f RN m) (x_gdq RN p k)) (init_ramps (flags_of (m_f RN m) (x_gdq RN p k)) (m_ng RN m)))) by (unfold segments; rewrite S0; reflexivity).
      destruct (all_bad RN m p k) eqn:AB.
      + pose proof (bad_no_runs m0 p0 dnu jump sat pers ngval chg Hf Hd N1 Hq k AB) as BR. unfold runs_of in BR. cbn [m0 p0 m_f m_ng x_gdq] in BR. rewrite BR in EK. cbn [map kept existsb firstn] in EK.
        destruct (E0 EK) as [-> ->]. rewrite EK. repeat split; congruence.
      + unfold fit_slope. destruct (Nat.eqb_spec (sl_size (scan_segments (m_f RN m) (x_gdq RN p k) (m_ng RN m))) 0) as [E|E].
        * apply SZ in E. rewrite E in EK. cbn [map kept existsb firstn] in EK. destruct (E0 EK) as [-> ->]. rewrite EK. repeat split; congruence.
        * rewrite SN, <- EK. destruct NS as [NR NN]. rewrite NR, NN. cbn [q_dq]. destruct (n_int_clean k) as [C1 C2].
          rewrite (has_invalid m0 p0 dnu jump sat pers ngval chg Hf Hq), C1, C2. cbn [orb snd fst q_dq q_slope q_vr].
          split; [reflexivity|]. split; [reflexivity|]. intro NE. specialize (WP NE). split; [reflexivity|]. intro LT. change (fone RN) with (Some 1 : RN). rewrite o_div by lra. rewrite n_large by exact LT.
          split; [|reflexivity]. cbn [fmul RN rn2]. f_equal. field. split; [assumption|lra].
  Qed.
  Lemma n_nth k mr dflt : (k < m_nints RN m)%nat ->
    nth k (map (u_fit RN) (map (finish_integration RN pow' m p mr) (seq 0 (m_nints RN m)))) dflt = u_fit RN (finish_integration RN pow' m p mr k).
  Proof.
    intro L. rewrite map_map. rewrite (nth_indep _ dflt (u_fit RN (finish_integration RN pow' m p mr 0))) by (rewrite map_length, seq_length; assumption).
    rewrite (map_nth (fun x => u_fit RN (finish_integration RN pow' m p mr x))), seq_nth by assumption. reflexivity.
  Qed.
  Lemma n_chargeloss r k dflt : length (snd r) = m_nints RN m -> (k < m_nints RN m)%nat ->
    q_slope RN (fst (chargeloss RN m p r)) = q_slope RN (fst r) /\ q_slope RN (nth k (snd (chargeloss RN m p r)) dflt) = q_slope RN (nth k (snd r) dflt).
  Proof.
    intros L K. unfold chargeloss. destruct (x_orig RN p) as [o|]; [|split; reflexivity]. destruct (negb _); [split; reflexivity|]. cbn [fst snd].
    split; [reflexivity|]. match goal with |- context [map ?h (seq 0 _)] => set (F := h) end.
    rewrite (nth_indep _ dflt (F 0%nat)) by (rewrite map_length, seq_length; assumption). rewrite (map_nth F), seq_nth by assumption. unfold F.
    rewrite (nth_indep (snd r) (fst r) dflt) by lia. destruct (i_chg RN _); reflexivity.
  Qed.
  Lemma n_integration s k dflt : (k < m_nints RN m)%nat -> no_zeroframe m p k -> on_line m p s k -> segs k <> [] -> 1 / weights k < 1000000 ->
    q_slope RN (nth k (snd (ols_pixel RN pow' m p)) dflt) = (Some (s / tg) : RN).
  Proof.
    intros K P L NE LT. unfold ols_pixel. rewrite (proj2 (n_chargeloss _ k dflt (fit_pixel_length RN pow' m p) K)). unfold fit_pixel. cbn [snd].
    rewrite n_nth by assumption. set (mr := median_rate RN m p). destruct (n_contrib k mr s P L) as (_ & _ & C). destruct (C NE) as [C1 C2]. destruct (C2 LT) as [C3 _].
    unfold finish_integration. destruct (fit_integration RN pow' m p mr k) as [q c]. cbn [fst] in C1, C3. cbn [u_fit q_slope]. rewrite C1, Hf. cbn [flags_at o_dnu o_sat]. rewrite !has_bit. destruct (n_int_clean k) as [-> ->]. exact C3.
  Qed.
  Lemma n_exposure s : (forall k, (k < m_nints RN m)%nat -> no_zeroframe m p k /\ on_line m p s k) -> (exists k, (k < m_nints RN m)%nat /\ segs k <> []) ->
    1 / Rsum (map weights (seq 0 (m_nints RN m))) < 1000000 -> q_slope RN (fst (ols_pixel RN pow' m p)) = (Some (s / tg) : RN).
  Proof.
    intros H (k0 & K0 & NE) LT. unfold ols_pixel. rewrite (proj1 (n_chargeloss _ k0 (fst (fit_pixel RN pow' m p)) (fit_pixel_length RN pow' m p) K0)).
    unfold fit_pixel. cbn [fst q_slope]. set (mr := median_rate RN m p). set (ks := seq 0 (m_nints RN m)) in *.
    assert (IK : forall k, In k ks -> (k < m_nints RN m)%nat) by (intros k I; apply in_seq in I; lia).
    assert (I0 : In k0 ks) by (apply in_seq; lia). set (outs := map (finish_integration RN pow' m p mr) ks).
    assert (U0 : u_dnu RN (finish_integration RN pow' m p mr k0) = false /\ u_sat RN (finish_integration RN pow' m p mr k0) = false).
    { destruct (H k0 K0) as [P L]. destruct (n_contrib k0 mr s P L) as (_ & _ & C). destruct (C NE) as [C1 _]. unfold finish_integration. destruct (fit_integration RN pow' m p mr k0) as [q c]. cbn [fst] in C1.
      cbn [u_dnu u_sat]. rewrite C1, Hf. cbn [flags_at o_dnu o_sat]. rewrite !has_bit. apply n_int_clean. }
    assert (AD : forallb (u_dnu RN) outs = false).
    { apply not_true_iff_false. intro A. rewrite forallb_forall in A. specialize (A _ (in_map _ _ _ I0)). destruct U0. congruence. }
    assert (AS : forallb (u_sat RN) outs = false).
    { apply not_true_iff_false. intro A. rewrite forallb_forall in A. specialize (A _ (in_map _ _ _ I0)). destruct U0. congruence. }
    rewrite AD, AS. rewrite (has_invalid m0 p0 dnu jump sat pers ngval chg Hf Hq), !N.lor_spec, !flag_if_testbit, Hf. cbn [flags_at o_jump o_pers]. rewrite !bit_testbit. destruct n_pix_clean as [-> ->].
    destruct (neq_flags dnu jump sat pers ngval Hd) as (A1 & A2 & A3 & A4 & _). rewrite (proj2 (N.eqb_neq _ _) A1), (proj2 (N.eqb_neq _ _) A2), (proj2 (N.eqb_neq _ _) A3), (proj2 (N.eqb_neq _ _) A4), !andb_false_r. cbn [orb].
    set (W := Rsum (map weights ks)) in *.
    assert (C : forall k, In k ks -> snd (fst (u_con RN (finish_integration RN pow' m p mr k))) = (Some (weights k) : RN) /\ snd (u_con RN (finish_integration RN pow' m p mr k)) = (Some (s / tg * weights k) : RN)).
    { intros k I. destruct (H k (IK k I)) as [P L]. destruct (n_contrib k mr s P L) as (C1 & C2 & _). unfold finish_integration.
      destruct (fit_integration RN pow' m p mr k) as [q c]. cbn [fst snd u_con] in *. split; assumption. }
    assert (E1 : osum RN (map (fun u : iout RN => snd (fst (u_con RN u))) outs) = (Some W : RN)).
    { unfold outs. rewrite map_map. apply (osum_some weights). intros k I. apply C, I. }
    assert (E2 : osum RN (map (fun u : iout RN => snd (u_con RN u)) outs) = (Some (s / tg * W) : RN)).
    { unfold outs. rewrite map_map. unfold W. rewrite <- Rsum_scal. apply (osum_some (fun k => s / tg * weights k)). intros k I. apply C, I. }
    assert (WP : 0 < W).
    { unfold W. apply (Rsum_pos _ _ k0); [intros k I; apply (weights_pos s k), H, IK, I|assumption|]. apply (weights_pos s k0); [apply H; assumption|assumption]. }
    rewrite E1, E2. unfold inv_or. cbn [flt fone fzero RN rncmp]. replace (Rltb 0 W) with true by (symmetry; apply Rltb_spec; assumption). rewrite o_div by lra.
    rewrite n_large by assumption. cbn [fisnan RN fmul rn2]. f_equal. field. split; [assumption|lra].
  Qed.
End Nan.

(** A pixel whose fitted groups lie on lines of slope [s] counts per group gets the rate s / group time, in each integration with a segment and for the exposure,
    whatever the other groups hold, NaN included. *)
Theorem C31_nan : forall pow (pow' : RN -> RN -> RN) (m : ometa RN) (p : opix RN) (tg rn gn : R) dnu jump sat pers ngval chg (s : R),
  pow_ok pow -> (forall x q, 0 <= x -> pow' (Some x) (Some q) = (Some (pow x q) : RN)) ->
  m_tgroup RN m = (Some tg : RN) -> x_rn RN p = (Some rn : RN) -> x_gain RN p = (Some gn : RN) -> tg <> 0 -> rn <> 0 -> 0 < gn ->
  m_f RN m = flags_at dnu jump sat pers ngval chg -> NoDup [dnu; jump; sat; pers; ngval] -> (1 <= m_ng RN m)%nat ->
  N.testbit (x_dq RN p) dnu = false -> N.testbit (x_dq RN p) sat = false ->
  let segs k := segments (m_f RN m) (x_gdq RN p k) (m_ng RN m) in
  let W k := Rsum (map (fun g => 1 / seg_rvar tg rn gn (snd g - fst g)) (segs k)) in
  (forall k dflt, (k < m_nints RN m)%nat -> no_zeroframe m p k -> on_line m p s k -> segs k <> [] -> 1 / W k < 1000000 ->
     q_slope RN (nth k (snd (ols_pixel RN pow' m p)) dflt) = (Some (s / tg) : RN)) /\
  ((forall k, (k < m_nints RN m)%nat -> no_zeroframe m p k /\ on_line m p s k) -> (exists k, (k < m_nints RN m)%nat /\ segs k <> []) ->
     1 / Rsum (map W (seq 0 (m_nints RN m))) < 1000000 -> q_slope RN (fst (ols_pixel RN pow' m p)) = (Some (s / tg) : RN)).
Proof.
  intros pow pow' m p tg rn gn dnu jump sat pers ngval chg s P P' MT MR MG Ht Hr Hg Hf Hd N1 Q1 Q2 segs W. split.
  - intros k dflt K NZ L NE LT. exact (n_integration pow pow' P P' m p tg rn gn MT MR MG Ht Hr Hg dnu jump sat pers ngval chg Hf Hd N1 (conj Q1 Q2) s k dflt K NZ L NE LT).
  - intros H E LT. exact (n_exposure pow pow' P P' m p tg rn gn MT MR MG Ht Hr Hg dnu jump sat pers ngval chg Hf Hd N1 (conj Q1 Q2) s H E LT).
Qed.
Print Assumptions C31_nan.
(** the groups 5, 8, NaN (do not use), 50, 53, NaN (saturated): slope 3 per group, 0.3 per second *)
Definition on_pix : opix RN := {| x_data := fun _ j => nth j [Some 5; Some 8; None; Some 50; Some 53; None] None : RN; x_gdq := ex_nth 0%N [[0; 0; 1; 0; 0; 2]%N]; x_dq := 0%N; x_gain := Some 1 : RN; x_rn := Some 1 : RN;
  x_dark := None : RN; x_zf := None; x_orig := None |}.
Definition on_pow (x q : RN) : RN := match x, q with Some a, Some b => Some (c_pow a b) | _, _ => None end.
Example C31_nan_ex : q_slope RN (fst (ols_pixel RN on_pow (ex_meta RN 6 1 false) on_pix)) = (Some (3 / 10) : RN).
Proof.
  set (m := ex_meta RN 6 1 false). assert (SG : segments (m_f RN m) (x_gdq RN on_pix 0%nat) (m_ng RN m) = [(0, 2); (3, 5)]%nat) by (vm_compute; reflexivity).
  destruct (C31_nan c_pow on_pow m on_pix 10 1 1 0 2 1 3 4 7 3 c_pow_ok (fun _ _ _ => eq_refl) eq_refl eq_refl eq_refl ltac:(lra) ltac:(lra) ltac:(lra) eq_refl ltac:(repeat constructor; cbn; intuition discriminate) ltac:(cbn; lia) eq_refl eq_refl) as [_ C].
  apply C; clear C.
  - intros k K. assert (k = 0%nat) as -> by (cbn in K; lia). split; [left; reflexivity|]. intros g I. rewrite SG in I. destruct I as [<-|[<-|[]]]; (split; [cbn; lia|]).
    + exists 5. intros j J. cbn [fst snd] in J. assert (j = 0 \/ j = 1)%nat as [->| ->] by lia; cbn; f_equal; lra.
    + exists 41. intros j J. cbn [fst snd] in J. assert (j = 3 \/ j = 4)%nat as [->| ->] by lia; cbn; f_equal; lra.
  - exists 0%nat. split; [cbn; lia|]. rewrite SG. discriminate.
  - cbn [m_nints m ex_meta seq map]. fold m. rewrite SG. unfold seg_rvar. cbn [map fst snd Nat.sub]. rewrite !Rsum_cons, !Rsum_nil. cbn [INR]. lra.
Qed.
