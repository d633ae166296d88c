(** C69, C70 and C112 with missing values: the median rate leaves out NaN, groups outside the fitted segments may hold anything. *)
From Coq Require Import Reals Lra Permutation.
From Verif Require Import Base BaseLemmas FLaws RBase RNBase Cas22Model Cas22Spec Cas22Proofs Cas22Fit OlsModel OlsSpec OlsProofs OlsFit OlsErr OlsProps OvProps OlProps.
From Verif Require ShProps3.
Local Open Scope R_scope.

(** every group of every fitted segment holds a number *)
Definition known (m : ometa RN) (p : opix RN) (k : nat) : Prop :=
  forall g j, In g (segments (m_f RN m) (x_gdq RN p k) (m_ng RN m)) -> (fst g <= j < snd g)%nat -> exists v : R, x_data RN p k j = (Some v : RN).
Lemma rltb_t a b : a < b -> Rltb a b = true. Proof. apply Rltb_spec. Qed.
Lemma rltb_f a b : b <= a -> Rltb a b = false. Proof. intro H. apply not_true_iff_false. rewrite Rltb_spec. lra. Qed.
Lemma rleb_f a b : b < a -> Rleb a b = false. Proof. intro H. apply not_true_iff_false. rewrite Rleb_spec. lra. Qed.
Lemma p_large (v : R) : large0 RN (Some v) = (Some (large0 RF v : R) : RN).
Proof. unfold large0, LARGE. cbn [fle fofZ RN RF rncmp fzero]. destruct (Rleb 1000000 v); reflexivity. Qed.
Lemma p_power (s : R) : snr_power RN (Some s) = (Some (snr_power RF s : R) : RN).
Proof.
  unfold snr_power. change (fdiv RN (fofZ RN 4) (fofZ RN 10)) with (fdiv RN (Some 4 : RN) (Some 10 : RN)). rewrite o_div by lra. cbn [flt fofZ RN RF rncmp fzero fone fdiv].
  destruct (Rltb s 5); [reflexivity|]. destruct (Rltb s 10); [reflexivity|]. destruct (Rltb s 20); [reflexivity|]. destruct (Rltb s 50); [reflexivity|]. destruct (Rltb s 100); reflexivity.
Qed.

Section Nan.
  Variables (pow : R -> R -> R) (pow' : RN -> RN -> RN).
  Hypothesis POW : pow_ok pow.
  Hypothesis POW' : forall x q, 0 <= x -> pow' (Some x) (Some q) = (Some (pow x q) : RN).
  Variables (m : ometa RN) (p : opix RN) (tg tf rn gn dk : R).
  Hypothesis MT : m_tgroup RN m = (Some tg : RN).
  Hypothesis MF : m_tframe RN m = (Some tf : RN).
  Hypothesis MR : x_rn RN p = (Some rn : RN).
  Hypothesis MG : x_gain RN p = (Some gn : RN).
  Hypothesis MD : x_dark RN p = (Some dk : RN).
  Hypothesis Ht : 0 < tg.
  Hypothesis Htf : 0 < tf.
  Hypothesis Hr : rn <> 0.
  Hypothesis Hg : 0 < gn.
  Hypothesis Hk : 0 <= dk.
  (** the same pixel over the reals, zero where there is no number *)
  Definition sh_m : ometa RF := {| m_f := m_f RN m; m_nints := m_nints RN m; m_ng := m_ng RN m; m_tgroup := tg : RF; m_tframe := tf : RF; m_nframes := m_nframes RN m; m_sup := m_sup RN m |}.
  Definition sh_p : opix RF := {| x_data := fun k j => match (x_data RN p k j : option R) with Some v => v : RF | None => 0 : RF end; x_gdq := x_gdq RN p; x_dq := x_dq RN p; x_gain := gn : RF; x_rn := rn : RF; x_dark := dk : RF; x_zf := None; x_orig := None |}.
  Variables dnu jump sat pers ngval chg : N.
  Hypothesis Hf : m_f RN m = flags_at dnu jump sat pers ngval chg.
  Hypothesis Hd : NoDup [dnu; jump; sat; pers; ngval].
  Hypothesis N1 : (1 <= m_ng RN m)%nat.
  Hypothesis Hq : N.testbit (x_dq RN p) dnu = false /\ N.testbit (x_dq RN p) sat = false.
  Notation segs k := (segments (m_f RN m) (x_gdq RN p k) (m_ng RN m)).
  Notation pN k := (prep RN m p k). Notation pF k := (prep RF sh_m sh_p k).

  Lemma sh_plain k : plain sh_m sh_p k. Proof. left. reflexivity. Qed.
  Lemma sh_segs k : segs_of sh_m sh_p k = segs k. Proof. reflexivity. Qed.
  Lemma q_data k j : no_zeroframe m p k -> has (x_gdq RN p k j) (o_sat (m_f RN m)) = false -> (exists v : R, x_data RN p k j = (Some v : RN)) -> i_data RN (pN k) j = (Some (i_data RF (pF k) j : R) : RN).
  Proof.
    intros P S [v V]. rewrite (n_data pow pow' POW' m p tg rn gn dnu sat N1 Hq k j P S). rewrite (plain_data sh_m sh_p dnu sat N1 Hq k j (sh_plain k) S). cbn [sh_p x_data]. rewrite V. reflexivity.
  Qed.
  Lemma q_0th k : no_zeroframe m p k -> i_0th RN (pN k) = i_0th RF (pF k) /\ i_zf RN (pN k) = false /\ i_zf RF (pF k) = false.
  Proof.
    intro P. pose proof (n_zf pow pow' POW' m p rn gn dnu sat N1 Hq k P) as Z. rewrite <- prep_zf in Z. split; [|split; [exact Z|]].
    - unfold prep in *. change (m_sup RF sh_m) with (m_sup RN m). destruct (m_sup RN m); [reflexivity|]. change (i_good RF (prep0 RF sh_m sh_p k)) with (i_good RN (prep0 RN m p k)). change (i_gdq RF (prep0 RF sh_m sh_p k)) with (i_gdq RN (prep0 RN m p k)).
      destruct (Z.eqb 1 _ && _); [reflexivity|]. cbn [sh_p x_zf]. destruct (x_zf RN p); [|reflexivity]. destruct (_ && _) in *; [discriminate|reflexivity].
    - rewrite prep_zf. apply (plain_zf sh_m sh_p dnu sat N1 Hq k (sh_plain k)).
  Qed.
  Lemma q_timing k : no_zeroframe m p k -> len1_timing RN m (pN k) = (Some (len1_timing RF sh_m (pF k) : R) : RN).
  Proof.
    intro P. destruct (q_0th k P) as (A & B & C). unfold len1_timing. rewrite A, B, C. change (m_sup RF sh_m) with (m_sup RN m). rewrite MT. destruct (negb (m_sup RN m)); [|reflexivity]. destruct (i_0th RF (pF k)); [|reflexivity].
    unfold t_one, fnat. rewrite MF. cbn [fofZ RN fadd fmul fone rn2]. rewrite o_div by lra. reflexivity.
  Qed.
  Notation FSN k mr g := (fit_segment RN pow' m p (pN k) (Some mr : RN) g). Notation FSF k mr g := (fit_segment RF pow sh_m sh_p (pF k) mr g).
  Lemma q_poisson (mr t : R) : t <> 0 -> var_poisson RN p (Some mr) (Some t) = (Some (var_poisson RF sh_p mr t : R) : RN).
  Proof. intro T. unfold var_poisson. rewrite MD. cbn [flt fzero RN RF rncmp fadd rn2]. destruct (Rltb 0 mr); rewrite o_div by exact T; reflexivity. Qed.
  Lemma q_snr k g : i_data RN (pN k) (snd g - 1)%nat = (Some (i_data RF (pF k) (snd g - 1)%nat : R) : RN) -> i_data RN (pN k) (fst g) = (Some (i_data RF (pF k) (fst g) : R) : RN) ->
    segment_snr RN p (pN k) g = (Some (segment_snr RF sh_p (pF k) g : R) : RN).
  Proof.
    intros A B. unfold segment_snr. rewrite A, B, MR, MG. cbn [fsub fmul fadd RN RF rn2 fle feq rncmp fzero sh_p x_rn x_gain]. set (d := i_data RF (pF k) (snd g - 1)%nat - i_data RF (pF k) (fst g)). set (den := rn * rn + d * gn).
    destruct (Rleb den 0 || Reqb gn 0) eqn:E; [reflexivity|]. apply orb_false_iff in E. destruct E as [E _]. assert (DP : 0 < den) by (apply Rnot_le_lt; rewrite <- Rleb_spec; congruence).
    cbn [fsqrt RN]. rewrite rltb_f by lra. pose proof (sqrt_lt_R0 den DP) as SP. rewrite o_div by lra. cbn [flt RN RF rncmp fdiv fsqrt]. destruct (Rltb (d * gn / sqrt den) 0); reflexivity.
  Qed.
  Lemma q_weight q g k : (3 <= slen g)%nat -> o_weight RN pow' p (Some q) g k = (Some (o_weight RF pow sh_p q g k : R) : RN).
  Proof.
    intro L. unfold o_weight. fold (slen g). rewrite MR. unfold fnat. cbn [fofZ RN]. rewrite <- !INR_IZR_INZ. rewrite o_div by lra.
    assert (Q : 0 < INR (slen g - 1)) by (apply lt_0_INR; lia). change (fone RN) with (Some 1 : RN). rewrite o_div by lra. cbn [fsub fmul RN rn2 fabs option_map]. rewrite POW' by apply Rabs_pos.
    pose proof (Rlt_0_sqr rn Hr) as R2. unfold Rsqr in R2. rewrite o_div by lra. cbn [fmul RN rn2]. change (fofZ RF) with IZR. rewrite <- ?INR_IZR_INZ. reflexivity.
  Qed.
  Lemma q_seg k mr g : no_zeroframe m p k -> known m p k -> In g (segs k) ->
    g_slope RN (FSN k mr g) = (Some (g_slope RF (FSF k mr g) : R) : RN) /\ g_var_p RN (FSN k mr g) = (Some (g_var_p RF (FSF k mr g) : R) : RN) /\
    g_var_r RN (FSN k mr g) = (Some (g_var_r RF (FSF k mr g) : R) : RN) /\ g_var_e RN (FSN k mr g) = (Some (g_var_e RF (FSF k mr g) : R) : RN).
  Proof.
    intros P K I. pose proof (seg_len sh_m sh_p k g I) as L1.
    assert (D : forall j, (fst g <= j < snd g)%nat -> i_data RN (pN k) j = (Some (i_data RF (pF k) j : R) : RN)).
    { intros j J. apply q_data; [exact P| |exact (K g j I J)]. unfold segments in I. destruct (has (x_gdq RN p k 0%nat) (o_sat (m_f RN m))); [destruct I|]. apply kept_in in I. apply (seg_unsat sh_m sh_p dnu jump sat pers ngval chg Hf Hd N1 Hq k g j); assumption. }
    assert (GN : 6 * gn * gn <> 0) by nra.
    unfold fit_segment. fold (slen g). destruct (Nat.eqb_spec 1 (slen g)) as [E|E1].
    - pose proof (timing_pos sh_m Ht Htf (pF k)) as TP. cbn [fit_len1 g_slope g_var_p g_var_r g_var_e]. rewrite (q_timing k P), MG. set (t := len1_timing RF sh_m (pF k) : R) in *.
      rewrite (D (fst g)) by (unfold slen in *; lia). cbn [fmul RN rn2]. rewrite q_poisson by nra. unfold rnoise_len1. rewrite MR, MG. rewrite !o_div by lra. cbn [fofZ RN fmul rn2]. rewrite o_div by exact GN. repeat split.
    - destruct (Nat.eqb_spec 2 (slen g)) as [E|E2].
      + cbn [fit_len2 g_slope g_var_p g_var_r g_var_e]. rewrite MT, MG. rewrite (D (fst g)), (D (fst g + 1)%nat) by (unfold slen in *; lia). cbn [fmul fsub RN rn2]. rewrite q_poisson by nra. unfold rnoise_len2. rewrite MT, MR, MG. rewrite !o_div by lra. cbn [fofZ RN fmul rn2]. rewrite o_div by exact GN. repeat split.
      + assert (L3 : (3 <= slen g)%nat) by lia. unfold fit_default. cbv zeta. cbn [g_slope g_var_p g_var_r g_var_e]. fold (slen g).
        rewrite q_snr by (apply D; unfold slen in *; lia). rewrite p_power. set (q := snr_power RF (segment_snr RF sh_p (pF k) g) : R).
        set (w := o_weight RF pow sh_p q g : nat -> R). set (x := o_x RF g : nat -> R). set (y := o_y RF (pF k) g : nat -> R). set (l := seq 0 (slen g)).
        assert (W : forall j, o_weight RN pow' p (Some q) g j = (Some (w j) : RN)) by (intro j; apply q_weight, L3).
        assert (X : forall j, o_x RN g j = (Some (x j) : RN)) by (intro j; reflexivity).
        assert (Y : forall j, In j l -> o_y RN (pN k) g j = (Some (y j) : RN)).
        { intros j J. apply in_seq in J. unfold o_y, y, o_y. rewrite D by (unfold slen in *; lia). reflexivity. }
        rewrite (osum_some w) by (intros; apply W). rewrite (osum_some (fun k => x k * w k) (fun k => fmul RN (o_x RN g k) (o_weight RN pow' p (Some q) g k))) by (intros; rewrite W, X; reflexivity).
        rewrite (osum_some (fun k => x k * (x k * w k)) (fun k => fmul RN (o_x RN g k) (fmul RN (o_x RN g k) (o_weight RN pow' p (Some q) g k)))) by (intros; rewrite W, X; reflexivity).
        rewrite (osum_some (fun k => y k * (x k * w k)) (fun j => fmul RN (o_y RN (pN k) g j) (fmul RN (o_x RN g j) (o_weight RN pow' p (Some q) g j)))) by (intros j I'; rewrite W, X, Y by exact I'; reflexivity).
        rewrite (osum_some (fun k => y k * w k) (fun j => fmul RN (o_y RN (pN k) g j) (o_weight RN pow' p (Some q) g j))) by (intros j I'; rewrite W, Y by exact I'; reflexivity).
        rewrite !osum_R. cbn [fmul fsub RN rn2]. cbn [fmul fsub fdiv fone RF].
        destruct (wt_ends pow sh_p q g L3 POW Hr) as (W0 & Wa & Wb). change (o_weight RF pow sh_p q g) with w in W0, Wa, Wb.
        assert (XE : forall j, x j = INR j + INR (fst g)) by (intro j; unfold x, o_x; rewrite !fnat_R; reflexivity).
        assert (DP : 0 < Rsum (map w l) * Rsum (map (fun k => x k * (x k * w k)) l) - Rsum (map (fun k => x k * w k) l) * Rsum (map (fun k => x k * w k) l)).
        { pose proof (det_pos w x l 0%nat (slen g - 1)%nat) as DP.
          rewrite (Rsum_ext (fun k => x k * (x k * w k)) (fun k => w k * (x k * x k))) by (intros; ring).
          rewrite (Rsum_ext (fun k => x k * w k) (fun k => w k * x k)) by (intros; ring).
          rewrite (Rmult_comm (Rsum (map w l))). apply DP; [intros; apply W0| | |assumption|assumption|].
          - apply in_seq. lia.
          - apply in_seq. lia.
          - rewrite !XE. cbn [INR]. assert (INR (slen g - 1) <> 0) by (apply not_0_INR; lia). lra. }
        set (d := _ - _) in DP |- *. change (fone RN) with (Some 1 : RN). rewrite o_div by lra. rewrite MT, MG. cbn [fmul fsub RN rn2]. rewrite o_div by lra.
        assert (L2 : 2 < INR (slen g)) by (apply (lt_INR 2); lia). assert (NN : fnat RN (slen g) = (Some (INR (slen g)) : RN)) by (unfold fnat; cbn [fofZ RN]; rewrite <- INR_IZR_INZ; reflexivity).
        rewrite NN. cbn [fmul fsub RN rn2]. rewrite q_poisson by (repeat apply Rmult_integral_contrapositive_currified; lra).
        assert (VR : rnoise_default RN m p (Some (INR (slen g))) = (Some (rnoise_default RF sh_m sh_p (INR (slen g)) : R) : RN)).
        { unfold rnoise_default. rewrite MT, MR, MG. cbn [fle RN RF rncmp fzero fisnan sh_p x_gain x_rn]. rewrite rleb_f by lra. cbn [orb]. rewrite o_div by lra. cbn [fofZ RN fmul fsub rn2]. pose proof (cube_pos (slen g) ltac:(lia)) as CP. rewrite o_div; [reflexivity|].
          repeat apply Rmult_integral_contrapositive_currified; lra. }
        rewrite VR, !fnat_R. repeat split.
  Qed.
  Notation sr k mr := (sum_r pow sh_m sh_p k mr). Notation sn k mr := (sum_n pow sh_m sh_p k mr). Notation se k mr := (sum_e pow sh_m sh_p k mr). Notation sp k mr := (sum_p pow sh_m sh_p k mr).
  Lemma q_sums k (mr : R) : no_zeroframe m p k -> known m p k -> let a := fold_left (add_fit RN) (map (fun g => FSN k mr g) (segs k)) (isums0 RN) in
    s_r RN a = (Some (sr k mr) : RN) /\ s_n RN a = (Some (sn k mr) : RN) /\ s_e RN a = (Some (se k mr) : RN) /\ s_p RN a = (Some (sp k mr) : RN).
  Proof.
    intros P K a. unfold sum_r, sum_n, sum_e, sum_p. rewrite !map_map, sh_segs.
    assert (G : forall l (x : isums RN) (u v w z : R), (forall g, In g l -> In g (segs k)) -> s_r RN x = (Some u : RN) -> s_n RN x = (Some v : RN) -> s_e RN x = (Some w : RN) -> s_p RN x = (Some z : RN) ->
      let y := fold_left (add_fit RN) (map (fun g => FSN k mr g) l) x in
      s_r RN y = (Some (u + Rsum (map (fun g => 1 / g_var_r RF (FSF k mr g)) l)) : RN) /\ s_n RN y = (Some (v + Rsum (map (fun g => g_slope RF (FSF k mr g) / g_var_r RF (FSF k mr g)) l)) : RN) /\
      s_e RN y = (Some (w + Rsum (map (fun g => 1 / g_var_e RF (FSF k mr g)) l)) : RN) /\
      s_p RN y = (Some (z + Rsum (map (fun g => if Rltb 0 (g_var_p RF (FSF k mr g)) then 1 / g_var_p RF (FSF k mr g) else 0) l)) : RN)).
    { induction l as [|g l IH]; intros x u v w z I U V W Z; [cbn [map fold_left]; rewrite !Rsum_nil, U, V, W, Z; repeat split; f_equal; ring|]. cbn [map fold_left].
      destruct (q_seg k mr g P K (I g (or_introl eq_refl))) as (S1 & S2 & S3 & S4). destruct (seg_vars pow sh_m sh_p dnu sat N1 Hr Ht Htf Hg Hq (pF k) mr g (seg_len sh_m sh_p k g (I g (or_introl eq_refl)))) as (Vr & Ve & Vp1 & Vp0).
      set (a0 := FSF k mr g) in *. set (a1 := FSN k mr g) in *.
      assert (VE : 0 < g_var_e RF a0). { rewrite Ve. destruct (flux_nonneg sh_p Hk mr) as [Q|Q]; [specialize (Vp1 Q); cbn [fadd RF] in *; lra|rewrite (Vp0 (eq_sym Q)); cbn [fadd RF] in *; lra]. }
      destruct (IH (add_fit RN x a1) (u + 1 / g_var_r RF a0) (v + g_slope RF a0 / g_var_r RF a0) (w + 1 / g_var_e RF a0) (z + if Rltb 0 (g_var_p RF a0) then 1 / g_var_p RF a0 else 0)) as (Q1 & Q2 & Q3 & Q4).
      - intros h Ih. apply I. right. exact Ih.
      - cbn [add_fit s_r]. rewrite U, S3. change (fone RN) with (Some 1 : RN). rewrite o_div by lra. reflexivity.
      - cbn [add_fit s_n]. rewrite V, S1, S3. rewrite o_div by lra. reflexivity.
      - cbn [add_fit s_e]. rewrite W, S4. change (fone RN) with (Some 1 : RN). rewrite o_div by lra. reflexivity.
      - cbn [add_fit s_p]. rewrite Z, S2. cbn [flt fzero RN rncmp]. destruct (Rltb 0 (g_var_p RF a0)) eqn:E; [|f_equal; ring]. apply Rltb_spec in E. change (fone RN) with (Some 1 : RN). rewrite o_div by lra. reflexivity.
      - cbv zeta. rewrite Q1, Q2, Q3, Q4, !Rsum_cons. repeat split; f_equal; ring. }
    destruct (G (segs k) (isums0 RN) 0 0 0 0 (fun g I => I) eq_refl eq_refl eq_refl eq_refl) as (Q1 & Q2 & Q3 & Q4). unfold a. rewrite Q1, Q2, Q3, Q4. repeat split; f_equal; ring.
  Qed.
  Definition lift_fit (q : pfit RF) : pfit RN := {| q_slope := Some (q_slope RF q : R) : RN; q_dq := q_dq RF q; q_vp := Some (q_vp RF q : R) : RN; q_vr := Some (q_vr RF q : R) : RN; q_err := Some (q_err RF q : R) : RN |}.
  Lemma q_int_dq k : int_dq0 RN m p (pN k) = int_dq0 RF sh_m sh_p (pF k).
  Proof.
    unfold int_dq0. destruct (prep_rest RN m p k) as (_ & -> & -> & _). destruct (prep_rest RF sh_m sh_p k) as (_ & -> & -> & _). f_equal. f_equal. unfold pixel_dq. rewrite MG. cbn [fle fisnan RN RF fzero rncmp sh_p x_gain]. rewrite rleb_f by lra. reflexivity.
  Qed.
  (** what an integration adds to the exposure, and its own result when it has a segment *)
  Lemma q_integration k (mr : R) : no_zeroframe m p k -> known m p k -> let r := fit_integration RN pow' m p (Some mr : RN) k in let r0 := fit_integration RF pow sh_m sh_p mr k in
    snd r = ((Some (fst (fst (snd r0)) : R) : RN), (Some (snd (fst (snd r0)) : R) : RN), (Some (snd (snd r0) : R) : RN)) /\ (segs k <> [] -> fst r = lift_fit (fst r0)).
  Proof.
    intros P K. cbv zeta. pose proof (contrib pow sh_m sh_p dnu jump sat pers ngval chg Hf Hd N1 Hg Hq k mr (sh_plain k)) as C. cbv zeta in C. destruct C as (C1 & C2 & C3 & C4). rewrite C1, C2, C3. clear C1 C2 C3. rewrite sh_segs in C4.
    pose proof (n_zf pow pow' POW' m p rn gn dnu sat N1 Hq k P) as Z. pose proof (q_sums k mr P K) as NS. cbv zeta in NS.
    unfold fit_integration at 1 2. destruct (prep_rest RN m p k) as (G & _ & _ & _ & D & _). rewrite Z in G, D. rewrite Z.sub_0_r in D.
    rewrite D, count_all, G. change (forallb _ (seq 0 (m_ng RN m))) with (all_bad RN m p k).
    assert (E0 : segs k = [] -> sr k mr = 0 /\ sn k mr = 0 /\ sp k mr = 0) by (intro E; unfold sum_r, sum_n, sum_p; rewrite sh_segs, E; cbn [map]; rewrite !Rsum_nil; auto).
    assert (RL : Rltb 0 0 = false) by (apply rltb_f; lra).
    destruct (has (x_gdq RN p k 0%nat) (o_sat (m_f RN m))) eqn:S0.
    - assert (E : segs k = []) by (unfold segments; rewrite S0; reflexivity). destruct (E0 E) as (-> & -> & ->). rewrite E, RL.
      assert (Q : forall q, fit_slope RN pow' m p (pN k) (Some mr : RN) sl_empty q = (q, zero3 RN)) by reflexivity.
      destruct (all_bad RN m p k); rewrite ?Q; split; [reflexivity|congruence|reflexivity|congruence].
    - pose proof (init_ramps_runs (flags_of (m_f RN m) (x_gdq RN p k)) (m_ng RN m)) as IR. destruct (segments_kept (m_f RN m) (x_gdq RN p k) (m_ng RN m) _ IR) as [SN SZ].
      assert (EK : segs k = kept (map (extend (m_f RN m) (x_gdq RN p k)) (init_ramps (flags_of (m_f RN m) (x_gdq RN p k)) (m_ng RN m)))) by (unfold segments; rewrite S0; reflexivity).
      destruct (all_bad RN m p k) eqn:AB.
      + pose proof (bad_no_runs sh_m sh_p dnu jump sat pers ngval chg Hf Hd N1 Hq k AB) as BR. unfold runs_of in BR. cbn [sh_m sh_p m_f m_ng x_gdq] in BR. rewrite BR in EK. cbn [map kept existsb firstn] in EK.
        destruct (E0 EK) as (-> & -> & ->). rewrite EK, RL. split; [reflexivity|congruence].
      + unfold fit_slope. destruct (Nat.eqb_spec (sl_size (scan_segments (m_f RN m) (x_gdq RN p k) (m_ng RN m))) 0) as [E|E].
        * apply SZ in E. rewrite E in EK. cbn [map kept existsb firstn] in EK. destruct (E0 EK) as (-> & -> & ->). rewrite EK, RL. split; [reflexivity|congruence].
        * rewrite SN, <- EK. destruct NS as (NR & NN & NE' & NP). change (map (fit_segment RN pow' m p (pN k) (Some mr : RN)) (segs k)) with (map (fun g => FSN k mr g) (segs k)). rewrite NR, NN, NE', NP. cbn [q_dq q_vp]. rewrite (q_int_dq k).
          destruct (int_clean sh_m sh_p dnu jump sat pers ngval chg Hf Hd Hg Hq k) as [C1 C2].
          rewrite (has_invalid sh_m sh_p dnu jump sat pers ngval chg Hf Hq), C1, C2. cbn [orb snd fst flt fzero RN rncmp].
          split; [destruct (Rltb 0 (sp k mr)); reflexivity|]. intro NE. rewrite (C4 NE). destruct (sums_fact pow sh_m sh_p dnu sat N1 Hr Ht Htf Hg Hk Hq k mr NE) as (V0 & A0 & _). unfold lift_fit. cbn [q_slope q_dq q_vp q_vr q_err].
          change (fone RN) with (Some 1 : RN). rewrite !(o_div 1 (sr k mr)), !(o_div 1 (se k mr)) by lra. rewrite p_large. cbn [fmul RN rn2]. unfold LARGE. cbn [flt fofZ RN rncmp].
          assert (EP : large0 RN (if Rltb 0 (sp k mr) then fdiv RN (Some 1 : RN) (Some (sp k mr) : RN) else (Some 0 : RN)) = (Some (large0 RF (if Rltb 0 (sp k mr) then 1 / sp k mr else 0) : R) : RN)).
          { destruct (Rltb 0 (sp k mr)) eqn:Q; [apply Rltb_spec in Q; rewrite o_div by lra|]; apply p_large. }
          rewrite EP. f_equal. cbn [fsqrt RN]. assert (EA : 0 < 1 / se k mr) by (apply Rdiv_lt_0_compat; lra). rewrite (rltb_f (1 / se k mr) 0) by lra. destruct (Rltb 1000000 (1 / se k mr)); reflexivity.
  Qed.

  Notation fl mr := (flux sh_p mr).
  Definition cap (v : R) : R := if Rleb 1000000 v then 0 else v.
  (** an integration with a segment *)
  Lemma q_finish k (mr : R) : no_zeroframe m p k -> known m p k -> let u := finish_integration RN pow' m p (Some mr : RN) k in
    u_con RN u = ((Some (if Rltb 0 (sp k mr) then sp k mr else 0) : RN), (Some (sr k mr) : RN), (Some (sn k mr) : RN)) /\
    (segs k <> [] -> u_dnu RN u = false /\ u_sat RN u = false /\ q_slope RN (u_fit RN u) = (Some (sn k mr * cap (1 / sr k mr)) : RN) /\ q_vr RN (u_fit RN u) = (Some (cap (1 / sr k mr)) : RN) /\
      q_vp RN (u_fit RN u) = (Some (cap (fl mr / (gn * spans sh_m sh_p k))) : RN) /\ 0 < sr k mr).
  Proof.
    intros P K u. pose proof (q_integration k mr P K) as Q. cbv zeta in Q. pose proof (contrib pow sh_m sh_p dnu jump sat pers ngval chg Hf Hd N1 Hg Hq k mr (sh_plain k)) as C. cbv zeta in C. destruct C as (C1 & C2 & C3 & C4).
    pose proof (int_poisson pow sh_m sh_p dnu jump sat pers ngval chg Hf Hd N1 Ht Htf Hg Hk Hq k (sh_plain k)) as IP. unfold u, finish_integration in *. destruct (fit_integration RN pow' m p (Some mr : RN) k) as [q c]. cbn [fst snd] in Q. destruct Q as [Q1 Q2]. cbn [u_con]. split.
    - rewrite Q1, C1, C2, C3. reflexivity.
    - intro NE. specialize (C4 NE). specialize (IP NE mr). cbv zeta in IP. specialize (Q2 NE). destruct (fit_integration RF pow sh_m sh_p mr k) as [q0 c0]. cbn [fst] in C4, Q2. cbn [u_fit q_vp] in IP. subst q0 q. cbn [u_dnu u_sat u_fit lift_fit q_dq q_slope q_vr q_vp].
      rewrite Hf. cbn [flags_at o_dnu o_sat]. rewrite !has_bit. destruct (int_clean sh_m sh_p dnu jump sat pers ngval chg Hf Hd Hg Hq k) as [-> ->]. cbn [orb]. split; [reflexivity|]. split; [reflexivity|]. split; [reflexivity|]. split; [reflexivity|].
      split; [|apply (sums_fact pow sh_m sh_p dnu sat N1 Hr Ht Htf Hg Hk Hq k mr NE)]. f_equal. exact IP.
  Qed.
  Hypothesis Ho : x_orig RN p = None.
  Lemma q_exposure (mr : R) : median_rate RN m p = (Some mr : RN) -> (forall k, (k < m_nints RN m)%nat -> no_zeroframe m p k /\ known m p k) -> live sh_m sh_p <> [] ->
    let q := fst (ols_pixel RN pow' m p) in let ks := live sh_m sh_p in let W := Rsum (map (fun k => sr k mr) ks) in
    0 < W /\ q_vr RN q = (Some (cap (1 / W)) : RN) /\ q_slope RN q = (Some (Rsum (map (fun k => sn k mr) ks) * cap (1 / W)) : RN) /\
    q_vp RN q = (Some (cap (fl mr / (gn * Rsum (map (spans sh_m sh_p) ks)))) : RN).
  Proof.
    intros MM H NE. cbv zeta. destruct (live sh_m sh_p) as [|k0 l0] eqn:LV; [congruence|]. rewrite <- LV in *. assert (K0 : In k0 (live sh_m sh_p)) by (rewrite LV; left; reflexivity). clear NE.
    pose proof K0 as K0'. apply live_in in K0'. destruct K0' as [K1 S0]. change (m_nints RF sh_m) with (m_nints RN m) in K1. rewrite sh_segs in S0.
    destruct (H k0 K1) as [P0 KN0]. pose proof (proj2 (q_finish k0 mr P0 KN0) S0) as F0. cbv zeta in F0. destruct F0 as (D0 & T0 & _ & _ & _ & R0).
    set (ks := seq 0 (m_nints RN m)) in *. assert (IK : forall k, In k ks -> (k < m_nints RN m)%nat) by (intros k L; apply in_seq in L; lia). assert (I0 : In k0 ks) by (apply in_seq; lia).
    assert (Z : forall k, segs_of sh_m sh_p k = [] -> sr k mr = 0 /\ sn k mr = 0 /\ spans sh_m sh_p k = 0) by (intros k E; unfold sum_r, sum_n, spans; rewrite E; repeat split; reflexivity).
    assert (L1 : Rsum (map (fun k => sr k mr) ks) = Rsum (map (fun k => sr k mr) (live sh_m sh_p))) by (apply (live_sum sh_m sh_p); intros k E; apply Z, E).
    assert (L2 : Rsum (map (fun k => sn k mr) ks) = Rsum (map (fun k => sn k mr) (live sh_m sh_p))) by (apply (live_sum sh_m sh_p); intros k E; apply Z, E).
    assert (L3 : Rsum (map (spans sh_m sh_p) ks) = Rsum (map (spans sh_m sh_p) (live sh_m sh_p))) by (apply (live_sum sh_m sh_p); intros k E; apply Z, E).
    assert (WP : 0 < Rsum (map (fun k => sr k mr) (live sh_m sh_p))).
    { apply (Rsum_pos _ _ k0); [|assumption|assumption]. intros k L. apply live_in in L. destruct L as [_ S]. left. apply (sums_fact pow sh_m sh_p dnu sat N1 Hr Ht Htf Hg Hk Hq k mr S). }
    split; [exact WP|].
    unfold ols_pixel, chargeloss. rewrite Ho. unfold fit_pixel. cbn [fst q_vp q_vr q_slope]. rewrite MM. fold ks.
    set (outs := map (finish_integration RN pow' m p (Some mr : RN)) ks).
    assert (AD : forallb (u_dnu RN) outs = false) by (apply not_true_iff_false; intro A; rewrite forallb_forall in A; specialize (A _ (in_map _ _ _ I0)); congruence).
    assert (AS : forallb (u_sat RN) outs = false) by (apply not_true_iff_false; intro A; rewrite forallb_forall in A; specialize (A _ (in_map _ _ _ I0)); congruence).
    rewrite AD, AS. rewrite (has_invalid sh_m sh_p dnu jump sat pers ngval chg Hf Hq), !N.lor_spec, !flag_if_testbit, Hf. cbn [flags_at o_jump o_pers]. rewrite !bit_testbit.
    assert (PC : pixel_dq RN m p = pixel_dq RF sh_m sh_p) by (unfold pixel_dq; rewrite MG; cbn [fle fisnan RN RF fzero rncmp sh_p x_gain]; rewrite rleb_f by lra; reflexivity). rewrite PC.
    destruct (pix_clean sh_m sh_p dnu sat Hg Hq) as [-> ->].
    destruct (neq_flags dnu jump sat pers ngval Hd) as (A1 & A2 & A3 & A4 & _). rewrite (proj2 (N.eqb_neq _ _) A1), (proj2 (N.eqb_neq _ _) A2), (proj2 (N.eqb_neq _ _) A3), (proj2 (N.eqb_neq _ _) A4), !andb_false_r. cbn [orb].
    assert (C : forall k, In k ks -> u_con RN (finish_integration RN pow' m p (Some mr : RN) k) = ((Some (if Rltb 0 (sp k mr) then sp k mr else 0) : RN), (Some (sr k mr) : RN), (Some (sn k mr) : RN))).
    { intros k L. destruct (H k (IK k L)) as [P K]. apply (q_finish k mr P K). }
    assert (E1 : osum RN (map (fun u : iout RN => snd (fst (u_con RN u))) outs) = (Some (Rsum (map (fun k => sr k mr) ks)) : RN)).
    { unfold outs. rewrite map_map. apply (osum_some (fun k => sr k mr)). intros k L. rewrite (C k L). reflexivity. }
    assert (E2 : osum RN (map (fun u : iout RN => snd (u_con RN u)) outs) = (Some (Rsum (map (fun k => sn k mr) ks)) : RN)).
    { unfold outs. rewrite map_map. apply (osum_some (fun k => sn k mr)). intros k L. rewrite (C k L). reflexivity. }
    assert (E3 : osum RN (map (fun u : iout RN => fst (fst (u_con RN u))) outs) = (Some (if Rltb 0 (fl mr) then Rsum (map (spans sh_m sh_p) ks) * gn / fl mr else 0) : RN)).
    { unfold outs. rewrite map_map. rewrite (osum_some (fun k => if Rltb 0 (fl mr) then spans sh_m sh_p k * gn / fl mr else 0)).
      - f_equal. destruct (Rltb 0 (fl mr)); [|rewrite Rsum_const; ring]. unfold Rdiv. rewrite Rmult_assoc, (Rmult_comm (Rsum _)), <- Rsum_scal. apply Rsum_ext. intros k _. ring.
      - intros k L. rewrite (C k L). cbn [fst]. f_equal. rewrite (sum_p_spans pow sh_m sh_p dnu sat N1 Ht Htf Hg Hk Hq k mr (sh_plain k)). destruct (Rltb 0 (fl mr)) eqn:F; [|destruct (Rltb 0 0); reflexivity].
        apply Rltb_spec in F. cbn [sh_p x_gain]. destruct (Rltb 0 (spans sh_m sh_p k * gn / fl mr)) eqn:G; [reflexivity|].
        destruct (spans_nonneg sh_m sh_p dnu sat N1 Ht Htf Hq k) as [A|A]; [|rewrite <- A; unfold Rdiv; ring].
        assert (Rltb 0 (spans sh_m sh_p k * gn / fl mr) = true) by (apply Rltb_spec, Rdiv_lt_0_compat; [apply Rmult_lt_0_compat|]; assumption). congruence. }
    rewrite E1, E2, E3, L1, L2, L3. clear E1 E2 E3 L1 L2 L3 C. set (W := Rsum (map (fun k => sr k mr) (live sh_m sh_p))) in *. set (S := Rsum (map (spans sh_m sh_p) (live sh_m sh_p))) in *.
    assert (SP : 0 < S) by (apply (Rsum_pos _ _ k0); [intros k L; apply (spans_nonneg sh_m sh_p dnu sat N1 Ht Htf Hq)|assumption|apply (spans_pos sh_m sh_p dnu sat N1 Ht Htf Hq); assumption]).
    unfold inv_or. cbn [flt fone fzero RN rncmp]. rewrite rltb_t by assumption. rewrite o_div by lra. rewrite p_large. cbn [fisnan RN fmul rn2].
    split; [reflexivity|]. split; [reflexivity|]. pose proof (flux_nonneg sh_p Hk mr) as FN. fold (fl mr).
    assert (V : (if Rltb 0 (if Rltb 0 (fl mr) then S * gn / fl mr else 0) then fdiv RN (Some 1 : RN) (Some (if Rltb 0 (fl mr) then S * gn / fl mr else 0) : RN) else (Some (if Rltb 0 (fl mr) then S * gn / fl mr else 0) : RN)) = (Some (fl mr / (gn * S)) : RN)).
    { destruct (Rltb 0 (fl mr)) eqn:F.
      - apply Rltb_spec in F. assert (PQ : 0 < S * gn / fl mr) by (apply Rdiv_lt_0_compat; [apply Rmult_lt_0_compat|]; assumption). rewrite rltb_t by assumption. rewrite o_div by lra. f_equal. field. repeat split; lra.
      - assert (F0 : fl mr = 0) by (destruct FN as [A|A]; [apply Rltb_spec in A; congruence|auto]). rewrite rltb_f by lra. rewrite F0. f_equal. unfold Rdiv. ring. }
    change (F RN) with (option R) in *. rewrite V. unfold LARGE. cbn [fle fofZ RN rncmp].
    assert (NN : 0 <= fl mr / (gn * S)) by (apply Rmult_le_pos; [exact FN|left; apply Rinv_0_lt_compat, Rmult_lt_0_compat; assumption]).
    rewrite (rltb_f (fl mr / (gn * S)) 0) by exact NN. rewrite orb_false_r. unfold cap. destruct (Rleb 1000000 (fl mr / (gn * S))); reflexivity.
  Qed.
End Nan.

(** ** The rate used for the Poisson noise *)
Lemma median_number (l : list RN) (v : RN) : l <> [] -> (forall x, In x l -> fisnan RN x = false) -> median_of RN l v -> fisnan RN v = false.
Proof.
  intros NE A (s & P & _ & M). cbv zeta in M. assert (L : (0 < length l)%nat) by (destruct l; [congruence|cbn; lia]). assert (LS : length s = length l) by (apply Permutation_length, P).
  assert (H : forall i, (i < length l)%nat -> exists r : R, nth i s (fnan RN) = (Some r : RN)).
  { intros i I. assert (J : In (nth i s (fnan RN)) l) by (apply (Permutation_in _ P), nth_In; lia). specialize (A _ J). change (F RN) with (option R) in *. destruct (nth i s (fnan RN)) as [r|]; [exists r; reflexivity|discriminate]. }
  destruct (H (length l / 2)%nat) as [b B]; [apply Nat.div_lt; lia|]. destruct (H (length l / 2 - 1)%nat) as [a B']; [pose proof (Nat.div_lt (length l) 2 L ltac:(lia)); lia|]. rewrite B, B' in M.
  destruct (Nat.odd (length l)); [rewrite M; reflexivity|]. cbn [fadd RN rn2] in M. change (fofZ RN 2) with (Some 2 : RN) in M. rewrite !o_div in M by lra. destruct M as [-> | ->]; reflexivity.
Qed.
(** The rate is the mean over the integrations of the median of the usable first differences, jumps left out; an integration without one counts with its first group, or with 0. *)
Theorem C112_mean_nan : forall (m : ometa RN) (p : opix RN) (tg : R), m_tgroup RN m = (Some tg : RN) -> tg <> 0 -> (2 <= m_ng RN m)%nat -> (1 <= m_nints RN m)%nat ->
  exists v : nat -> R, median_rate RN m p = (Some (Rmean (map v (seq 0 (m_nints RN m)))) : RN) /\
    forall k, (k < m_nints RN m)%nat -> ordinary RN m p k -> (forall j, (j + 1 < m_ng RN m)%nat -> good_diff RN m p k j = true -> x_data RN p k j <> None /\ x_data RN p k (j + 1) <> None) ->
      (rates RN m p k <> [] -> median_of RN (rates RN m p k) (Some (v k) : RN)) /\
      (rates RN m p k = [] -> v k = match (x_data RN p k 0 : option R) with Some x => if good_group RN m p k 0 then x / tg else 0 | None => 0 end).
Proof.
  intros m p tg MT T0 NG NI. exists (fun k => match (integ_rate RN m (prep RN m p k) : option R) with Some r => r | None => 0 end). split.
  - unfold median_rate. destruct (Nat.eqb_spec 1 (m_ng RN m)); [lia|]. rewrite (osum_some (fun k => match (integ_rate RN m (prep RN m p k) : option R) with Some r => r | None => 0 end)).
    + unfold fnat. cbn [fofZ RN]. rewrite <- INR_IZR_INZ. rewrite o_div by (apply not_0_INR; lia). unfold Rmean. rewrite map_length, seq_length. reflexivity.
    + intros k _. assert (Q : fisnan RN (integ_rate RN m (prep RN m p k)) = false) by (unfold integ_rate; cbv zeta; destruct (fisnan RN (if i_0th RN (prep RN m p k) then _ else _)) eqn:E; [reflexivity|exact E]).
      change (F RN) with (option R) in *. destruct (integ_rate RN m (prep RN m p k)); [reflexivity|discriminate].
  - intros k K O D. assert (D' : forall j, (j + 1 < m_ng RN m)%nat -> good_diff RN m p k j = true -> fisnan RN (diff_rate RN m p k j) = false).
    { intros j J G. destruct (D j J G) as [A B]. unfold diff_rate. rewrite MT. change (F RN) with (option R) in *. destruct (x_data RN p k j) as [a|]; [|congruence]. destruct (x_data RN p k (j + 1)) as [b|]; [|congruence].
      rewrite (o_div b tg), (o_div a tg) by exact T0. reflexivity. }
    destruct (C112_rate RN ShProps3.RN_laws eq_refl m p k O NG D') as [C1 C2]. split; intro NE.
    + destruct (C1 NE) as (v & V & E). assert (NV : fisnan RN v = false).
      { apply (median_number (rates RN m p k)); [exact NE| |exact V]. intros x I. unfold rates in I. apply in_map_iff in I. destruct I as (j & <- & I). apply filter_In in I. destruct I as [I G]. apply in_seq in I. apply D'; [lia|exact G]. }
      rewrite E, NV. change (F RN) with (option R) in *. destruct v as [v|]; [exact V|discriminate].
    + specialize (C2 NE). cbv zeta in C2. rewrite C2, MT. change (F RN) with (option R) in *. destruct (x_data RN p k 0) as [x|].
      * rewrite (o_div x tg T0). cbn [fisnan RN negb]. rewrite andb_true_r. destruct (good_group RN m p k 0); reflexivity.
      * replace (fdiv RN (None : RN) (Some tg : RN)) with (None : RN) by reflexivity. cbn [fisnan RN negb]. rewrite andb_false_r. reflexivity.
Qed.
Print Assumptions C112_mean_nan.

(** ** The Poisson variance *)
(** the counts of a segment arrive over this time *)
Definition seg_time (m : ometa RN) (p : opix RN) (tg tf : R) (k : nat) (g : nat * nat) : R :=
  if Nat.eqb (snd g - fst g) 1 then
    if negb (m_sup RN m) && Z.eqb 1 (count (fun j => N.eqb 0 (x_gdq RN p k j)) (m_ng RN m)) && N.eqb 0 (x_gdq RN p k 0) then (INR (m_nframes RN m) + 1) * tf / 2 else tg
  else INR (snd g - fst g - 1) * tg.
Definition segs_time (m : ometa RN) (p : opix RN) (tg tf : R) (k : nat) : R := Rsum (map (seg_time m p tg tf k) (segments (m_f RN m) (x_gdq RN p k) (m_ng RN m))).
(** the integrations with a fitted segment *)
Definition fitted (m : ometa RN) (p : opix RN) : list nat := filter (fun k => match segments (m_f RN m) (x_gdq RN p k) (m_ng RN m) with [] => false | _ => true end) (seq 0 (m_nints RN m)).
Lemma fitted_in m p k : In k (fitted m p) <-> (k < m_nints RN m)%nat /\ segments (m_f RN m) (x_gdq RN p k) (m_ng RN m) <> [].
Proof. unfold fitted. rewrite filter_In, in_seq. destruct (segments _ _ _); split; intros [A B]; (split; [lia|]); congruence. Qed.
Lemma fitted_live m p tg tf rn gn dk : live (sh_m m tg tf) (sh_p p rn gn dk) = fitted m p.
Proof. unfold live, fitted. apply filter_ext. intro k. change (segs_of (sh_m m tg tf) (sh_p p rn gn dk) k) with (segments (m_f RN m) (x_gdq RN p k) (m_ng RN m)). destruct (segments _ _ _); reflexivity. Qed.
Lemma spans_time m p tg tf rn gn dk k : spans (sh_m m tg tf) (sh_p p rn gn dk) k = segs_time m p tg tf k.
Proof.
  unfold spans, segs_time. change (segs_of (sh_m m tg tf) (sh_p p rn gn dk) k) with (segments (m_f RN m) (x_gdq RN p k) (m_ng RN m)). f_equal. apply map_ext. intro g. unfold span, seg_time. fold (slen g). cbn [sh_m sh_p m_sup m_ng x_gdq m_tgroup].
  destruct (Nat.eqb (slen g) 1); [|reflexivity]. destruct (_ && _); [|reflexivity]. unfold t_one. cbn [m_nframes m_tframe]. rewrite fnat_R. reflexivity.
Qed.
Definition dropped_if_large (v : R) : R := if Rleb 1000000 v then 0 else v.
(** Poisson variances with missing values outside the fitted segments: (rate + dark rate) / (gain x time covered by the segments). *)
Theorem C112_poisson_nan : forall pow (pow' : RN -> RN -> RN) (m : ometa RN) (p : opix RN) (tg tf rn gn dk mr : R) dnu jump sat pers ngval chg,
  pow_ok pow -> (forall x q, 0 <= x -> pow' (Some x) (Some q) = (Some (pow x q) : RN)) ->
  m_tgroup RN m = (Some tg : RN) -> m_tframe RN m = (Some tf : RN) -> x_rn RN p = (Some rn : RN) -> x_gain RN p = (Some gn : RN) -> x_dark RN p = (Some dk : RN) ->
  0 < tg -> 0 < tf -> rn <> 0 -> 0 < gn -> 0 <= dk -> m_f RN m = flags_at dnu jump sat pers ngval chg -> NoDup [dnu; jump; sat; pers; ngval] -> (1 <= m_ng RN m)%nat ->
  N.testbit (x_dq RN p) dnu = false -> N.testbit (x_dq RN p) sat = false -> x_orig RN p = None -> median_rate RN m p = (Some mr : RN) ->
  (forall k, (k < m_nints RN m)%nat -> no_zeroframe m p k /\ known m p k) ->
  let rate := if Rltb 0 mr then mr + dk else dk in
  let documented t := (Some (dropped_if_large (rate / (gn * t))) : RN) in
  (forall k dflt, In k (fitted m p) -> q_vp RN (nth k (snd (ols_pixel RN pow' m p)) dflt) = documented (segs_time m p tg tf k)) /\
  (fitted m p <> [] -> q_vp RN (fst (ols_pixel RN pow' m p)) = documented (Rsum (map (segs_time m p tg tf) (fitted m p)))).
Proof.
  intros pow pow' m p tg tf rn gn dk mr dnu jump sat pers ngval chg P P' MT MF MR MG MD Ht Htf Hr Hg Hk Hf Hd N1 Q1 Q2 Ho MM H rate documented. split.
  - intros k dflt I. apply fitted_in in I. destruct I as [K NE]. destruct (H k K) as [NZ KN].
    pose proof (q_finish pow pow' P P' m p tg tf rn gn dk MT MF MR MG MD Ht Htf Hr Hg Hk dnu jump sat pers ngval chg Hf Hd N1 (conj Q1 Q2) k mr NZ KN) as [_ F]. destruct (F NE) as (_ & _ & _ & _ & V & _).
    unfold ols_pixel, chargeloss. rewrite Ho. unfold fit_pixel. cbn [snd]. rewrite MM, map_map. rewrite (nth_indep _ dflt (u_fit RN (finish_integration RN pow' m p (Some mr : RN) 0%nat))) by (rewrite map_length, seq_length; exact K).
    rewrite (map_nth (fun k => u_fit RN (finish_integration RN pow' m p (Some mr : RN) k))), seq_nth by exact K. cbn [Nat.add]. rewrite V, spans_time. reflexivity.
  - intro NE. rewrite <- (fitted_live m p tg tf rn gn dk) in NE.
    destruct (q_exposure pow pow' P P' m p tg tf rn gn dk MT MF MR MG MD Ht Htf Hr Hg Hk dnu jump sat pers ngval chg Hf Hd N1 (conj Q1 Q2) Ho mr MM H NE) as (_ & _ & _ & V). rewrite V, fitted_live. unfold documented. f_equal. unfold cap, dropped_if_large.
    rewrite (map_ext _ (segs_time m p tg tf)) by (intro k; apply spans_time). reflexivity.
Qed.
Print Assumptions C112_poisson_nan.

(** ** C70: the exposure combines its integrations by their read-noise variances, missing values elsewhere *)
Theorem C70_nan : forall pow (pow' : RN -> RN -> RN) (m : ometa RN) (p : opix RN) (tg tf rn gn dk mr : R) dnu jump sat pers ngval chg,
  pow_ok pow -> (forall x q, 0 <= x -> pow' (Some x) (Some q) = (Some (pow x q) : RN)) ->
  m_tgroup RN m = (Some tg : RN) -> m_tframe RN m = (Some tf : RN) -> x_rn RN p = (Some rn : RN) -> x_gain RN p = (Some gn : RN) -> x_dark RN p = (Some dk : RN) ->
  0 < tg -> 0 < tf -> rn <> 0 -> 0 < gn -> 0 <= dk -> m_f RN m = flags_at dnu jump sat pers ngval chg -> NoDup [dnu; jump; sat; pers; ngval] -> (1 <= m_ng RN m)%nat ->
  N.testbit (x_dq RN p) dnu = false -> N.testbit (x_dq RN p) sat = false -> x_orig RN p = None -> median_rate RN m p = (Some mr : RN) ->
  (forall k, (k < m_nints RN m)%nat -> no_zeroframe m p k /\ known m p k) -> fitted m p <> [] ->
  exists s v : nat -> R, (forall k dflt, In k (fitted m p) -> let q := nth k (snd (ols_pixel RN pow' m p)) dflt in q_slope RN q = (Some (s k) : RN) /\ q_vr RN q = (Some (v k) : RN)) /\
    let q := fst (ols_pixel RN pow' m p) in let w := Rsum (map (fun k => 1 / v k) (fitted m p)) in
    ((forall k, In k (fitted m p) -> 0 < v k) -> q_vr RN q = (Some (dropped_if_large (1 / w)) : RN) /\ (1 / w < 1000000 -> q_slope RN q = (Some (Rsum (map (fun k => s k / v k) (fitted m p)) / w) : RN))).
Proof.
  intros pow pow' m p tg tf rn gn dk mr dnu jump sat pers ngval chg P P' MT MF MR MG MD Ht Htf Hr Hg Hk Hf Hd N1 Q1 Q2 Ho MM H NE.
  set (sr := fun k => sum_r pow (sh_m m tg tf) (sh_p p rn gn dk) k mr). set (sn := fun k => sum_n pow (sh_m m tg tf) (sh_p p rn gn dk) k mr).
  exists (fun k => sn k * cap (1 / sr k)), (fun k => cap (1 / sr k)).
  assert (I : forall k, In k (fitted m p) -> 0 < sr k /\ forall dflt, let q := nth k (snd (ols_pixel RN pow' m p)) dflt in q_slope RN q = (Some (sn k * cap (1 / sr k)) : RN) /\ q_vr RN q = (Some (cap (1 / sr k)) : RN)).
  { intros k I. apply fitted_in in I. destruct I as [K S0]. destruct (H k K) as [NZ KN].
    pose proof (q_finish pow pow' P P' m p tg tf rn gn dk MT MF MR MG MD Ht Htf Hr Hg Hk dnu jump sat pers ngval chg Hf Hd N1 (conj Q1 Q2) k mr NZ KN) as [_ F]. destruct (F S0) as (_ & _ & S & V & _ & W). split; [exact W|]. intros dflt q. subst q.
    unfold ols_pixel, chargeloss. rewrite Ho. unfold fit_pixel. cbn [snd]. rewrite MM, map_map. rewrite (nth_indep _ dflt (u_fit RN (finish_integration RN pow' m p (Some mr : RN) 0%nat))) by (rewrite map_length, seq_length; exact K).
    rewrite (map_nth (fun k => u_fit RN (finish_integration RN pow' m p (Some mr : RN) k))), seq_nth by exact K. cbn [Nat.add]. split; assumption. }
  split; [intros k dflt J; apply (I k J)|]. intros q w V. rewrite <- (fitted_live m p tg tf rn gn dk) in NE.
  destruct (q_exposure pow pow' P P' m p tg tf rn gn dk MT MF MR MG MD Ht Htf Hr Hg Hk dnu jump sat pers ngval chg Hf Hd N1 (conj Q1 Q2) Ho mr MM H NE) as (WP & VR & SL & _). rewrite fitted_live in *. fold q in VR, SL.
  assert (C : forall k, In k (fitted m p) -> cap (1 / sr k) = 1 / sr k) by (intros k J; specialize (V k J); unfold cap in *; destruct (Rleb 1000000 (1 / sr k)); [lra|reflexivity]).
  assert (W : w = Rsum (map sr (fitted m p))) by (apply Rsum_ext; intros k J; rewrite (C k J); destruct (I k J) as [W _]; field; lra).
  assert (S : Rsum (map (fun k => sn k * cap (1 / sr k) / cap (1 / sr k)) (fitted m p)) = Rsum (map sn (fitted m p))) by (apply Rsum_ext; intros k J; rewrite (C k J); destruct (I k J) as [W' _]; field; lra).
  change (fun k => sum_r pow (sh_m m tg tf) (sh_p p rn gn dk) k mr) with sr in WP, VR, SL. change (fun k => sum_n pow (sh_m m tg tf) (sh_p p rn gn dk) k mr) with sn in SL.
  rewrite S, W, VR, SL. split; [reflexivity|]. intro LT. unfold cap. rewrite (rleb_f _ _ LT). f_equal. field. lra.
Qed.
Print Assumptions C70_nan.

(** ** C69 for any kind of number: the exposure's error is the square root of the sum of its variances *)
Theorem C69_exposure_error_any : forall (fo : FOps) pow (m : ometa fo) (p : opix fo), fsqrt fo (fadd fo (fzero fo) (fzero fo)) = fzero fo -> x_orig fo p = None ->
  let q := fst (ols_pixel fo pow m p) in q_err fo q = fsqrt fo (fadd fo (q_vp fo q) (q_vr fo q)).
Proof. intros fo pow m p S0 Ho. cbv zeta. unfold ols_pixel, chargeloss. rewrite Ho. unfold fit_pixel. cbn [fst q_err q_vp q_vr]. destruct (has _ _); [symmetry; exact S0|reflexivity]. Qed.
Print Assumptions C69_exposure_error_any.
Example C69_exposure_error_ex : fsqrt B32 (fadd B32 (fzero B32) (fzero B32)) = fzero B32 /\ fsqrt B64 (fadd B64 (fzero B64) (fzero B64)) = fzero B64.
Proof. split; vm_compute; reflexivity. Qed.

(** ** Example: groups 5, 8, NaN (do not use), 50, 53, NaN (saturated); the usable rates are 0.3 and 0.3 *)
Definition qn_pix : opix RN := {| x_data := x_data RN on_pix; x_gdq := x_gdq RN on_pix; x_dq := 0%N; x_gain := Some 1 : RN; x_rn := Some 1 : RN; x_dark := Some 0 : RN; x_zf := None; x_orig := None |}.
Lemma qn_segs : segments (m_f RN (ex_meta RN 6 1 false)) (x_gdq RN qn_pix 0%nat) (m_ng RN (ex_meta RN 6 1 false)) = [(0, 2); (3, 5)]%nat. Proof. vm_compute. reflexivity. Qed.
Example C112_mean_nan_ex : let m := ex_meta RN 6 1 false in ordinary RN m qn_pix 0 /\ (forall j, (j + 1 < m_ng RN m)%nat -> good_diff RN m qn_pix 0 j = true -> x_data RN qn_pix 0 j <> None /\ x_data RN qn_pix 0 (j + 1) <> None) /\
  length (rates RN m qn_pix 0) = 2%nat.
Proof.
  intro m. split; [right; exists 0%nat, 1%nat; repeat split; cbn; lia|]. split; [|reflexivity].
  intros j J G. cbn in J. destruct j as [|[|[|[|[|j]]]]]; try lia; try (vm_compute in G; discriminate); split; cbn; discriminate.
Qed.
Example C112_poisson_nan_ex : let m := ex_meta RN 6 1 false in no_zeroframe m qn_pix 0 /\ known m qn_pix 0 /\ fitted m qn_pix = [0%nat] /\ segs_time m qn_pix 10 1 0 = 20 /\ exists mr, median_rate RN m qn_pix = (Some mr : RN).
Proof.
  intro m. split; [left; reflexivity|]. split; [|split; [|split]].
  - intros g j I J. unfold m in I. rewrite qn_segs in I. destruct I as [<-|[<-|[]]]; cbn [fst snd] in J; [assert (j = 0 \/ j = 1)%nat as [-> | ->] by lia|assert (j = 3 \/ j = 4)%nat as [-> | ->] by lia]; eexists; reflexivity.
  - unfold fitted. change (seq 0 (m_nints RN m)) with [0%nat]. cbn [filter]. unfold m. rewrite qn_segs. reflexivity.
  - unfold segs_time, m. rewrite qn_segs. cbn [map]. rewrite !Rsum_cons, Rsum_nil. unfold seg_time. cbn [fst snd Nat.sub Nat.eqb INR]. lra.
  - destruct (C112_mean_nan m qn_pix 10 eq_refl ltac:(lra) ltac:(cbn; lia) ltac:(cbn; lia)) as (v & E & _). eexists. exact E.
Qed.
(** the hypotheses of C70_nan are met by the same pixel *)
Example C70_nan_ex : let m := ex_meta RN 6 1 false in exists s v : nat -> R, (forall k dflt, In k (fitted m qn_pix) -> let q := nth k (snd (ols_pixel RN on_pow m qn_pix)) dflt in q_slope RN q = (Some (s k) : RN) /\ q_vr RN q = (Some (v k) : RN)).
Proof.
  intro m. destruct C112_poisson_nan_ex as (Z & K & FT & _ & mr & MR).
  destruct (C70_nan c_pow on_pow m qn_pix 10 1 1 1 0 mr 0 2 1 3 4 7 c_pow_ok (fun _ _ _ => eq_refl) eq_refl eq_refl eq_refl eq_refl eq_refl ltac:(lra) ltac:(lra) ltac:(lra) ltac:(lra) ltac:(lra) eq_refl
    ltac:(repeat constructor; cbn; intuition discriminate) ltac:(cbn; lia) eq_refl eq_refl eq_refl MR) as (s & v & H & _); [intros k L; assert (k = 0%nat) as -> by (cbn in L; lia); split; assumption|unfold m; rewrite FT; discriminate|].
  exists s, v. exact H.
Qed.
