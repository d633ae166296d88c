(** Algebra of the OLS fit over the real numbers. *)
From Verif Require Import Base BaseLemmas RBase Cas22Model Cas22Spec Cas22Proofs Cas22Fit OlsModel OlsSpec OlsProofs.
From Coq Require Import Reals Lra Lia.
Local Open Scope R_scope.

Lemma osum_R (l : list R) : osum RF l = Rsum l.
Proof. exact (sum_R l). Qed.
Lemma fnat_R k : fnat RF k = INR k.
Proof. unfold fnat. cbn [fofZ RF]. symmetry. apply INR_IZR_INZ. Qed.

(** weighted least squares is exact on a line *)
Lemma wls_exact (w x : nat -> R) a s l :
  let S h := Rsum (map h l) in
  S w * S (fun k => (a + s * x k) * (x k * w k)) - S (fun k => x k * w k) * S (fun k => (a + s * x k) * w k) =
  s * (S w * S (fun k => x k * (x k * w k)) - S (fun k => x k * w k) * S (fun k => x k * w k)).
Proof.
  cbv zeta beta.
  rewrite (Rsum_ext (fun k => (a + s * x k) * (x k * w k)) (fun k => a * (x k * w k) + s * (x k * (x k * w k)))) by (intros; ring).
  rewrite (Rsum_ext (fun k => (a + s * x k) * w k) (fun k => a * w k + s * (x k * w k))) by (intros; ring).
  rewrite !Rsum_plus, !Rsum_scal. ring.
Qed.

Section Fit.
  Variable pow : R -> R -> R.
  Variable m : ometa RF.
  Variable p : opix RF.
  Notation tg := (m_tgroup RF m : R). Notation rn := (x_rn RF p : R). Notation gn := (x_gain RF p : R).
  Definition slen (g : nat * nat) : nat := (snd g - fst g)%nat.
  (** read-noise variance of a fitted segment of n groups *)
  Definition rn_var (n : nat) : R := 12 * (rn / tg) * (rn / tg) / ((INR n * INR n * INR n - INR n) * gn * gn).
  Lemma wt_ends (power : R) g : (3 <= slen g)%nat -> pow_ok pow -> rn <> 0 ->
    (forall k, 0 <= o_weight RF pow p power g k) /\ 0 < o_weight RF pow p power g 0 /\ 0 < o_weight RF pow p power g (slen g - 1).
  Proof.
    intros L [P0 P1] Hr. unfold o_weight. fold (slen g). rewrite !fnat_R. cbn [fabs fmul fsub fdiv fone fofZ RF].
    assert (Q : 0 < 1 / (rn * rn)) by (apply Rdiv_lt_0_compat; [lra|]; apply Rlt_0_sqr; assumption).
    set (mid := INR (slen g - 1) / 2). assert (Mp : 0 < mid) by (unfold mid; apply Rdiv_lt_0_compat; [apply lt_0_INR; lia|lra]).
    split; [|split].
    - intro k. apply Rmult_le_pos; [apply P0, Rabs_pos|lra].
    - cbn [INR]. replace ((0 - mid) * (1 / mid)) with (- (1)) by (field; lra). rewrite Rabs_Ropp, Rabs_R1. rewrite P1. lra.
    - replace ((INR (slen g - 1) - mid) * (1 / mid)) with 1; [|assert (E : INR (slen g - 1) = 2 * mid) by (unfold mid; lra); rewrite E; field; lra]. rewrite Rabs_R1, P1. lra.
  Qed.
  Lemma seg_slope i mr g a s : (2 <= slen g)%nat -> pow_ok pow -> rn <> 0 -> tg <> 0 ->
    (forall k, (fst g <= k < snd g)%nat -> i_data RF i k = a + s * INR k) ->
    g_slope RF (fit_segment RF pow m p i mr g) = s / tg.
  Proof.
    intros L Pok Hr Ht D. unfold fit_segment. fold (slen g). destruct (Nat.eqb_spec 1 (slen g)) as [E|_]; [lia|]. destruct (Nat.eqb_spec 2 (slen g)) as [E|E].
    - cbn [fit_len2 g_slope]. unfold slen in *. rewrite (D (fst g + 1)%nat), (D (fst g)) by lia. toR. rewrite plus_INR. cbn [INR]. field. assumption.
    - assert (L3 : (3 <= slen g)%nat) by lia.
      set (w := o_weight RF pow p (snr_power RF (segment_snr RF p i g)) g : nat -> R). set (x := o_x RF g : nat -> R). set (y := o_y RF i g : nat -> R). set (l := seq 0 (slen g)).
      assert (FD : g_slope RF (fit_default RF pow m p i mr g) =
        ((Rsum (map w l) * Rsum (map (fun k => y k * (x k * w k)) l) - Rsum (map (fun k => x k * w k) l) * Rsum (map (fun k => y k * w k) l)) *
        (1 / (Rsum (map w l) * Rsum (map (fun k => x k * (x k * w k)) l) - Rsum (map (fun k => x k * w k) l) * Rsum (map (fun k => x k * w k) l)))) / tg).
      { unfold fit_default. cbn [g_slope]. rewrite !osum_R. reflexivity. }
      rewrite FD. clear FD.
      destruct (wt_ends (snr_power RF (segment_snr RF p i g)) g L3 Pok Hr) as (W0 & Wa & Wb). change (o_weight RF pow p _ g) with w in W0, Wa, Wb.
      assert (X : forall k, x k = INR k + INR (fst g)) by (intro k; unfold x, o_x; rewrite !fnat_R; reflexivity).
      assert (Y : forall k, In k l -> y k = a + s * x k).
      { intros k I. apply in_seq in I. unfold y, o_y. cbn [fisnan RF]. rewrite X, D by (unfold slen in *; lia). rewrite plus_INR. ring. }
      clearbody w x y.
      rewrite (Rsum_ext (fun k => y k * w k) (fun k => (a + s * x k) * w k)) by (intros k I; rewrite Y by assumption; reflexivity).
      rewrite (Rsum_ext (fun k => y k * (x k * w k)) (fun k => (a + s * x k) * (x k * w k))) by (intros k I; rewrite Y by assumption; reflexivity).
      pose proof (wls_exact w x a s l) as WE. cbv zeta beta in WE. rewrite WE. clear WE.
      assert (DP : 0 < Rsum (map w l) * Rsum (map (fun k => x k * (x k * w k)) l) - Rsum (map (fun k => x k * w k) l) * Rsum (map (fun k => x k * w k) l)).
      { pose proof (det_pos w x l 0%nat (slen g - 1)%nat) as DP.
        rewrite (Rsum_ext (fun k => x k * (x k * w k)) (fun k => w k * (x k * x k))) by (intros; ring).
        rewrite (Rsum_ext (fun k => x k * w k) (fun k => w k * x k)) by (intros; ring).
        rewrite (Rmult_comm (Rsum (map w l))). apply DP; [intros; apply W0| | |assumption|assumption|].
        - apply in_seq. lia.
        - apply in_seq. lia.
        - rewrite !X. cbn [INR]. assert (INR (slen g - 1) <> 0) by (apply not_0_INR; lia). lra. }
      match goal with |- @eq _ ?u ?v => change (@eq R u v) end. field. split; [assumption|lra].
  Qed.
  Lemma cube2 : INR 2 * INR 2 * INR 2 - INR 2 = 6. Proof. cbn. lra. Qed.
  Lemma seg_var i mr g : (2 <= slen g)%nat -> 0 < gn -> g_var_r RF (fit_segment RF pow m p i mr g) = rn_var (slen g).
  Proof.
    intros L G. unfold fit_segment, rn_var. fold (slen g). destruct (Nat.eqb_spec 1 (slen g)) as [E|_]; [lia|]. destruct (Nat.eqb_spec 2 (slen g)) as [E|E].
    - rewrite <- E, cube2. cbn [fit_len2 g_var_r rnoise_len2 fdiv fmul fofZ RF]. reflexivity.
    - cbn [fit_default g_var_r]. unfold rnoise_default. cbn [fle fisnan RF fzero]. replace (Rleb gn 0) with false; [|symmetry; apply not_true_iff_false; rewrite Rleb_spec; lra].
      cbn [orb fdiv fmul fofZ fsub RF]. fold (slen g). rewrite fnat_R. reflexivity.
  Qed.
  Lemma cube_pos n : (2 <= n)%nat -> 0 < INR n * INR n * INR n - INR n.
  Proof. intro L. assert (2 <= INR n) by (apply (le_INR 2); assumption). nra. Qed.
  Lemma rn_var_pos n : (2 <= n)%nat -> 0 < gn -> rn <> 0 -> tg <> 0 -> 0 < rn_var n.
  Proof.
    intros L G Hr Ht. unfold rn_var. apply Rdiv_lt_0_compat.
    - assert (Q : rn / tg <> 0) by (unfold Rdiv; apply Rmult_integral_contrapositive_currified; [assumption|apply Rinv_neq_0_compat; assumption]).
      pose proof (Rlt_0_sqr _ Q). unfold Rsqr in *. lra.
    - pose proof (cube_pos n L). repeat apply Rmult_lt_0_compat; assumption.
  Qed.

  (** the sums over the segments *)
  Lemma add_fits (l : list (segfit RF)) : forall acc,
    s_r RF (fold_left (add_fit RF) l acc) = s_r RF acc + Rsum (map (fun g : segfit RF => 1 / g_var_r RF g) l) /\
    s_n RF (fold_left (add_fit RF) l acc) = s_n RF acc + Rsum (map (fun g : segfit RF => g_slope RF g / g_var_r RF g) l) /\
    s_e RF (fold_left (add_fit RF) l acc) = s_e RF acc + Rsum (map (fun g : segfit RF => 1 / g_var_e RF g) l) /\
    s_p RF (fold_left (add_fit RF) l acc) = s_p RF acc + Rsum (map (fun g : segfit RF => if Rltb 0 (g_var_p RF g) then 1 / g_var_p RF g else 0) l).
  Proof.
    induction l as [|g l IH]; intro acc; cbn [fold_left map]; rewrite ?Rsum_cons, ?Rsum_nil; [cbn [fadd RF]; repeat split; lra|].
    destruct (IH (add_fit RF acc g)) as (A & B & C & D). rewrite A, B, C, D. cbn [add_fit s_r s_n s_e s_p fadd fdiv fone RF flt fzero].
    repeat split; try lra. destruct (Rltb 0 _); lra.
  Qed.
End Fit.

(** ** Harmonic sums *)
Lemma harm2 u v u' v' : 0 < u -> 0 < v -> 0 < u' -> 0 < v' -> u * v / (u + v) + u' * v' / (u' + v') <= (u + u') * (v + v') / ((u + u') + (v + v')).
Proof.
  intros. apply Rminus_le.
  replace (u * v / (u + v) + u' * v' / (u' + v') - (u + u') * (v + v') / ((u + u') + (v + v'))) with
    (- ((u * v' - u' * v) * (u * v' - u' * v) / ((u + v) * (u' + v') * (u + u' + (v + v'))))) by (field; lra).
  assert (0 <= (u * v' - u' * v) * (u * v' - u' * v) / ((u + v) * (u' + v') * (u + u' + (v + v')))); [|lra].
  apply Rmult_le_pos; [apply Rle_0_sqr|]. left. apply Rinv_0_lt_compat. repeat apply Rmult_lt_0_compat; lra.
Qed.
Lemma harm_sum {A} (vp vr : A -> R) l : l <> [] -> (forall x, In x l -> 0 < vp x /\ 0 < vr x) ->
  let U := Rsum (map (fun x => 1 / vp x) l) in let V := Rsum (map (fun x => 1 / vr x) l) in
  0 < U /\ 0 < V /\ 0 < Rsum (map (fun x => 1 / (vp x + vr x)) l) <= U * V / (U + V).
Proof.
  intros N H. cbv zeta. induction l as [|x l IH]; [congruence|]. destruct (H x (or_introl eq_refl)) as [P Q].
  assert (0 < 1 / vp x) by (apply Rdiv_lt_0_compat; lra). assert (0 < 1 / vr x) by (apply Rdiv_lt_0_compat; lra). assert (0 < 1 / (vp x + vr x)) by (apply Rdiv_lt_0_compat; lra).
  assert (E : 1 / (vp x + vr x) = (1 / vp x) * (1 / vr x) / (1 / vp x + 1 / vr x)) by (field; lra).
  cbn [map]. rewrite !Rsum_cons. destruct l as [|y l].
  - cbn [map]. rewrite !Rsum_nil, !Rplus_0_r. repeat split; try assumption. rewrite E. lra.
  - destruct IH as (U & V & W1 & W2); [discriminate|intros z I; apply H; right; assumption|].
    set (u := Rsum (map (fun x => 1 / vp x) (y :: l))) in *. set (v := Rsum (map (fun x => 1 / vr x) (y :: l))) in *.
    repeat split; try lra. rewrite E. eapply Rle_trans; [|apply harm2; assumption]. lra.
Qed.

(** ** Slopes of linear ramps *)
Section Linear.
  Variable pow : R -> R -> R.
  Variable m : ometa RF.
  Variable p : opix RF.
  Notation f := (m_f RF m). Notation ng := (m_ng RF m). Notation d := (x_gdq RF p).
  Notation tg := (m_tgroup RF m : R). Notation rn := (x_rn RF p : R). Notation gn := (x_gain RF p : R).
  Variables dnu jump sat pers ngval chg : N.
  Hypothesis Hf : f = flags_at dnu jump sat pers ngval chg.
  Hypothesis Hd : NoDup [dnu; jump; sat; pers; ngval].
  Hypothesis N1 : (1 <= ng)%nat.
  Hypothesis Pok : pow_ok pow.
  Hypothesis Hr : rn <> 0.
  Hypothesis Ht : tg <> 0.
  Hypothesis Hg : 0 < gn.
  Hypothesis Hq : N.testbit (x_dq RF p) dnu = false /\ N.testbit (x_dq RF p) sat = false.

  (** the groups of integration k are fitted as they are *)
  Definition plain (k : nat) : Prop := x_zf RF p = None \/ m_sup RF m = true \/ exists j, (j < ng)%nat /\ d k j = 0%N.
  Lemma plain_zf k : plain k -> zf_used RF m p k = false.
  Proof.
    unfold zf_used. intros [->|[->|(j & L & E)]]; [rewrite andb_false_r; reflexivity|reflexivity|].
    replace (existsb _ _) with true; [rewrite andb_false_r; reflexivity|]. symmetry. apply existsb_exists. exists j. split; [apply in_seq; lia|rewrite E; reflexivity].
  Qed.
  (** its segments: kept runs of usable groups, none when saturated from the start *)
  Definition runs_of (k : nat) : list ramp := init_ramps (flags_of f (d k)) ng.
  Definition segs_of (k : nat) : list (nat * nat) := if has (d k 0) (o_sat f) then [] else kept (map (extend f (d k)) (runs_of k)).
  Lemma plain_data k j : plain k -> has (d k j) (o_sat f) = false -> i_data RF (prep RF m p k) j = x_data RF p k j.
  Proof.
    intros P S. pose proof (plain_zf k P) as Z. rewrite <- prep_zf in Z. unfold prep in *.
    assert (E : i_data RF (prep0 RF m p k) j = x_data RF p k j) by (cbn [prep0 i_data]; rewrite S; reflexivity).
    destruct (m_sup RF m); [exact E|]. destruct (_ && _) in *; [exact E|]. destruct (x_zf RF p); [|exact E]. destruct (_ && _) in *; [discriminate|exact E].
  Qed.
  (** no group of a segment is saturated *)
  Lemma neq_flags : pers <> sat /\ jump <> sat /\ pers <> dnu /\ jump <> dnu /\ sat <> dnu /\ pers <> jump.
  Proof. clear -Hd. inversion Hd as [|? ? A H1]; subst. inversion H1 as [|? ? B H2]; subst. inversion H2 as [|? ? C _]; subst. cbn in A, B, C. intuition congruence. Qed.
  Lemma seg_unsat k g j : In g (map (extend f (d k)) (runs_of k)) -> (fst g <= j < snd g)%nat -> has (d k j) (o_sat f) = false.
  Proof.
    intros I L. apply in_map_iff in I. destruct I as (r & <- & I). pose proof (init_ramps_runs (flags_of f (d k)) ng) as [_ C].
    destruct neq_flags as (A & B & _).
    assert (U : N.ldiff (d k j) (o_pers f) = 0%N \/ N.ldiff (d k j) (o_pers f) = o_jump f).
    { unfold extend in L. cbn [fst snd] in L. destruct (Nat.ltb_spec 0 (fst r)); cbn [andb] in L.
      - destruct (N.eqb_spec (N.ldiff (d k (fst r - 1)) (o_pers f)) (o_jump f)) as [E|_].
        + destruct (Nat.eq_dec j (fst r - 1)) as [->|]; [right; assumption|]. left. destruct (proj1 (C j)) as [_ Z]; [exists r; split; [assumption|lia]|]. unfold flags_of in Z. lia.
        + left. destruct (proj1 (C j)) as [_ Z]; [exists r; split; [assumption|lia]|]. unfold flags_of in Z. lia.
      - left. destruct (proj1 (C j)) as [_ Z]; [exists r; split; [assumption|lia]|]. unfold flags_of in Z. lia. }
    rewrite Hf in *. cbn [flags_at o_sat o_pers o_jump] in *. rewrite has_bit.
    assert (T : N.testbit (N.ldiff (d k j) (bit pers)) sat = N.testbit (d k j) sat).
    { rewrite N.ldiff_spec, bit_testbit. rewrite (proj2 (N.eqb_neq pers sat) A). apply andb_true_r. }
    rewrite <- T. destruct U as [->| ->]; [apply N.bits_0|]. rewrite bit_testbit. apply N.eqb_neq. assumption.
  Qed.
  Lemma bad_no_runs k : all_bad RF m p k = true -> runs_of k = [].
  Proof.
    intro A. unfold runs_of. pose proof (init_ramps_runs (flags_of f (d k)) ng) as [[V _] C]. destruct (init_ramps _ _) as [|r l]; [reflexivity|exfalso].
    destruct (proj1 (C (fst r))) as [L Z]; [exists r; split; [left; reflexivity|split; [lia|apply V; left; reflexivity]]|].
    unfold all_bad in A. rewrite forallb_forall in A. specialize (A (fst r)). rewrite in_seq in A. specialize (A ltac:(lia)).
    unfold flags_of in Z. assert (Z' : N.ldiff (d k (fst r)) (o_pers f) = 0%N) by lia. clear Z. destruct neq_flags as (B & _ & D & _).
    rewrite Hf in *. cbn [flags_at o_sat o_pers o_dnu] in *. rewrite !has_bit in A.
    assert (T : forall b, pers <> b -> N.testbit (d k (fst r)) b = false).
    { intros b Hb. pose proof (f_equal (fun w => N.testbit w b) Z') as E. cbn beta in E. rewrite N.ldiff_spec, bit_testbit, N.bits_0, (proj2 (N.eqb_neq pers b) Hb), andb_true_r in E. exact E. }
    rewrite !T in A by assumption. discriminate.
  Qed.
  Notation fs k mr := (map (fit_segment RF pow m p (prep RF m p k) mr) (segs_of k)).
  Definition sum_r (k : nat) (mr : R) : R := Rsum (map (fun g : segfit RF => 1 / g_var_r RF g) (fs k mr)).
  Definition sum_n (k : nat) (mr : R) : R := Rsum (map (fun g : segfit RF => g_slope RF g / g_var_r RF g) (fs k mr)).
  Definition sum_e (k : nat) (mr : R) : R := Rsum (map (fun g : segfit RF => 1 / g_var_e RF g) (fs k mr)).
  Definition sum_p (k : nat) (mr : R) : R := Rsum (map (fun g : segfit RF => if Rltb 0 (g_var_p RF g) then 1 / g_var_p RF g else 0) (fs k mr)).
  Lemma has_invalid w : has w (N.lor (o_dnu f) (o_sat f)) = N.testbit w dnu || N.testbit w sat.
  Proof.
    rewrite Hf. cbn [flags_at o_dnu o_sat]. unfold has. rewrite N.land_lor_distr_r. rewrite <- (has_bit w dnu), <- (has_bit w sat). unfold has.
    destruct (N.eqb_spec (N.land w (bit dnu)) 0) as [->|A]; cbn [negb orb].
    - rewrite N.lor_0_l. reflexivity.
    - destruct (N.eqb_spec (N.lor (N.land w (bit dnu)) (N.land w (bit sat))) 0) as [E|]; [|reflexivity]. apply N.lor_eq_0_iff in E. tauto.
  Qed.
  Lemma pix_clean : N.testbit (pixel_dq RF m p) dnu = false /\ N.testbit (pixel_dq RF m p) sat = false.
  Proof.
    unfold pixel_dq. cbn [fle fisnan RF fzero]. replace (Rleb gn 0) with false; [exact Hq|]. symmetry. apply not_true_iff_false. rewrite Rleb_spec. lra.
  Qed.
  Lemma int_clean k : N.testbit (int_dq0 RF m p (prep RF m p k)) dnu = false /\ N.testbit (int_dq0 RF m p (prep RF m p k)) sat = false.
  Proof.
    unfold int_dq0. destruct (prep_rest RF m p k) as (_ & -> & -> & _). rewrite !N.lor_spec, !flag_if_testbit, Hf. cbn [flags_at o_jump o_pers]. rewrite !bit_testbit.
    destruct pix_clean as [-> ->]. destruct neq_flags as (A & B & C & D & _). rewrite (proj2 (N.eqb_neq _ _) A), (proj2 (N.eqb_neq _ _) B), (proj2 (N.eqb_neq _ _) C), (proj2 (N.eqb_neq _ _) D), !andb_false_r. split; reflexivity.
  Qed.
  (** what one integration contributes *)
  Lemma contrib k (mr : R) : plain k -> let r := fit_integration RF pow m p mr k in
    snd (fst (snd r)) = sum_r k mr /\ snd (snd r) = sum_n k mr /\
    fst (fst (snd r)) = (if Rltb 0 (sum_p k mr) then sum_p k mr else 0) /\
    (segs_of k <> [] -> fst r = {| q_slope := sum_n k mr * large0 RF (1 / sum_r k mr) : RF; q_dq := int_dq0 RF m p (prep RF m p k);
        q_vp := large0 RF (if Rltb 0 (sum_p k mr) then 1 / sum_p k mr else 0); q_vr := large0 RF (1 / sum_r k mr);
        q_err := if Rltb 1000000 (1 / sum_e k mr) then 0 else sqrt (1 / sum_e k mr) |}).
  Proof.
    intro P. cbv zeta. pose proof (plain_zf k P) as Z. unfold fit_integration. destruct (prep_rest RF m p k) as (G & _ & _ & _ & D & _). rewrite Z in G, D. rewrite Z.sub_0_r in D.
    rewrite D, count_all, G. change (forallb _ (seq 0 ng)) with (all_bad RF m p k).
    unfold sum_r, sum_n, sum_p, sum_e, segs_of. destruct (has (d k 0) (o_sat f)) eqn:S0.
    - assert (Q : forall q, fit_slope RF pow m p (prep RF m p k) mr sl_empty q = (q, zero3 RF)) by reflexivity.
      assert (RL : Rltb 0 0 = false) by (apply not_true_iff_false; rewrite Rltb_spec; lra).
      destruct (all_bad RF m p k); rewrite ?Q; cbn [snd fst zero3 map]; rewrite !Rsum_nil, RL; cbn [fzero RF]; repeat split; congruence.
    - pose proof (init_ramps_runs (flags_of f (d k)) ng) as IR. fold (runs_of k) in IR. destruct (segments_kept f (d k) ng _ IR) as [SN SZ].
      assert (RL : Rltb 0 0 = false) by (apply not_true_iff_false; rewrite Rltb_spec; lra).
      destruct (all_bad RF m p k) eqn:AB.
      + rewrite (bad_no_runs k AB). cbn [snd fst zero3 map kept existsb firstn]. rewrite !Rsum_nil, RL. cbn [fzero RF]. repeat split; congruence.
      + unfold fit_slope. destruct (Nat.eqb_spec (sl_size (scan_segments f (d k) ng)) 0) as [E|E].
        * apply SZ in E. rewrite E. cbn [snd fst zero3 map kept existsb firstn]. rewrite !Rsum_nil, RL. cbn [fzero RF]. repeat split; congruence.
        * rewrite SN. set (l := map (fit_segment RF pow m p (prep RF m p k) mr) (kept _)).
          destruct (add_fits l (isums0 RF)) as (Ar & An & Ae & Ap). cbn [isums0 s_r s_n s_e s_p fzero RF] in Ar, An, Ae, Ap. rewrite Rplus_0_l in Ar, An, Ae, Ap.
          cbn [flt fzero RF q_dq q_vp]. rewrite Ar, An, Ae, Ap. destruct (int_clean k) as [C1 C2]. rewrite has_invalid, C1, C2. cbn [orb].
          cbn [snd fst]. repeat split.
  Qed.
  Definition linear (s : R) (k : nat) : Prop := forall g, In g (segs_of k) -> (2 <= slen g)%nat /\ exists a, forall j, (fst g <= j < snd g)%nat -> x_data RF p k j = a + s * INR j.
  Definition wsum (k : nat) : R := Rsum (map (fun g => 1 / rn_var m p (slen g)) (segs_of k)).
  Lemma linear_sums s k mr : plain k -> linear s k -> sum_r k mr = wsum k /\ sum_n k mr = s / tg * wsum k.
  Proof.
    intros P Lin. unfold sum_r, sum_n, wsum. rewrite !map_map.
    assert (A : forall g, In g (segs_of k) -> g_slope RF (fit_segment RF pow m p (prep RF m p k) mr g) = s / tg /\ g_var_r RF (fit_segment RF pow m p (prep RF m p k) mr g) = rn_var m p (slen g)).
    { intros g I. destruct (Lin g I) as (L2 & a & H). split; [|apply seg_var; assumption]. apply (seg_slope pow m p _ mr g a s); try assumption.
      intros j J. rewrite plain_data; [apply H; assumption|assumption|]. unfold segs_of in I. destruct (has (d k 0) (o_sat f)); [destruct I|]. apply kept_in in I. apply (seg_unsat k g j); assumption. }
    split.
    - apply Rsum_ext. intros g I. destruct (A g I) as [_ ->]. reflexivity.
    - rewrite <- Rsum_scal. apply Rsum_ext. intros g I. destruct (A g I) as [-> ->]. unfold Rdiv. ring.
  Qed.
  Lemma wsum_nonneg s k : linear s k -> 0 <= wsum k /\ (segs_of k <> [] -> 0 < wsum k).
  Proof.
    intro Lin. unfold wsum.
    assert (A : forall g, In g (segs_of k) -> 0 < 1 / rn_var m p (slen g)).
    { intros g I. destruct (Lin g I) as [L2 _]. apply Rdiv_lt_0_compat; [lra|]. apply rn_var_pos; assumption. }
    split; [apply Rsum_nonneg; intros g I; left; apply A; assumption|]. intro NE. destruct (segs_of k) as [|g l] eqn:E; [congruence|].
    apply (Rsum_pos _ _ g); [intros; left; apply A; assumption|left; reflexivity|apply A; left; reflexivity].
  Qed.
  Lemma large_small v : v < 1000000 -> large0 RF v = v.
  Proof. intro L. unfold large0, LARGE. cbn [fle fofZ RF]. replace (Rleb 1000000 v) with false; [reflexivity|]. symmetry. apply not_true_iff_false. rewrite Rleb_spec. lra. Qed.
  Lemma finish_slope s k (mr : R) : plain k -> linear s k -> segs_of k <> [] -> 1 / wsum k < 1000000 ->
    q_slope RF (u_fit RF (finish_integration RF pow m p mr k)) = s / tg /\ q_vr RF (u_fit RF (finish_integration RF pow m p mr k)) = 1 / wsum k /\
    u_dnu RF (finish_integration RF pow m p mr k) = false /\ u_sat RF (finish_integration RF pow m p mr k) = false.
  Proof.
    intros P Lin NE LT. destruct (contrib k mr P) as (_ & _ & _ & C). specialize (C NE). unfold finish_integration. destruct (fit_integration RF pow m p mr k) as [q c]. cbn [fst] in C. subst q.
    cbn [q_dq q_slope q_vr u_fit u_dnu u_sat]. rewrite Hf. cbn [flags_at o_dnu o_sat]. rewrite !has_bit. destruct (int_clean k) as [-> ->]. cbn [orb].
    destruct (linear_sums s k mr P Lin) as [-> ->]. destruct (wsum_nonneg s k Lin) as [_ W]. specialize (W NE). rewrite large_small by assumption. repeat split.
    change (s / tg * wsum k * (1 / wsum k) = s / tg). field. split; [assumption|lra].
  Qed.

  Lemma nth_ints k mr dflt : (k < m_nints RF m)%nat ->
    nth k (map (u_fit RF) (map (finish_integration RF pow m p mr) (seq 0 (m_nints RF m)))) dflt = u_fit RF (finish_integration RF pow m p mr k).
  Proof.
    intro L. rewrite map_map. rewrite (nth_indep _ dflt (u_fit RF (finish_integration RF pow m p mr 0))) by (rewrite map_length, seq_length; assumption).
    rewrite (map_nth (fun x => u_fit RF (finish_integration RF pow m p mr x))), seq_nth by assumption. reflexivity.
  Qed.
  Lemma chargeloss_slope r k dflt : length (snd r) = m_nints RF m -> (k < m_nints RF m)%nat ->
    q_slope RF (fst (chargeloss RF m p r)) = q_slope RF (fst r) /\ q_slope RF (nth k (snd (chargeloss RF m p r)) dflt) = q_slope RF (nth k (snd r) dflt).
  Proof.
    intros L K. unfold chargeloss. destruct (x_orig RF p) as [o|]; [|split; reflexivity]. destruct (negb _); [split; reflexivity|]. cbn [fst snd].
    split; [reflexivity|]. match goal with |- context [map ?h (seq 0 _)] => set (F := h) end.
    rewrite (nth_indep _ dflt (F 0%nat)) by (rewrite map_length, seq_length; assumption). rewrite (map_nth F), seq_nth by assumption. unfold F.
    rewrite (nth_indep (snd r) (fst r) dflt) by lia. destruct (i_chg RF _); reflexivity.
  Qed.
  Theorem integration_linear s k dflt : (k < m_nints RF m)%nat -> plain k -> linear s k -> segs_of k <> [] -> 1 / wsum k < 1000000 ->
    q_slope RF (nth k (snd (ols_pixel RF pow m p)) dflt) = s / tg.
  Proof.
    intros K P Lin NE LT. unfold ols_pixel. rewrite (proj2 (chargeloss_slope _ k dflt (fit_pixel_length RF pow m p) K)). unfold fit_pixel. cbn [snd].
    rewrite nth_ints by assumption. apply (finish_slope s k _ P Lin NE LT).
  Qed.
  Lemma Rsum_map_ext {A} (h h' : A -> R) l : (forall x, In x l -> h x = h' x) -> Rsum (map h l) = Rsum (map h' l).
  Proof. exact (Rsum_ext h h' l). Qed.
  Theorem exposure_linear s : (forall k, (k < m_nints RF m)%nat -> plain k /\ linear s k) -> (exists k, (k < m_nints RF m)%nat /\ segs_of k <> []) ->
    1 / Rsum (map wsum (seq 0 (m_nints RF m))) < 1000000 ->
    q_slope RF (fst (ols_pixel RF pow m p)) = s / tg.
  Proof.
    intros H (k0 & K0 & NE) LT. unfold ols_pixel. rewrite (proj1 (chargeloss_slope _ k0 (fst (fit_pixel RF pow m p)) (fit_pixel_length RF pow m p) K0)).
    unfold fit_pixel. cbn [fst q_slope]. set (mr := median_rate RF m p). set (ks := seq 0 (m_nints RF m)) in *.
    assert (IK : forall k, In k ks -> (k < m_nints RF m)%nat) by (intros k I; apply in_seq in I; lia).
    assert (I0 : In k0 ks) by (apply in_seq; lia).
    set (outs := map (finish_integration RF pow m p mr) ks).
    assert (U0 : u_dnu RF (finish_integration RF pow m p mr k0) = false /\ u_sat RF (finish_integration RF pow m p mr k0) = false).
    { destruct (H k0 K0) as [P Lin]. destruct (contrib k0 mr P) as (_ & _ & _ & C). specialize (C NE). unfold finish_integration. destruct (fit_integration RF pow m p mr k0) as [q c]. cbn [fst] in C. subst q.
      cbn [q_dq u_dnu u_sat]. rewrite Hf. cbn [flags_at o_dnu o_sat]. rewrite !has_bit. apply int_clean. }
    assert (AD : forallb (u_dnu RF) outs = false).
    { apply not_true_iff_false. intro A. rewrite forallb_forall in A. specialize (A _ (in_map _ _ _ I0)). destruct U0. congruence. }
    assert (AS : forallb (u_sat RF) outs = false).
    { apply not_true_iff_false. intro A. rewrite forallb_forall in A. specialize (A _ (in_map _ _ _ I0)). destruct U0. congruence. }
    rewrite AD, AS. rewrite has_invalid, !N.lor_spec, !flag_if_testbit, Hf. cbn [flags_at o_jump o_pers]. rewrite !bit_testbit. destruct pix_clean as [-> ->].
    destruct neq_flags as (A1 & A2 & A3 & A4 & _). rewrite (proj2 (N.eqb_neq _ _) A1), (proj2 (N.eqb_neq _ _) A2), (proj2 (N.eqb_neq _ _) A3), (proj2 (N.eqb_neq _ _) A4), !andb_false_r. cbn [orb].
    cbn [fisnan RF]. rewrite !osum_R.
    set (W := Rsum (map wsum ks)) in *.
    assert (C : forall k, In k ks -> snd (fst (u_con RF (finish_integration RF pow m p mr k))) = wsum k /\ snd (u_con RF (finish_integration RF pow m p mr k)) = s / tg * wsum k).
    { intros k I. destruct (H k (IK k I)) as [P Lin]. destruct (contrib k mr P) as (C1 & C2 & _). destruct (linear_sums s k mr P Lin) as [L1 L2]. unfold finish_integration.
      destruct (fit_integration RF pow m p mr k) as [q c]. cbn [fst snd u_con] in *. split; [rewrite C1; assumption|rewrite C2; assumption]. }
    assert (E1 : Rsum (map (fun u : iout RF => snd (fst (u_con RF u))) outs) = W).
    { unfold outs. rewrite map_map. apply Rsum_map_ext. intros k I. apply C. assumption. }
    assert (E2 : Rsum (map (fun u : iout RF => snd (u_con RF u)) outs) = s / tg * W).
    { unfold outs. rewrite map_map. unfold W. rewrite <- Rsum_scal. apply Rsum_map_ext. intros k I. apply C. assumption. }
    assert (WP : 0 < W).
    { unfold W. apply (Rsum_pos _ _ k0); [intros k I; apply (wsum_nonneg s k), H, IK, I|assumption|]. apply (wsum_nonneg s k0); [apply H; assumption|assumption]. }
    cbn [fmul RF]. match goal with |- ?x * large0 RF (inv_or RF ?y) = _ => change (Rsum (map (fun u : iout RF => snd (u_con RF u)) outs) * large0 RF (inv_or RF (Rsum (map (fun u : iout RF => snd (fst (u_con RF u))) outs))) = s / tg) end.
    rewrite E1, E2. unfold inv_or. cbn [flt fdiv fone fzero RF]. replace (Rltb 0 W) with true by (symmetry; apply Rltb_spec; assumption).
    rewrite large_small by assumption. change (s / tg * W * (1 / W) = s / tg). field. split; [assumption|lra].
  Qed.
End Linear.
