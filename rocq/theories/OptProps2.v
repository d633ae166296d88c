(** Theorems about the optional results of the OLS fitter: intercepts and uncertainties (C92, C95). *)
From Verif Require Import Base BaseLemmas FLaws Cas22Model Cas22Spec Cas22Proofs OlsModel OlsSpec OlsProofs OptModel.
From Coq Require Import Reals Lra SpecFloat.
From Verif Require Import RBase Cas22Fit OlsFit OlsErr OlsProps OptProps.
Local Open Scope R_scope.

(** ** Specification: the weighting of the groups of a segment *)
(** signal to noise of the rise over a segment *)
Definition snr_spec (rn gain rise : R) : R :=
  let v := rn * rn + rise * gain in
  if Rle_dec v 0 then 0 else if Req_EM_T gain 0 then 0 else Rmax 0 (rise * gain / sqrt v).
Definition power_spec (s : R) : R :=
  if Rlt_dec s 5 then 0 else if Rlt_dec s 10 then 2 / 5 else if Rlt_dec s 20 then 1 else if Rlt_dec s 50 then 3 else if Rlt_dec s 100 then 6 else 10.
(** weight of group k of the segment [a, b) *)
Definition group_weight (pow : R -> R -> R) (P rn : R) (a b k : nat) : R :=
  let mid := (INR a + INR (b - 1)) / 2 in pow (Rabs ((INR k - mid) / ((INR (b - 1) - INR a) / 2))) P / (rn * rn).
(** the weighted sum of squared deviations of the groups of [g] from the line c + s k *)
Definition chi2 (w y : nat -> R) (g : nat * nat) (c s : R) : R :=
  Rsum (map (fun k => w k * ((y k - (c + s * INR k)) * (y k - (c + s * INR k)))) (seq (fst g) (snd g - fst g))).

(** ** Weighted least squares *)
Lemma wls_min {A} (w x y : A -> R) l c s :
  (forall k, In k l -> 0 <= w k) ->
  Rsum (map (fun k => w k * (y k - (c + s * x k))) l) = 0 -> Rsum (map (fun k => w k * x k * (y k - (c + s * x k))) l) = 0 ->
  forall c' s', Rsum (map (fun k => w k * ((y k - (c + s * x k)) * (y k - (c + s * x k)))) l) <= Rsum (map (fun k => w k * ((y k - (c' + s' * x k)) * (y k - (c' + s' * x k)))) l).
Proof.
  intros W E0 E1 c' s'.
  rewrite (Rsum_ext (fun k => w k * ((y k - (c' + s' * x k)) * (y k - (c' + s' * x k))))
    (fun k => (w k * ((y k - (c + s * x k)) * (y k - (c + s * x k))) + (2 * (c - c') * (w k * (y k - (c + s * x k))) + 2 * (s - s') * (w k * x k * (y k - (c + s * x k))))) +
              w k * (((c - c') + (s - s') * x k) * ((c - c') + (s - s') * x k)))) by (intros; ring).
  rewrite !Rsum_plus, !Rsum_scal, E0, E1.
  assert (0 <= Rsum (map (fun k => w k * (((c - c') + (s - s') * x k) * ((c - c') + (s - s') * x k))) l)); [|lra].
  apply Rsum_nonneg. intros k I. apply Rmult_le_pos; [apply W; assumption|apply Rle_0_sqr].
Qed.
Lemma wls_normal {A} (w x y : A -> R) l :
  let S h := Rsum (map h l) in
  let sw := S w in let sx := S (fun k => x k * w k) in let sxx := S (fun k => x k * (x k * w k)) in
  let sy := S (fun k => y k * w k) in let sxy := S (fun k => y k * (x k * w k)) in
  let den := sw * sxx - sx * sx in den <> 0 ->
  let c := (sxx * sy - sx * sxy) * (1 / den) in let s := (sw * sxy - sx * sy) * (1 / den) in
  S (fun k => w k * (y k - (c + s * x k))) = 0 /\ S (fun k => w k * x k * (y k - (c + s * x k))) = 0.
Proof.
  intros S sw sx sxx sy sxy den D c s. unfold S. split.
  - rewrite (Rsum_ext _ (fun k => y k * w k + ((- c) * w k + (- s) * (x k * w k)))) by (intros; ring). rewrite !Rsum_plus, !Rsum_scal. fold (S w) (S (fun k => x k * w k)) (S (fun k => y k * w k)). fold sw sx sy.
    unfold c, s. unfold den in *. field. assumption.
  - rewrite (Rsum_ext _ (fun k => y k * (x k * w k) + ((- c) * (x k * w k) + (- s) * (x k * (x k * w k))))) by (intros; ring). rewrite !Rsum_plus, !Rsum_scal.
    fold (S (fun k => x k * w k)) (S (fun k => x k * (x k * w k))) (S (fun k => y k * (x k * w k))). fold sx sxx sxy. unfold c, s. unfold den in *. field. assumption.
Qed.

Section Seg.
  Variable pow : R -> R -> R.
  Variable m : ometa RF.
  Variable p : opix RF.
  Notation tg := (m_tgroup RF m : R). Notation rn := (x_rn RF p : R). Notation gn := (x_gain RF p : R).
  Hypothesis Pok : pow_ok pow.
  Hypothesis Hr : rn <> 0.
  Hypothesis Ht : tg <> 0.
  Variable i : iprep RF.
  Notation y k := (i_data RF i k : R).
  (** the exponent used for a segment *)
  Definition seg_power (g : nat * nat) : R := power_spec (snr_spec rn gn (y (snd g - 1)%nat - y (fst g))).
  Lemma power_eq (s : R) : snr_power RF s = power_spec s.
  Proof.
    unfold snr_power, power_spec. cbn [flt RF fofZ fdiv fone fzero]. unfold Rltb.
    repeat match goal with |- context [Rlt_dec ?a ?b] => destruct (Rlt_dec a b) end; try reflexivity. toR. lra.
  Qed.
  Lemma snr_eq g : segment_snr RF p i g = snr_spec rn gn (y (snd g - 1)%nat - y (fst g)).
  Proof.
    unfold segment_snr, snr_spec. cbn [fle feq flt fsub fadd fmul fdiv fsqrt fzero RF]. set (rise := (i_data RF i (snd g - 1)%nat - i_data RF i (fst g))). change (rise : RF) with (rise : R).
    unfold Rleb, Reqb, Rltb. destruct (Rle_dec _ 0); cbn [orb]; [reflexivity|]. destruct (Req_EM_T _ 0); [reflexivity|]. destruct (Rlt_dec _ 0) as [L|L].
    - unfold Rmax. destruct (Rle_dec 0 _); [lra|reflexivity].
    - unfold Rmax. destruct (Rle_dec 0 _); [reflexivity|lra].
  Qed.
  Lemma weight_eq g k : (2 <= slen g)%nat -> o_weight RF pow p (seg_power g) g k = group_weight pow (seg_power g) rn (fst g) (snd g) (fst g + k).
  Proof.
    intro L. unfold o_weight, group_weight. fold (slen g). rewrite !fnat_R. cbn [fabs fmul fsub fdiv fone fofZ RF].
    assert (E : INR (snd g - 1) = INR (fst g) + INR (slen g - 1)) by (rewrite <- plus_INR; f_equal; unfold slen in *; lia).
    assert (Q : INR (slen g - 1) <> 0) by (apply not_0_INR; lia). rewrite E, plus_INR.
    replace ((INR k - INR (slen g - 1) / 2) * (1 / (INR (slen g - 1) / 2))) with ((INR (fst g) + INR k - (INR (fst g) + (INR (fst g) + INR (slen g - 1))) / 2) / ((INR (fst g) + INR (slen g - 1) - INR (fst g)) / 2)) by (field; assumption).
    toR. unfold Rdiv. ring.
  Qed.
  Notation gw g := (group_weight pow (seg_power g) rn (fst g) (snd g)).
  Lemma gw_facts g : (2 <= slen g)%nat -> (forall k, 0 <= gw g k) /\ 0 < gw g (fst g) /\ 0 < gw g (snd g - 1).
  Proof.
    intro L. destruct Pok as [P0 P1]. assert (Q : 0 < rn * rn) by (apply Rlt_0_sqr; exact Hr). assert (E : INR (snd g - 1) = INR (fst g) + INR (slen g - 1)) by (rewrite <- plus_INR; f_equal; unfold slen in *; lia).
    assert (Z : 0 < INR (slen g - 1)) by (apply lt_0_INR; lia). unfold group_weight. rewrite E.
    split; [intro k; apply Rmult_le_pos; [apply P0, Rabs_pos|left; apply Rinv_0_lt_compat; exact Q]|]. split.
    - replace ((INR (fst g) - (INR (fst g) + (INR (fst g) + INR (slen g - 1))) / 2) / ((INR (fst g) + INR (slen g - 1) - INR (fst g)) / 2)) with (- (1)) by (field; lra). rewrite Rabs_Ropp, Rabs_R1, P1. apply Rdiv_lt_0_compat; lra.
    - replace ((INR (fst g) + INR (slen g - 1) - (INR (fst g) + (INR (fst g) + INR (slen g - 1))) / 2) / ((INR (fst g) + INR (slen g - 1) - INR (fst g)) / 2)) with 1 by (field; lra). rewrite Rabs_R1, P1. apply Rdiv_lt_0_compat; lra.
  Qed.
  Lemma reindex (h : nat -> R) g : Rsum (map h (seq (fst g) (slen g))) = Rsum (map (fun k => h (fst g + k)%nat) (seq 0 (slen g))).
  Proof.
    f_equal. rewrite <- (map_map (fun k => (fst g + k)%nat) h). f_equal. generalize (slen g) as n. intro n.
    replace (seq (fst g) n) with (seq (fst g + 0) n) by (f_equal; lia). generalize 0%nat as s. induction n as [|n IH]; intro s; [reflexivity|]. cbn [seq map]. f_equal. rewrite <- IH. f_equal. lia.
  Qed.
  Section Sums.
    Variable g : nat * nat.
    Hypothesis L3 : (3 <= slen g)%nat.
    Let l := seq (fst g) (slen g).
    Let sw := Rsum (map (gw g) l).
    Let sx := Rsum (map (fun k => INR k * gw g k) l).
    Let sxx := Rsum (map (fun k => INR k * (INR k * gw g k)) l).
    Let sy := Rsum (map (fun k => y k * gw g k) l).
    Let sxy := Rsum (map (fun k => y k * (INR k * gw g k)) l).
    Let den := sw * sxx - sx * sx.
    Lemma default_sums mr : e_slope RF (opt_default RF pow m p i mr g) = (sw * sxy - sx * sy) * (1 / den) / tg /\
      e_yint RF (opt_default RF pow m p i mr g) = (sxx * sy - sx * sxy) * (1 / den) /\
      e_sigslope RF (opt_default RF pow m p i mr g) = sqrt (sw * (1 / den)) /\ e_sigyint RF (opt_default RF pow m p i mr g) = sqrt (sxx * (1 / den)).
    Proof.
      set (w := o_weight RF pow p (seg_power g) g : nat -> R). set (x := o_x RF g : nat -> R). set (yy := o_y RF i g : nat -> R).
      assert (X : forall k, x k = INR (fst g + k)) by (intro k; unfold x, o_x; rewrite !fnat_R, plus_INR; cbn [fadd RF]; apply Rplus_comm).
      assert (W : forall k, w k = gw g (fst g + k)%nat) by (intro k; apply weight_eq; lia).
      assert (Y : forall k, yy k = y (fst g + k)%nat) by (intro k; reflexivity).
      assert (A1 : Rsum (map w (seq 0 (slen g))) = sw) by (unfold sw, l; rewrite reindex; apply Rsum_ext; intros; apply W).
      assert (A2 : Rsum (map (fun k => x k * w k) (seq 0 (slen g))) = sx) by (unfold sx, l; rewrite reindex; apply Rsum_ext; intros; rewrite X, W; reflexivity).
      assert (A3 : Rsum (map (fun k => x k * (x k * w k)) (seq 0 (slen g))) = sxx) by (unfold sxx, l; rewrite reindex; apply Rsum_ext; intros; rewrite X, W; reflexivity).
      assert (A4 : Rsum (map (fun k => yy k * w k) (seq 0 (slen g))) = sy) by (unfold sy, l; rewrite reindex; apply Rsum_ext; intros; rewrite Y, W; reflexivity).
      assert (A5 : Rsum (map (fun k => yy k * (x k * w k)) (seq 0 (slen g))) = sxy) by (unfold sxy, l; rewrite reindex; apply Rsum_ext; intros; rewrite X, Y, W; reflexivity).
      assert (PW : snr_power RF (segment_snr RF p i g) = seg_power g) by (rewrite power_eq, snr_eq; reflexivity).
      set (l0 := seq 0 (slen g)) in *.
      assert (FD : e_slope RF (opt_default RF pow m p i mr g) =
          (Rsum (map w l0) * Rsum (map (fun k => yy k * (x k * w k)) l0) - Rsum (map (fun k => x k * w k) l0) * Rsum (map (fun k => yy k * w k) l0)) *
          (1 / (Rsum (map w l0) * Rsum (map (fun k => x k * (x k * w k)) l0) - Rsum (map (fun k => x k * w k) l0) * Rsum (map (fun k => x k * w k) l0))) / tg /\
        e_yint RF (opt_default RF pow m p i mr g) =
          (Rsum (map (fun k => x k * (x k * w k)) l0) * Rsum (map (fun k => yy k * w k) l0) - Rsum (map (fun k => x k * w k) l0) * Rsum (map (fun k => yy k * (x k * w k)) l0)) *
          (1 / (Rsum (map w l0) * Rsum (map (fun k => x k * (x k * w k)) l0) - Rsum (map (fun k => x k * w k) l0) * Rsum (map (fun k => x k * w k) l0))) /\
        e_sigslope RF (opt_default RF pow m p i mr g) = sqrt (Rsum (map w l0) *
          (1 / (Rsum (map w l0) * Rsum (map (fun k => x k * (x k * w k)) l0) - Rsum (map (fun k => x k * w k) l0) * Rsum (map (fun k => x k * w k) l0)))) /\
        e_sigyint RF (opt_default RF pow m p i mr g) = sqrt (Rsum (map (fun k => x k * (x k * w k)) l0) *
          (1 / (Rsum (map w l0) * Rsum (map (fun k => x k * (x k * w k)) l0) - Rsum (map (fun k => x k * w k) l0) * Rsum (map (fun k => x k * w k) l0))))).
      { unfold opt_default, fit_default. rewrite PW. cbn [e_slope e_yint e_sigslope e_sigyint g_slope]. rewrite !osum_R. repeat split. }
      rewrite A1, A2, A3, A4, A5 in FD. exact FD.
    Qed.
    Lemma den_pos : 0 < den.
    Proof.
      destruct (gw_facts g ltac:(lia)) as (W0 & Wa & Wb). pose proof (det_pos (gw g) INR l (fst g) (snd g - 1)%nat) as DP.
      unfold den, sw, sx, sxx. rewrite (Rsum_ext (fun k => INR k * (INR k * gw g k)) (fun k => gw g k * (INR k * INR k))) by (intros; ring). rewrite (Rsum_ext (fun k => INR k * gw g k) (fun k => gw g k * INR k)) by (intros; ring).
      rewrite (Rmult_comm (Rsum (map (gw g) l))). apply DP; [intros; apply W0| | |assumption|assumption|].
      - apply in_seq. unfold slen in *. lia.
      - apply in_seq. unfold slen in *. lia.
      - intro E. apply INR_eq in E. unfold slen in *. lia.
    Qed.
    Lemma default_min mr c s : let e := opt_default RF pow m p i mr g in chi2 (gw g) (fun k => y k) g (e_yint RF e) (e_slope RF e * tg) <= chi2 (gw g) (fun k => y k) g c s.
    Proof.
      intro e. destruct (default_sums mr) as (Es & Ey & _). unfold e, chi2. fold (slen g). fold l. pose proof den_pos as D.
      destruct (wls_normal (gw g) INR (fun k => y k) l) as [E0 E1]; [change (den <> 0); lra|].
      rewrite Es, Ey. replace ((sw * sxy - sx * sy) * (1 / den) / tg * tg) with ((sw * sxy - sx * sy) * (1 / den)) by (field; split; [lra|assumption]).
      apply (wls_min (gw g) INR (fun k => y k) l); [intros; apply gw_facts; lia|exact E0|exact E1].
    Qed.
    Lemma default_sigs mr : let e := opt_default RF pow m p i mr g in
      let xm := sx / sw in e_sigslope RF e * e_sigslope RF e * Rsum (map (fun k => gw g k * ((INR k - xm) * (INR k - xm))) l) = 1 /\
      e_sigyint RF e * e_sigyint RF e = e_sigslope RF e * e_sigslope RF e * (sxx / sw).
    Proof.
      intros e xm. destruct (default_sums mr) as (_ & _ & Es & Ei). unfold e. rewrite Es, Ei. pose proof den_pos as D. destruct (gw_facts g ltac:(lia)) as (W0 & Wa & _).
      assert (Sp : 0 < sw) by (apply (Rsum_pos _ l (fst g)); [intros; apply W0|apply in_seq; unfold slen in *; lia|assumption]).
      assert (Sxx : 0 <= sxx) by (apply Rsum_nonneg; intros k _; pose proof (W0 k); pose proof (pos_INR k); apply Rmult_le_pos; [assumption|apply Rmult_le_pos; assumption]).
      assert (ID : 0 < 1 / den) by (apply Rdiv_lt_0_compat; lra).
      rewrite !sqrt_sqrt by (apply Rmult_le_pos; lra). split; [|field; lra].
      rewrite (Rsum_ext _ (fun k => INR k * (INR k * gw g k) + ((- 2 * xm) * (INR k * gw g k) + (xm * xm) * gw g k))) by (intros; ring).
      rewrite !Rsum_plus, !Rsum_scal. fold sw sx sxx. unfold xm. unfold den in *. field. split; lra.
    Qed.
  End Sums.
End Seg.

(** * C92: intercepts *)
(** Slope and intercept of a segment of two or more groups are those of the weighted least squares line; the intercept is
    its value at the first group of the ramp (abscissa 0). *)
Theorem C92_least_squares : forall pow m p i mr g, pow_ok pow -> (x_rn RF p : R) <> 0 -> (m_tgroup RF m : R) <> 0 -> (2 <= snd g - fst g)%nat ->
  let e := opt_segment RF pow m p i mr g in
  let w := group_weight pow (power_spec (snr_spec (x_rn RF p) (x_gain RF p) (i_data RF i (snd g - 1)%nat - i_data RF i (fst g)))) (x_rn RF p) (fst g) (snd g) in
  let y k := i_data RF i k : R in
  forall c s, chi2 w y g (e_yint RF e) (e_slope RF e * m_tgroup RF m) <= chi2 w y g c s.
Proof.
  intros pow m p i mr g Pok Hr Ht L e w y c s. destruct (gw_facts pow p Pok Hr i g L) as (W0 & _). fold (seg_power p i g) in w. change (forall k, 0 <= w k) in W0.
  unfold e, opt_segment. destruct (Nat.eqb_spec 1 (snd g - fst g)) as [|_]; [lia|]. destruct (Nat.eqb_spec 2 (snd g - fst g)) as [E|E].
  - unfold chi2. rewrite <- E. cbn [seq map]. rewrite !Rsum_cons, !Rsum_nil. cbn [opt_len2 fit_len2 e_yint e_slope g_slope]. rewrite !fnat_R. cbn [fadd fsub fmul fdiv fone RF]. unfold y. replace (S (fst g)) with (fst g + 1)%nat by lia. rewrite plus_INR. cbn [INR].
    set (u := i_data RF i (fst g) : R). set (v := i_data RF i (fst g + 1)%nat : R). change (i_data RF i (fst g)) with u. change (i_data RF i (fst g + 1)%nat) with v.
    set (x := INR (fst g)). set (t := m_tgroup RF m : R) in *. change (m_tgroup RF m) with t.
    replace (u - (v * (1 - (x + 1)) + u * (x + 1) + (v - u) / t * t * x)) with 0 by (field; assumption).
    replace (v - (v * (1 - (x + 1)) + u * (x + 1) + (v - u) / t * t * (x + 1))) with 0 by (field; assumption).
    pose proof (W0 (fst g)). pose proof (W0 (fst g + 1)%nat). pose proof (Rle_0_sqr (u - (c + s * x))). pose proof (Rle_0_sqr (v - (c + s * (x + 1)))). unfold Rsqr in *.
    pose proof (Rmult_le_pos _ _ H H1). pose proof (Rmult_le_pos _ _ H0 H2). lra.
  - apply (default_min pow m p Pok Hr Ht i g); unfold slen; lia.
Qed.
Print Assumptions C92_least_squares.
(** a segment on a straight line returns that line *)
Theorem C92_exact : forall pow m p i mr g a b, pow_ok pow -> (x_rn RF p : R) <> 0 -> (m_tgroup RF m : R) <> 0 -> (2 <= snd g - fst g)%nat ->
  (forall k, (fst g <= k < snd g)%nat -> (i_data RF i k : R) = a + b * INR k) ->
  let e := opt_segment RF pow m p i mr g in e_yint RF e = a /\ e_slope RF e * m_tgroup RF m = b.
Proof.
  intros pow m p i mr g a b Pok Hr Ht L D e. pose proof (C92_least_squares pow m p i mr g Pok Hr Ht L a b) as M. cbv zeta in M. fold e in M.
  destruct (gw_facts pow p Pok Hr i g L) as (W0 & Wa & Wb). fold (seg_power p i g) in M. set (w := group_weight pow (seg_power p i g) (x_rn RF p) (fst g) (snd g)) in *.
  set (c := e_yint RF e : R) in *. set (s := e_slope RF e * m_tgroup RF m) in *. unfold chi2 in M. set (l := seq (fst g) (snd g - fst g)) in M.
  rewrite (Rsum_ext (fun k => w k * ((i_data RF i k - (a + b * INR k)) * (i_data RF i k - (a + b * INR k)))) (fun _ => 0)) in M; [|intros k I; apply in_seq in I; rewrite D by lia; ring].
  rewrite Rsum_const, Rmult_0_r in M.
  assert (Q : forall k, In k l -> 0 < w k -> a + b * INR k = c + s * INR k).
  { intros k I Wk. destruct (Req_EM_T (a + b * INR k) (c + s * INR k)) as [|N]; [assumption|exfalso].
    assert (P : 0 < Rsum (map (fun k => w k * ((i_data RF i k - (c + s * INR k)) * (i_data RF i k - (c + s * INR k)))) l)).
    { apply (Rsum_pos _ l k); [intros j _; apply Rmult_le_pos; [apply W0|apply Rle_0_sqr]|assumption|]. apply Rmult_lt_0_compat; [assumption|]. apply Rlt_0_sqr. apply in_seq in I. rewrite D by lia. lra. }
    lra. }
  assert (Q1 := Q (fst g) ltac:(apply in_seq; lia) Wa). assert (Q2 := Q (snd g - 1)%nat ltac:(apply in_seq; lia) Wb).
  assert (Lt : INR (fst g) < INR (snd g - 1)) by (apply lt_INR; lia).
  assert (Z : (b - s) * (INR (snd g - 1) - INR (fst g)) = 0) by lra. apply Rmult_integral in Z. assert (b = s) by lra. split; [|symmetry; assumption].
  toR. subst b. lra.
Qed.
Print Assumptions C92_exact.
(** a one-group segment stores no intercept and no uncertainties *)
Theorem C92_one_group : forall (fo : FOps) powf m p i mr g, (snd g - fst g = 1)%nat ->
  let e := opt_segment fo powf m p i mr g in e_yint fo e = fzero fo /\ e_sigyint fo e = fzero fo /\ e_sigslope fo e = fzero fo.
Proof. intros fo powf m p i mr g E e. unfold e, opt_segment. rewrite E. repeat split. Qed.
Print Assumptions C92_one_group.
(** The intercept is not the signal at zero exposure time: a source of 1 count/s read after 10, 20 and 30 s. *)
Theorem C92_zero_time_refuted : exists m p, (forall k, (k < 3)%nat -> (x_data RF p 0 k : R) = 0 + 1 * (m_tgroup RF m * INR (k + 1))) /\
  (m_tgroup RF m : R) = m_tframe RF m /\ m_nframes RF m = 1%nat /\ segs_of m p 0 = [(0, 3)%nat] /\
  forall mr, e_slope RF (opt_segment RF c_pow m p (prep RF m p 0) mr (0, 3)%nat) = 1 /\ e_yint RF (opt_segment RF c_pow m p (prep RF m p 0) mr (0, 3)%nat) = 10.
Proof.
  exists {| m_f := ex_f; m_nints := 1; m_ng := 3; m_tgroup := 10 : RF; m_tframe := 10 : RF; m_nframes := 1; m_sup := false |}, (ex_pix RF [[10; 20; 30]%Z] [[0; 0; 0]%N] 1 1 None None).
  split; [intros k K; assert (k = 0 \/ k = 1 \/ k = 2)%nat as [->|[->| ->]] by lia; cbn; lra|]. split; [reflexivity|]. split; [reflexivity|]. split; [vm_compute; reflexivity|]. intro mr.
  match goal with |- e_slope RF (opt_segment RF c_pow ?m ?p ?i mr ?g) = _ /\ _ => destruct (C92_exact c_pow m p i mr g 10 10 c_pow_ok) as [A B] end; try (cbn; lra); [cbn; lia| |].
  - intros k K. cbn in K. assert (k = 0 \/ k = 1 \/ k = 2)%nat as [->|[->| ->]] by lia; cbn; lra.
  - split; [|exact A]. change (m_tgroup RF _) with 10 in B. toR. lra.
Qed.
Print Assumptions C92_zero_time_refuted.
Example C92_example : let m := ex_meta RF 6 1 false in let p := ex_pix RF [[5; 8; 60; 63; 66; 69]%Z] [[0; 0; 4; 0; 0; 0]%N] 1 1 None None in
  segs_of m p 0 = [(0, 2); (2, 6)]%nat /\ pow_ok c_pow /\ forall k, (2 <= k < 6)%nat -> (i_data RF (prep RF m p 0) k : R) = 54 + 3 * INR k.
Proof.
  intros m p. split; [vm_compute; reflexivity|]. split; [exact c_pow_ok|]. intros k K. assert (k = 2 \/ k = 3 \/ k = 4 \/ k = 5)%nat as [->|[->|[->| ->]]] by lia; cbn; lra.
Qed.

(** * C95: uncertainties *)
(** SIGSLOPE of three or more groups is the standard error, per group, of the weighted slope when the weights are inverse
    variances; SIGYINT the one of the intercept *)
Theorem C95_sigmas : forall pow m p i mr g, pow_ok pow -> (x_rn RF p : R) <> 0 -> (3 <= snd g - fst g)%nat ->
  let e := opt_segment RF pow m p i mr g in
  let w := group_weight pow (power_spec (snr_spec (x_rn RF p) (x_gain RF p) (i_data RF i (snd g - 1)%nat - i_data RF i (fst g)))) (x_rn RF p) (fst g) (snd g) in
  let l := seq (fst g) (snd g - fst g) in
  let sw := Rsum (map w l) in let xm := Rsum (map (fun k => INR k * w k) l) / sw in
  e_sigslope RF e * e_sigslope RF e * Rsum (map (fun k => w k * ((INR k - xm) * (INR k - xm))) l) = 1 /\
  e_sigyint RF e * e_sigyint RF e = e_sigslope RF e * e_sigslope RF e * (Rsum (map (fun k => INR k * (INR k * w k)) l) / sw).
Proof.
  intros pow m p i mr g Pok Hr L e. unfold e, opt_segment. destruct (Nat.eqb_spec 1 (snd g - fst g)) as [|_]; [lia|]. destruct (Nat.eqb_spec 2 (snd g - fst g)) as [|_]; [lia|].
  apply (default_sigs pow m p Pok Hr i g); exact L.
Qed.
Print Assumptions C95_sigmas.
Theorem C95_two_groups : forall pow m p i mr g, (snd g - fst g = 2)%nat ->
  let e := opt_segment RF pow m p i mr g in e_sigslope RF e = e_sigyint RF e /\ Rabs (e_sigslope RF e - sqrt 2 * x_rn RF p) <= 3 / 1000000000 * Rabs (x_rn RF p).
Proof.
  intros pow m p i mr g L e. unfold e, opt_segment. rewrite L. cbn [Nat.eqb opt_len2 e_sigslope e_sigyint]. split; [reflexivity|].
  unfold sqrt2. cbn [fdiv fmul fofZ RF]. set (r := x_rn RF p : R). change (x_rn RF p) with r.
  replace (141421356 / 100000000 * r - sqrt 2 * r) with ((141421356 / 100000000 - sqrt 2) * r) by ring. rewrite Rabs_mult. apply Rmult_le_compat_r; [apply Rabs_pos|].
  assert (A : 141421356 / 100000000 <= sqrt 2) by (apply Rsqr_incr_0_var; [unfold Rsqr; rewrite sqrt_sqrt by lra; lra|apply sqrt_pos]).
  assert (B : sqrt 2 <= 1414213563 / 1000000000) by (apply Rsqr_incr_0_var; [unfold Rsqr; rewrite sqrt_sqrt by lra; lra|lra]).
  rewrite Rabs_left1 by lra. lra.
Qed.
Print Assumptions C95_two_groups.
(** SIGSLOPE ignores the group time, SLOPE does not: they are in different units. *)
Definition with_tgroup (m : ometa RF) (t : R) : ometa RF :=
  {| m_f := m_f RF m; m_nints := m_nints RF m; m_ng := m_ng RF m; m_tgroup := t : RF; m_tframe := m_tframe RF m; m_nframes := m_nframes RF m; m_sup := m_sup RF m |}.
Lemma unit_cancel (u t : R) : t <> 0 -> u / t * t = u.
Proof. intro H. field. exact H. Qed.
Theorem C95_units : forall pow m p i mr mr' g t, (2 <= snd g - fst g)%nat -> (m_tgroup RF m : R) <> 0 -> t <> 0 ->
  let e := opt_segment RF pow m p i mr g in let e' := opt_segment RF pow (with_tgroup m t) p i mr' g in
  e_sigslope RF e' = e_sigslope RF e /\ e_slope RF e' * t = e_slope RF e * m_tgroup RF m.
Proof.
  intros pow m p i mr mr' g t L Ht Tt e e'. unfold e, e', opt_segment. destruct (Nat.eqb_spec 1 (snd g - fst g)) as [|_]; [lia|].
  destruct (Nat.eqb 2 (snd g - fst g)).
  - split; [reflexivity|]. cbn [opt_len2 fit_len2 e_slope g_slope with_tgroup m_tgroup fdiv RF]. set (u := i_data RF i (fst g + 1)%nat - i_data RF i (fst g)). change (u / t * t = u / m_tgroup RF m * m_tgroup RF m). transitivity u; [field; assumption|symmetry; apply (unit_cancel u (m_tgroup RF m)); exact Ht].
  - split; [reflexivity|]. cbn [opt_default fit_default e_slope g_slope with_tgroup m_tgroup]. match goal with |- context [fmul RF ?a (fdiv RF ?b ?c)] => set (u := fmul RF a (fdiv RF b c) : R) end.
    change (u / t * t = u / m_tgroup RF m * m_tgroup RF m). transitivity u; [field; assumption|symmetry; apply (unit_cancel u (m_tgroup RF m)); exact Ht].
Qed.
Print Assumptions C95_units.
Theorem C95_units_refuted : exists pow m m' p g mr, let i := prep RF m p 0 in segs_of m p 0 = [g] /\
  e_slope RF (opt_segment RF pow m' p i mr g) = 10 * e_slope RF (opt_segment RF pow m p i mr g) /\ e_slope RF (opt_segment RF pow m p i mr g) <> 0 /\
  e_sigslope RF (opt_segment RF pow m' p i mr g) = e_sigslope RF (opt_segment RF pow m p i mr g) /\ e_sigslope RF (opt_segment RF pow m p i mr g) <> 0.
Proof.
  exists c_pow, (ex_meta RF 2 1 false), (with_tgroup (ex_meta RF 2 1 false) 1), (ex_pix RF [[5; 8]%Z] [[0; 0]%N] 1 1 None None), (0, 2)%nat, 0. cbv zeta.
  split; [vm_compute; reflexivity|]. cbn. repeat split; lra.
Qed.
Print Assumptions C95_units_refuted.
Example C95_example : let m := ex_meta RF 3 1 false in let p := ex_pix RF [[5; 8; 9]%Z] [[0; 0; 0]%N] 1 2 None None in segs_of m p 0 = [(0, 3)%nat] /\ pow_ok c_pow /\ (x_rn RF p : R) <> 0 /\ (m_tgroup RF m : R) <> 0.
Proof. intros m p. split; [vm_compute; reflexivity|]. split; [exact c_pow_ok|]. cbn. lra. Qed.

