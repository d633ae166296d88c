(** Theorems about the optional results of the OLS fitter: the pedestal (C93). *)
From Verif Require Import Base BaseLemmas FLaws Cas22Model Cas22Spec Cas22Proofs OlsModel OlsSpec OlsProofs OptModel.
From Coq Require Import Reals Lra SpecFloat.
From Verif Require Import RBase Cas22Fit OlsFit OlsErr OlsProps OptProps OptProps2.
Local Open Scope R_scope.

(** * C93: pedestal *)
(** the exposure time of the first group in units of the group time *)
Definition first_time (nframes gap drop : nat) : R := ((INR nframes + 1) / 2 + INR drop) / (INR nframes + INR gap).
Lemma ped_tmp_R m gap drop : ped_tmp RF m gap drop = first_time (m_nframes RF m) gap drop.
Proof. unfold ped_tmp, first_time. rewrite !fnat_R, !plus_INR. reflexivity. Qed.
(** The pedestal extrapolates from the first group with the integration's rate. *)
Theorem C93_formula : forall pow m gap drop nr nc px dnu jump sat pers ngval chg k r c dflt,
  m_f RF m = flags_at dnu jump sat pers ngval chg -> NoDup [dnu; jump; sat; pers; ngval] -> (1 <= m_ng RF m)%nat -> let p := px r c in
  0 < (x_gain RF p : R) -> N.testbit (x_dq RF p) dnu = false -> N.testbit (x_dq RF p) sat = false ->
  (k < m_nints RF m)%nat -> (r < nr)%nat -> (c < nc)%nat -> plain m p k -> segs_of m p k <> [] ->
  exists a, opt_product RF pow m gap drop nr nc px = Some a /\
    r_ped RF a k r c = x_data RF p k 0%nat - q_slope RF (nth k (snd (ols_pixel RF pow m p)) dflt) * first_time (m_nframes RF m) gap drop.
Proof.
  intros pow m gap drop nr nc px dnu jump sat pers ngval chg k r c dflt Hf Hd N1 p Hg Q1 Q2 K Rr C P NE.
  destruct (product_holds RF pow m gap drop nr nc px) as (a & E & _ & _ & H). exists a. split; [exact E|]. destruct (H k r c K Rr C) as (-> & _).
  unfold opt_integration. cbn [n_ped]. fold p.
  assert (S0 : has (x_gdq RF p k 0) (o_sat (m_f RF m)) = false) by (unfold segs_of in NE; destruct (has _ _); [congruence|reflexivity]).
  rewrite (plain_data m p dnu sat N1 (conj Q1 Q2) k 0%nat P S0).
  destruct (contrib pow m p dnu jump sat pers ngval chg Hf Hd N1 Hg (conj Q1 Q2) k (median_rate RF m p) P) as (_ & _ & _ & CC). specialize (CC NE).
  assert (QS : q_slope RF (nth k (snd (ols_pixel RF pow m p)) dflt) = q_slope RF (fst (fit_integration RF pow m p (median_rate RF m p) k))).
  { unfold ols_pixel. rewrite (proj2 (chargeloss_slope m p dnu sat N1 (conj Q1 Q2) _ k dflt (fit_pixel_length RF pow m p) K)). unfold fit_pixel. cbn [snd]. rewrite nth_ints by assumption. unfold finish_integration.
    destruct (fit_integration RF pow m p (median_rate RF m p) k) as [q0 c0]. cbn [fst] in CC |- *. subst q0. cbn [q_dq q_slope u_fit].
    rewrite Hf. cbn [flags_at o_dnu o_sat]. rewrite !has_bit. destruct (int_clean m p dnu jump sat pers ngval chg Hf Hd Hg (conj Q1 Q2) k) as [-> ->]. reflexivity. }
  rewrite QS. rewrite CC. cbn [q_dq q_slope]. rewrite Hf. cbn [flags_at o_dnu o_sat]. rewrite !has_bit. destruct (int_clean m p dnu jump sat pers ngval chg Hf Hd Hg (conj Q1 Q2) k) as [-> ->].
  cbn [fisnan RF fsub fmul]. rewrite ped_tmp_R. reflexivity.
Qed.
Print Assumptions C93_formula.
(** It is the signal at zero exposure time only when a group lasts one second: for a steady source of s counts per group and
    signal P at time zero it is P when the group time is 1; missing: every other group time (see the refutation). *)
Theorem C93_zero_time_partial : forall pow m gap drop nr nc px dnu jump sat pers ngval chg k r c s P0,
  m_f RF m = flags_at dnu jump sat pers ngval chg -> NoDup [dnu; jump; sat; pers; ngval] -> (1 <= m_ng RF m)%nat -> pow_ok pow -> let p := px r c in
  (x_rn RF p : R) <> 0 -> 0 < (x_gain RF p : R) -> N.testbit (x_dq RF p) dnu = false -> N.testbit (x_dq RF p) sat = false ->
  (k < m_nints RF m)%nat -> (r < nr)%nat -> (c < nc)%nat -> plain m p k -> linear m p s k -> segs_of m p k <> [] -> 1 / wsum m p k < 1000000 ->
  (m_tgroup RF m : R) = 1 -> (x_data RF p k 0%nat : R) = P0 + s * first_time (m_nframes RF m) gap drop ->
  exists a, opt_product RF pow m gap drop nr nc px = Some a /\ r_ped RF a k r c = P0.
Proof.
  intros pow m gap drop nr nc px dnu jump sat pers ngval chg k r c s P0 Hf Hd N1 Pok p Hr Hg Q1 Q2 K Rr C P Lin NE W T D.
  set (dflt := {| q_slope := 0 : RF; q_dq := 0%N; q_vp := 0 : RF; q_vr := 0 : RF; q_err := 0 : RF |}).
  destruct (C93_formula pow m gap drop nr nc px dnu jump sat pers ngval chg k r c dflt Hf Hd N1 Hg Q1 Q2 K Rr C P NE) as (a & E & F). exists a. split; [exact E|]. rewrite F.
  fold p. rewrite (C31_integration_slope pow m p dnu jump sat pers ngval chg s k dflt Hf Hd N1 Pok Hr) by (try assumption; change ((m_tgroup RF m : R) <> 0); lra).
  set (d0 := x_data RF p k 0%nat : R) in *. set (t := m_tgroup RF m : R) in *. change (d0 - s / t * first_time (m_nframes RF m) gap drop = P0). rewrite D, T. field.
Qed.
Print Assumptions C93_zero_time_partial.
(** Otherwise not: 1 count/s from zero, groups of 10 s read at 10, 20, 30 s: the pedestal is reported as 9 (it is 0). *)
Theorem C93_units_refuted : exists m p, (forall k, (k < 3)%nat -> (x_data RF p 0 k : R) = 0 + 1 * (m_tgroup RF m * INR (k + 1))) /\
  (m_tgroup RF m : R) = m_tframe RF m * (INR (m_nframes RF m) + 0) /\
  exists a, opt_product RF c_pow m 0 0 1 1 (fun _ _ => p) = Some a /\ r_ped RF a 0%nat 0%nat 0%nat = 9.
Proof.
  set (m := {| m_f := ex_f; m_nints := 1; m_ng := 3; m_tgroup := 10 : RF; m_tframe := 10 : RF; m_nframes := 1; m_sup := false |}). set (p := ex_pix RF [[10; 20; 30]%Z] [[0; 0; 0]%N] 1 1 None None).
  exists m, p. split; [intros k K; assert (k = 0 \/ k = 1 \/ k = 2)%nat as [->|[->| ->]] by lia; cbn; lra|]. split; [cbn; lra|].
  set (dflt := {| q_slope := 0 : RF; q_dq := 0%N; q_vp := 0 : RF; q_vr := 0 : RF; q_err := 0 : RF |}).
  assert (SG : segs_of m p 0 = [(0, 3)%nat]) by (vm_compute; reflexivity). assert (PL : plain m p 0) by (left; reflexivity).
  assert (ND : NoDup [0; 2; 1; 3; 4]%N) by (repeat constructor; cbn; intuition discriminate).
  destruct (C93_formula c_pow m 0 0 1 1 (fun _ _ => p) 0 2 1 3 4 7 0 0 0 dflt eq_refl ND) as (a & E & F); try (cbn; lra); try (cbn; lia); try reflexivity; [exact PL|rewrite SG; discriminate|].
  exists a. split; [exact E|]. rewrite F.
  rewrite (C31_integration_slope c_pow m p 0 2 1 3 4 7 10 0 dflt eq_refl ND); try (cbn; lra); try (cbn; lia); try reflexivity.
  - unfold first_time. cbn. lra.
  - exact c_pow_ok.
  - exact PL.
  - intros g I. rewrite SG in I. destruct I as [<-|[]]. split; [unfold slen; cbn; lia|]. exists 10. intros j J. cbn in J. assert (j = 0 \/ j = 1 \/ j = 2)%nat as [->|[->| ->]] by lia; cbn; lra.
  - rewrite SG. discriminate.
  - unfold wsum. rewrite SG. unfold slen, rn_var. cbn [map fst snd Nat.sub]. rewrite !Rsum_cons, Rsum_nil. cbn [m p ex_pix m_tgroup x_rn x_gain fofZ RF]. cbn [INR]. lra.
Qed.
Print Assumptions C93_units_refuted.
(** saturated in the first group: zero *)
Theorem C93_saturated : forall (fo : FOps) powf m gap drop nr nc px k r c, (1 <= m_ng fo m)%nat -> o_sat (m_f fo m) <> 0%N -> (k < m_nints fo m)%nat -> (r < nr)%nat -> (c < nc)%nat ->
  zf_used fo m (px r c) k = false -> has (x_gdq fo (px r c) k 0) (o_sat (m_f fo m)) = true ->
  exists a, opt_product fo powf m gap drop nr nc px = Some a /\ r_ped fo a k r c = fzero fo.
Proof.
  intros fo powf m gap drop nr nc px k r c N1 Hs K Rr C Z S0. destruct (product_holds fo powf m gap drop nr nc px) as (a & E & _ & _ & H). exists a. split; [exact E|]. destruct (H k r c K Rr C) as (-> & _).
  unfold opt_integration. cbn [n_ped]. destruct (prep_rest fo m (px r c) k) as (G & _). rewrite Z in G.
  assert (Q : has (q_dq fo (fst (fit_integration fo powf m (px r c) (median_rate fo m (px r c)) k))) (o_sat (m_f fo m)) = true).
  { assert (L : forall w, has (N.lor w (o_sat (m_f fo m))) (o_sat (m_f fo m)) = true).
    { intro w. unfold has. apply negb_true_iff, N.eqb_neq. rewrite N.land_lor_distr_l, N.land_diag. intro X. apply N.lor_eq_0_iff in X. tauto. }
    unfold fit_integration. rewrite G, S0. destruct (Z.eqb _ _); cbn [fst q_dq].
    - destruct (Z.eqb _ _); cbn [fst q_dq]; [apply L|]. rewrite <- N.lor_assoc, (N.lor_comm (o_sat _) (o_dnu _)), N.lor_assoc. apply L.
    - rewrite fit_slope_dq. cbn [q_dq]. apply L. }
  rewrite Q. reflexivity.
Qed.
Print Assumptions C93_saturated.
(** flagged DO_NOT_USE: zero, in any arithmetic whose NaN is a NaN *)
Theorem C93_unusable : forall (fo : FOps) (L : FLaws fo) powf m gap drop nr nc px dnu jump sat pers ngval chg k r c dflt,
  fisnan fo (fnan fo) = true -> m_f fo m = flags_at dnu jump sat pers ngval chg -> NoDup [dnu; jump; sat; pers; ngval] -> (1 <= m_ng fo m)%nat ->
  (k < m_nints fo m)%nat -> (r < nr)%nat -> (c < nc)%nat -> N.testbit (q_dq fo (nth k (snd (ols_pixel fo powf m (px r c))) dflt)) dnu = true ->
  exists a, opt_product fo powf m gap drop nr nc px = Some a /\ r_ped fo a k r c = fzero fo.
Proof.
  intros fo L powf m gap drop nr nc px dnu jump sat pers ngval chg k r c dflt NN Hf Hd N1 K Rr C B. destruct (product_holds fo powf m gap drop nr nc px) as (a & E & _ & _ & H). exists a. split; [exact E|]. destruct (H k r c K Rr C) as (-> & _).
  unfold opt_integration. cbn [n_ped].
  assert (Q : has (q_dq fo (fst (fit_integration fo powf m (px r c) (median_rate fo m (px r c)) k))) (o_dnu (m_f fo m)) = true).
  { pose proof (udnu_bit fo powf m (px r c) dnu jump sat pers ngval chg Hf Hd N1 k (median_rate fo m (px r c))) as U.
    assert (W : q_dq fo (nth k (snd (ols_pixel fo powf m (px r c))) dflt) = int_word fo m (px r c) k).
    { pose proof (pixel_words fo powf m (px r c) N1) as PW. assert (Ln : length (snd (ols_pixel fo powf m (px r c))) = m_nints fo m) by (apply (f_equal (@length N)) in PW; rewrite !map_length, seq_length in PW; exact PW).
      transitivity (nth k (map (q_dq fo) (snd (ols_pixel fo powf m (px r c)))) (q_dq fo dflt)); [symmetry; apply map_nth|]. rewrite PW.
      rewrite (nth_indep _ _ (int_word fo m (px r c) 0)) by (rewrite map_length, seq_length; exact K). rewrite (map_nth (int_word fo m (px r c))), seq_nth by exact K. reflexivity. }
    rewrite W in B. rewrite B in U. unfold finish_integration in U. destruct (fit_integration fo powf m (px r c) (median_rate fo m (px r c)) k). exact U. }
  rewrite Q. destruct (has _ (o_sat _)); [reflexivity|]. rewrite (sub_nan_r fo L), ?(mul_nan_l fo L); [reflexivity|]; try exact NN. apply (mul_nan_l fo L). exact NN.
Qed.
Print Assumptions C93_unusable.
(** one frame per group, no gap: a ramp of 10 s groups with a saturated first group, one flagged by its pixel, one good *)
Example C93_example : let m := ex_meta B64 3 1 false in
  let px (r c : nat) := ex_pix B64 [[10; 20; 30]%Z] [if Nat.eqb c 0 then [2; 2; 2]%N else if Nat.eqb c 1 then [1; 1; 1]%N else [0; 0; 0]%N] 1 1 None None in
  option_map (fun a => map (fun c => r_ped B64 a 0 0 c : spec_float) [0; 1; 2]%nat) (opt_product B64 one_pow m 0 0 1 3 px) = Some [Sz 0%Z; Sz 0%Z; Sz 9%Z].
Proof. vm_compute. reflexivity. Qed.
