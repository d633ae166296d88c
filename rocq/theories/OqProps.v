(** C140: the exposure's rate and read-noise variance against those of its integrations. *)
From Coq Require Import Reals Lra Lia.
From Verif Require Import Base BaseLemmas RBase Cas22Model Cas22Spec Cas22Proofs Cas22Fit OlsModel OlsSpec OlsProofs OlsFit OlsErr OlsProps.
Local Open Scope R_scope.

Lemma Rsum_member_le {A} (f : A -> R) l x : (forall y, In y l -> 0 < f y) -> In x l -> f x <= Rsum (map f l).
Proof. intros P I. apply (Rsum_ge_member f l x); [intros y Y; apply Rlt_le, P, Y|exact I]. Qed.
Lemma Rsum_two {A} (f : A -> R) l x y : (forall z, In z l -> 0 < f z) -> In x l -> In y l -> x <> y -> f x < Rsum (map f l).
Proof.
  induction l as [|z l IH]; intros P I J N; [destruct I|]. cbn [map]. rewrite Rsum_cons. assert (P' : forall w, In w l -> 0 < f w) by (intros w W; apply P; right; exact W). pose proof (P z (or_introl eq_refl)) as Z. destruct I as [<-|I].
  - destruct J as [->|J]; [congruence|]. pose proof (Rsum_member_le f l y P' J). pose proof (P' y J). lra.
  - pose proof (Rsum_member_le f l x P' I). lra.
Qed.
Lemma mean_between {A} (s v : A -> R) l lo hi : l <> [] -> (forall k, In k l -> 0 < v k /\ lo <= s k <= hi) ->
  let w := Rsum (map (fun k => 1 / v k) l) in 0 < w /\ lo <= Rsum (map (fun k => s k / v k) l) / w <= hi.
Proof.
  intros N H. cbv zeta. assert (P : forall k, In k l -> 0 < 1 / v k) by (intros k I; apply Rdiv_lt_0_compat; [lra|apply H, I]). destruct l as [|a l]; [congruence|]. set (q := a :: l) in *.
  assert (W : 0 < Rsum (map (fun k => 1 / v k) q)). { pose proof (Rsum_member_le (fun k => 1 / v k) q a P (or_introl eq_refl)). pose proof (P a (or_introl eq_refl)). lra. }
  assert (B1 : lo * Rsum (map (fun k => 1 / v k) q) <= Rsum (map (fun k => s k / v k) q)) by (rewrite <- Rsum_scal; apply Rsum_le; intros k I; destruct (H k I) as [V [L _]]; pose proof (P k I); unfold Rdiv in *; rewrite Rmult_1_l in *; apply Rmult_le_compat_r; lra).
  assert (B2 : Rsum (map (fun k => s k / v k) q) <= hi * Rsum (map (fun k => 1 / v k) q)) by (rewrite <- Rsum_scal; apply Rsum_le; intros k I; destruct (H k I) as [V [_ L]]; pose proof (P k I); unfold Rdiv in *; rewrite Rmult_1_l in *; apply Rmult_le_compat_r; lra).
  set (w := Rsum (map (fun k => 1 / v k) q)) in *. set (t := Rsum (map (fun k => s k / v k) q)) in *. split; [exact W|]. split; apply (Rmult_le_reg_r w); try exact W; unfold Rdiv; rewrite Rmult_assoc, Rinv_l, Rmult_1_r by lra; assumption.
Qed.

(** the rate of the exposure lies between the rates of its fitted integrations, and its read-noise variance is not above that of any of them,
    below it when there are others *)
Theorem C140_between : forall pow m p dnu jump sat pers ngval chg dflt lo hi,
  m_f RF m = flags_at dnu jump sat pers ngval chg -> NoDup [dnu; jump; sat; pers; ngval] -> (1 <= m_ng RF m)%nat ->
  (x_rn RF p <> 0)%R -> (0 < (m_tgroup RF m : R))%R -> (0 < (m_tframe RF m : R))%R -> (0 < (x_gain RF p : R))%R -> (0 <= (x_dark RF p : R))%R ->
  N.testbit (x_dq RF p) dnu = false -> N.testbit (x_dq RF p) sat = false -> x_orig RF p = None ->
  (forall k, (k < m_nints RF m)%nat -> plain m p k) -> live m p <> [] ->
  let out k := nth k (snd (ols_pixel RF pow m p)) dflt in let all := fst (ols_pixel RF pow m p) in
  (forall k, In k (live m p) -> (0 < (q_vr RF (out k) : R))%R /\ lo <= q_slope RF (out k) <= hi) -> (0 < (q_vr RF all : R))%R ->
  lo <= q_slope RF all <= hi /\
  forall k, In k (live m p) -> q_vr RF all <= q_vr RF (out k) /\ (forall j, In j (live m p) -> j <> k -> q_vr RF all < q_vr RF (out k)).
Proof.
  intros pow m p dnu jump sat pers ngval chg dflt lo hi Hf Nd G R1 T1 T2 Gn Dk Q1 Q2 Ho Pl Ne out all H V.
  destruct (C70_weighted_mean pow m p dnu jump sat pers ngval chg dflt Hf Nd G R1 T1 T2 Gn Dk Q1 Q2 Ho Pl Ne (fun k I => proj1 (H k I)) V) as [E1 E2].
  destruct (mean_between (fun k => q_slope RF (out k) : R) (fun k => q_vr RF (out k) : R) (live m p) lo hi Ne H) as [W B]. split; [unfold all; rewrite E2; exact B|].
  assert (P : forall k, In k (live m p) -> 0 < 1 / q_vr RF (out k)) by (intros k I; apply Rdiv_lt_0_compat; [lra|apply H, I]).
  change (F RF) with R in *. intros k I. pose proof (proj1 (H k I)) as Vk. unfold all. rewrite E1. fold (out k).
  assert (X : forall w, 1 / q_vr RF (out k) <= w -> 1 / w <= q_vr RF (out k)).
  { intros w L. replace (q_vr RF (out k)) with (1 / (1 / q_vr RF (out k))) by (field; lra). unfold Rdiv at 1 2. rewrite !Rmult_1_l. apply Rinv_le_contravar; [apply P, I|exact L]. }
  split; [apply X, (Rsum_member_le (fun k => 1 / q_vr RF (out k)) (live m p) k P I)|]. intros j J N.
  pose proof (Rsum_two (fun k => 1 / q_vr RF (out k)) (live m p) k j P I J (fun E => N (eq_sym E))) as L. cbv beta in L.
  assert (Y : forall v w : R, 0 < v -> 0 < w -> 1 / v < w -> 1 / w < v).
  { clear. intros v w A B L. apply (Rmult_lt_reg_r w); [exact B|]. unfold Rdiv. rewrite Rmult_assoc, Rinv_l by lra. apply (Rmult_lt_compat_l v) in L; [|exact A]. unfold Rdiv in L. rewrite Rmult_1_l, Rinv_r in L by lra. lra. }
  apply Y; [exact Vk|exact W|exact L].
Qed.
Print Assumptions C140_between.

Lemma Rsum_map_ext {A} (f g : A -> R) l : (forall x, In x l -> f x = g x) -> Rsum (map f l) = Rsum (map g l).
Proof. intro H. f_equal. apply map_ext_in, H. Qed.
Lemma Rsum_all {A} (c : R) (l : list A) : Rsum (map (fun _ => c) l) = INR (length l) * c.
Proof. induction l as [|a l IH]; [cbn; lra|]. cbn [map]. rewrite Rsum_cons, IH. change (length (a :: l)) with (S (length l)). rewrite S_INR. lra. Qed.

(** integrations of equal read-noise variance: the exposure has the arithmetic mean of their rates and that variance over their number *)
Theorem C140_equal : forall pow m p dnu jump sat pers ngval chg dflt v,
  m_f RF m = flags_at dnu jump sat pers ngval chg -> NoDup [dnu; jump; sat; pers; ngval] -> (1 <= m_ng RF m)%nat ->
  (x_rn RF p <> 0)%R -> (0 < (m_tgroup RF m : R))%R -> (0 < (m_tframe RF m : R))%R -> (0 < (x_gain RF p : R))%R -> (0 <= (x_dark RF p : R))%R ->
  N.testbit (x_dq RF p) dnu = false -> N.testbit (x_dq RF p) sat = false -> x_orig RF p = None ->
  (forall k, (k < m_nints RF m)%nat -> plain m p k) -> live m p <> [] ->
  let out k := nth k (snd (ols_pixel RF pow m p)) dflt in let all := fst (ols_pixel RF pow m p) in
  (forall k, In k (live m p) -> (q_vr RF (out k) : R) = v) -> (0 < v)%R -> (0 < (q_vr RF all : R))%R ->
  q_vr RF all = v / INR (length (live m p)) /\ q_slope RF all = Rsum (map (fun k => q_slope RF (out k)) (live m p)) / INR (length (live m p)).
Proof.
  intros pow m p dnu jump sat pers ngval chg dflt v Hf Nd G R1 T1 T2 Gn Dk Q1 Q2 Ho Pl Ne out all H Hv V.
  assert (Hp : forall k, In k (live m p) -> (0 < (q_vr RF (out k) : R))%R) by (intros k I; rewrite (H k I); exact Hv).
  destruct (C70_weighted_mean pow m p dnu jump sat pers ngval chg dflt Hf Nd G R1 T1 T2 Gn Dk Q1 Q2 Ho Pl Ne Hp V) as [E1 E2].
  assert (N : 0 < INR (length (live m p))) by (apply lt_0_INR; destruct (live m p); [congruence|cbn; lia]).
  assert (W : Rsum (map (fun k => 1 / q_vr RF (out k)) (live m p)) = INR (length (live m p)) * (1 / v)) by (rewrite <- Rsum_all; apply Rsum_map_ext; intros k I; rewrite (H k I); reflexivity).
  assert (S : Rsum (map (fun k => q_slope RF (out k) / q_vr RF (out k)) (live m p)) = / v * Rsum (map (fun k => q_slope RF (out k)) (live m p))) by (rewrite <- Rsum_scal; apply Rsum_map_ext; intros k I; rewrite (H k I); unfold Rdiv; apply Rmult_comm).
  change (F RF) with R in *. unfold all. rewrite E1, E2. unfold out in W, S. rewrite W, S. assert (X : forall a n : R, 0 < n -> / v * a / (n * (1 / v)) = a / n) by (intros a n L; field; lra). split; [field; lra|apply X; exact N].
Qed.
Print Assumptions C140_equal.

(** two integrations, groups 5, 8 and 1, 5: both are fitted, and their rates bound the exposure's *)
Example C140_example : let m := ex_meta RF 2 2 false in let p := ex_pix RF [[5; 8]; [1; 5]]%Z [[0; 0]; [0; 0]]%N 1 1 None None in
  forall dflt, let out k := nth k (snd (ols_pixel RF c_pow m p)) dflt in let all := fst (ols_pixel RF c_pow m p) in
  live m p = [0; 1]%nat /\ Rmin (q_slope RF (out 0%nat)) (q_slope RF (out 1%nat)) <= q_slope RF all <= Rmax (q_slope RF (out 0%nat)) (q_slope RF (out 1%nat)) /\
  q_vr RF all < q_vr RF (out 0%nat) /\ q_vr RF all < q_vr RF (out 1%nat).
Proof.
  intros m p dflt out all. destruct C70_example as [Lv Vs]. specialize (Vs dflt). destruct Vs as (V0 & V1 & Va). fold m p in Lv, V0, V1, Va. split; [exact Lv|].
  destruct (C140_between c_pow m p 0 2 1 3 4 7 dflt (Rmin (q_slope RF (out 0%nat)) (q_slope RF (out 1%nat))) (Rmax (q_slope RF (out 0%nat)) (q_slope RF (out 1%nat)))) as [B K];
    try reflexivity; try (cbn; lra); try (cbn; lia); try (repeat constructor; cbn; intuition discriminate); try assumption.
  - rewrite Lv. intros k [<-|[<-|[]]]; (split; [assumption|]); (split; [apply Rmin_l || apply Rmin_r|apply Rmax_l || apply Rmax_r]).
  - split; [exact B|]. rewrite Lv in K. split; [apply (proj2 (K 0%nat (or_introl eq_refl)) 1%nat); [right; left; reflexivity|lia]|apply (proj2 (K 1%nat (or_intror (or_introl eq_refl))) 0%nat); [left; reflexivity|lia]].
Qed.
(** both have variance 1/50: the exposure has 1/100 and the mean of the two rates *)
Example C140_equal_example : let m := ex_meta RF 2 2 false in let p := ex_pix RF [[5; 8]; [1; 5]]%Z [[0; 0]; [0; 0]]%N 1 1 None None in
  forall dflt, let out k := nth k (snd (ols_pixel RF c_pow m p)) dflt in let all := fst (ols_pixel RF c_pow m p) in
  q_vr RF (out 0%nat) = 2 / 100 /\ q_vr RF (out 1%nat) = 2 / 100 /\ q_vr RF all = 1 / 100 /\ q_slope RF all = (q_slope RF (out 0%nat) + q_slope RF (out 1%nat)) / 2.
Proof.
  intros m p dflt out all. destruct C70_example as [Lv Vs]. specialize (Vs dflt). destruct Vs as (V0 & V1 & Va). fold m p in Lv, V0, V1, Va.
  assert (L10 : Rleb 1 0 = false) by (apply not_true_iff_false; rewrite Rleb_spec; lra).
  assert (RV : rnoise_len2 RF m p = (2 / 100)%R) by (cbn; lra).
  assert (LV : forall v, (0 < v < 1000000)%R -> large0 RF v = v) by (intros v V; unfold large0; cbn [fle RF LARGE fofZ]; destruct (Rleb 1000000 v) eqn:E; [apply Rleb_spec in E; lra|reflexivity]).
  assert (PD : pixel_dq RF m p = 0%N) by (unfold pixel_dq; cbn [x_gain p ex_pix fofZ fle RF fzero fisnan]; rewrite L10; reflexivity).
  assert (FI : forall mr k, (k < 2)%nat -> q_dq RF (fst (fit_integration RF c_pow m p mr k)) = 0%N /\ q_vr RF (fst (fit_integration RF c_pow m p mr k)) = (2/100)%R /\ snd (fst (snd (fit_integration RF c_pow m p mr k))) = 50%R).
  { intros mr k K. 
    assert (D0 : int_dq0 RF m p (prep0 RF m p k) = 0%N) by (unfold int_dq0; rewrite PD; assert (k = 0 \/ k = 1)%nat as [->| ->] by lia; reflexivity).
    assert (E : (1 / (0 + 1 / (2/100)) = 2/100)%R) by lra.
    assert (k = 0 \/ k = 1)%nat as [->| ->] by lia; unfold fit_integration; cbn -[Rltb Rleb IZR Rplus Rmult Rminus Rdiv rnoise_len2 var_poisson large0]; fold m p; rewrite D0; cbn -[Rltb Rleb IZR Rplus Rmult Rminus Rdiv rnoise_len2 var_poisson large0]; rewrite RV, E, LV by lra; repeat split; lra. }
  set (mr := median_rate RF m p) in *.
  assert (NI : forall k, (k < 2)%nat -> q_vr RF (nth k (snd (ols_pixel RF c_pow m p)) dflt) = (2/100)%R).
  { intros k K. destruct (FI mr k K) as (_ & V & _). assert (k = 0 \/ k = 1)%nat as [->| ->] by lia; unfold ols_pixel, chargeloss, fit_pixel; cbn [x_orig p ex_pix snd m_nints m ex_meta seq map nth]; fold m; fold p; fold mr; unfold finish_integration; destruct (fit_integration RF c_pow m p mr _); cbn [u_fit q_vr fst] in *; exact V. }
  pose proof (NI 0%nat ltac:(lia)) as E0. pose proof (NI 1%nat ltac:(lia)) as E1. split; [exact E0|]. split; [exact E1|].
  destruct (C140_equal c_pow m p 0 2 1 3 4 7 dflt (2 / 100)) as [B K];
    try reflexivity; try (cbn; lra); try (cbn; lia); try (repeat constructor; cbn; intuition discriminate); try assumption.
  - rewrite Lv. intros k [<-|[<-|[]]]; assumption.
  - rewrite Lv in B, K. cbn [length INR map] in B, K. split; [unfold all; rewrite B; lra|]. unfold all. rewrite K. rewrite !Rsum_cons. unfold out. cbn [Rsum fold_right]. lra.
Qed.
