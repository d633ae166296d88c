(** Combining the integrations of the likelihood fit, and the scale of the covariance. *)
From Verif Require Import Base RBase LikelyModel LikelySpec LikelyProofs LikelyFit LikelyNoise.
From Coq Require Import Reals Lra Lia.
Local Open Scope R_scope.

Lemma combine_map_l {A B} (f : A -> B) l : combine l (map f l) = map (fun x => (x, f x)) l.
Proof. induction l as [|x l IH]; [reflexivity|]. cbn. rewrite IH. reflexivity. Qed.
Lemma combine_map_2 {A B C} (f : A -> B) (g : A -> C) l : combine (map f l) (map g l) = map (fun x => (f x, g x)) l.
Proof. induction l as [|x l IH]; [reflexivity|]. cbn. rewrite IH. reflexivity. Qed.
Lemma nansum_R (l : list R) : nansum RF l = Rsum l.
Proof. unfold nansum. cbn [fisnan RF]. rewrite map_id. apply suml_Rsum. Qed.
Lemma nansum_or_R (l : list R) : l <> [] -> nansum_or_nan RF l = Rsum l.
Proof. unfold nansum_or_nan. destruct l as [|x l]; [congruence|]. intros _. cbn [forallb fisnan RF andb]. apply nansum_R. Qed.
Lemma Rsum_pos' {A} (f : A -> R) l : l <> [] -> (forall x, In x l -> 0 < f x) -> 0 < Rsum (map f l).
Proof.
  induction l as [|x l IH]; [congruence|]. intros _ H. cbn [map]. rewrite Rsum_cons. pose proof (H x (or_introl eq_refl)).
  destruct l as [|y l]; [cbn; lra|]. assert (0 < Rsum (map f (y :: l))) by (apply IH; [discriminate|intros; apply H; right; assumption]). lra.
Qed.
Lemma Rsum_le' {A} (f g : A -> R) l : (forall x, In x l -> f x <= g x) -> Rsum (map f l) <= Rsum (map g l).
Proof. induction l as [|x l IH]; intro H; [cbn; lra|]. cbn [map]. rewrite !Rsum_cons. pose proof (H x (or_introl eq_refl)). assert (Rsum (map f l) <= Rsum (map g l)) by (apply IH; intros; apply H; right; assumption). lra. Qed.
(** the variance an integration is given when the exposure's rate is [s] *)
Definition int_var (s : R) (i : lint RF) : R := n_vp RF i * (if Rltb (s / n_rate RF i) 0 then 0 else s / n_rate RF i) + n_vr RF i.
Definition wmean (s : R) (ints : list (lint RF)) : R := Rsum (map (fun i => n_rate RF i * / int_var s i) ints) / Rsum (map (fun i => / int_var s i) ints).
Lemma pass_R ints s : ints <> [] -> image_pass RF ints s =
  (map (fun i => int_var s i - n_vr RF i) ints, map (fun i => / int_var s i / Rsum (map (fun i => / int_var s i) ints)) ints, wmean s ints).
Proof.
  intro N.
  change (image_pass RF ints s) with
    (let vp := map (fun i : lint RF => n_vp RF i * (if Rltb (s / n_rate RF i) 0 then 0 else s / n_rate RF i)) ints : list R in
     let w0 := map (fun iv : lint RF * R => 1 / (snd iv + n_vr RF (fst iv))) (combine ints vp) : list R in
     let w := map (fun x : R => x / nansum RF w0) w0 : list R in
     (vp, w, nansum_or_nan RF (map (fun iw : lint RF * R => n_rate RF (fst iw) * snd iw : R) (combine ints w)))).
  set (vp := map (fun i : lint RF => n_vp RF i * (if Rltb (s / n_rate RF i) 0 then 0 else s / n_rate RF i)) ints : list R).
  assert (Ev : vp = map (fun i => int_var s i - n_vr RF i) ints) by (apply map_ext; intro i; unfold int_var; eqR; ring).
  cbv zeta. set (w0 := map (fun iv : lint RF * R => 1 / (snd iv + n_vr RF (fst iv))) (combine ints vp) : list R).
  assert (Ew : w0 = map (fun i => / int_var s i) ints).
  { unfold w0. rewrite Ev, combine_map_l, map_map. apply map_ext. intro i. cbn [fst snd]. replace (int_var s i - n_vr RF i + n_vr RF i) with (int_var s i) by ring. unfold Rdiv. ring. }
  set (w := map (fun x : R => x / nansum RF w0) w0 : list R).
  assert (Ew' : w = map (fun i => / int_var s i / Rsum (map (fun i => / int_var s i) ints)) ints) by (unfold w; rewrite nansum_R, Ew, map_map; reflexivity).
  rewrite Ev, Ew'. f_equal. rewrite nansum_or_R by (rewrite combine_map_l; destruct ints; [congruence|discriminate]).
  rewrite combine_map_l, map_map. cbn [fst snd]. unfold wmean, Rdiv.
  rewrite (Rmult_comm (Rsum _) (/ _)), <- Rsum_scal. apply Rsum_ext'. intros i _. eqR. ring.
Qed.
Section Image.
  Variables (median : list R -> R) (final_dq : list N -> option N) (ints : list (lint RF)) (im : lint RF).
  Hypothesis many : (2 <= length ints)%nat.
  Hypothesis H : image_info RF median final_dq ints = Some im.
  Lemma ints_ne : ints <> []. Proof. clear H. destruct ints; [cbn in many; lia|discriminate]. Qed.
  Lemma image_is : let s0 := median (map (n_rate RF) ints) in let s1 := wmean s0 ints in let W := Rsum (map (fun i => / int_var s1 i) ints) in
    n_rate RF im = wmean s1 ints /\
    n_vp RF im = Rsum (map (fun i => (int_var s1 i - n_vr RF i) * (/ int_var s1 i / W * (/ int_var s1 i / W))) ints) /\
    n_vr RF im = Rsum (map (fun i => n_vr RF i * (/ int_var s1 i / W * (/ int_var s1 i / W))) ints) /\
    n_err RF im = sqrt (n_vp RF im + n_vr RF im) /\ n_chisq RF im = Rsum (map (n_chisq RF) ints) /\ final_dq (map (n_dq RF) ints) = Some (n_dq RF im).
  Proof.
    intros s0 s1 W. pose proof ints_ne as N.
    assert (Un : image_info RF median final_dq ints = (do dq <- final_dq (map (n_dq RF) ints);
        let '(_, _, s1) := image_pass RF ints (median (map (n_rate RF) ints)) in let '(vp, w, s2) := image_pass RF ints s1 in
        let var v := nansum_or_nan RF (map (fun vw => fmul RF (fst vw) (fmul RF (snd vw) (snd vw))) (combine v w)) in
        let var_p := var vp in let var_r := var (map (n_vr RF) ints) in
        Some {| n_rate := s2; n_dq := dq; n_vp := var_p; n_vr := var_r; n_err := fsqrt RF (fadd RF var_p var_r); n_chisq := suml RF (map (n_chisq RF) ints) |})).
    { clear - many. destruct ints as [|i1 [|i2 l]]; [cbn in many; lia|cbn in many; lia|reflexivity]. }
    rewrite Un in H. clear Un.
    destruct (final_dq (map (n_dq RF) ints)) as [dq|] eqn:D; [|discriminate]. cbn [bind] in H.
    rewrite (pass_R ints (median (map (n_rate RF) ints)) N) in H. cbv beta iota in H. fold s0 in H. fold s1 in H.
    rewrite (pass_R ints s1 N) in H. cbv beta iota zeta in H.
    injection H as <-. cbn [n_rate n_vp n_vr n_err n_chisq n_dq].
    rewrite !combine_map_2, !map_map. cbn [fst snd]. rewrite !nansum_or_R by (destruct ints; [congruence|discriminate]). rewrite suml_Rsum.
    split; [reflexivity|]. split; [reflexivity|]. split; [reflexivity|]. split; [reflexivity|]. split; reflexivity.
  Qed.
End Image.
Lemma int_var_pos s i : 0 <= n_vp RF i -> 0 < n_vr RF i -> 0 < int_var s i.
Proof.
  intros A B. unfold int_var. apply Rplus_le_lt_0_compat; [|exact B]. apply Rmult_le_pos; [exact A|].
  destruct (Rltb (s / n_rate RF i) 0) eqn:E; [lra|]. apply Rnot_lt_le. intro L. apply (proj2 (Rltb_spec _ _)) in L. congruence.
Qed.
Lemma wmean_between s ints u v : ints <> [] -> (forall i, In i ints -> 0 <= n_vp RF i /\ 0 < n_vr RF i) -> (forall i, In i ints -> u <= n_rate RF i <= v) -> u <= wmean s ints <= v.
Proof.
  intros N P B.
  assert (Q : 0 < Rsum (map (fun i => / int_var s i) ints)) by (apply Rsum_pos'; [exact N|]; intros i Hi; apply Rinv_0_lt_compat, int_var_pos; apply P, Hi).
  assert (I : forall i, In i ints -> 0 < / int_var s i) by (intros i Hi; apply Rinv_0_lt_compat, int_var_pos; apply P, Hi).
  assert (U : u * Rsum (map (fun i => / int_var s i) ints) <= Rsum (map (fun i => n_rate RF i * / int_var s i) ints)).
  { rewrite <- Rsum_scal. apply Rsum_le'. intros i Hi. pose proof (B i Hi). pose proof (I i Hi). apply Rmult_le_compat_r; lra. }
  assert (V : Rsum (map (fun i => n_rate RF i * / int_var s i) ints) <= v * Rsum (map (fun i => / int_var s i) ints)).
  { rewrite <- Rsum_scal. apply Rsum_le'. intros i Hi. pose proof (B i Hi). pose proof (I i Hi). apply Rmult_le_compat_r; lra. }
  unfold wmean. split; apply (Rmult_le_reg_r (Rsum (map (fun i => / int_var s i) ints))); try exact Q; unfold Rdiv; rewrite Rmult_assoc, Rinv_l, Rmult_1_r by lra; assumption.
Qed.
(** ** The scale *)
Section Scale.
  Variables (n : nat) (al be : nat -> R) (root : R -> nat -> R).
  Local Notation th := (theta RF al be).
  Hypothesis TH : forall i, (i <= n)%nat -> 0 < th i.
  Hypothesis RT : forall x i, 0 < x -> (1 <= i)%nat -> 0 < root x i.
  (** state before step i *)
  Definition scale_inv (i : nat) (st : R * R * R) : Prop :=
    let '(t1, t0, s) := st in 0 < s /\ exists g, 0 < g /\ t1 = th (i - 1) * / s ^ (i - 1) * g /\ t0 = th (i - 2) * / s ^ (i - 2) * g /\
      ((forall x k, 0 < x -> (1 <= k)%nat -> root x k ^ k = x) -> g = 1).
  Lemma scale_step_ok i st : (2 <= i)%nat -> (i <= n)%nat -> scale_inv i st -> scale_inv (S i) (scale_step RF root n al be st i) /\
    (i = n -> (forall x k, 0 < x -> (1 <= k)%nat -> root x k ^ k = x) -> snd (scale_step RF root n al be st i) ^ n = th n).
  Proof.
    intros Hi Hn. destruct st as [[t1 t0] s]. intros [Sp [g [Gp [E1 [E0 G1]]]]].
    assert (P : forall k, 0 < s ^ k) by (intro; apply pow_lt, Sp).
    assert (T : (al (i - 1)%nat / s * t1 - be (i - 2)%nat * be (i - 2)%nat / (s * s) * t0) = th i * / s ^ i * g).
    { rewrite E1, E0. destruct i as [|[|k]]; [lia|lia|]. rewrite theta_S. replace (S (S k) - 1)%nat with (S k) by lia. replace (S (S k) - 2)%nat with k by lia.
      pose proof (P k). cbn [pow]. field. split; lra. }
    unfold scale_step. toF. rewrite T.
    set (t := th i * / s ^ i * g).
    assert (Tp : 0 < t) by (unfold t; apply Rmult_lt_0_compat; [apply Rmult_lt_0_compat; [apply TH, Hn|apply Rinv_0_lt_compat, P]|exact Gp]).
    destruct (Nat.eqb (Nat.modulo i 10) 0 || Nat.eqb i n) eqn:Q.
    - pose proof (RT t i Tp ltac:(lia)) as Fp. set (f := root t i) in *. cbn [snd]. split.
      + unfold scale_inv. split; [apply Rmult_lt_0_compat; assumption|]. exists (g * f ^ i / t).
        assert (Pf : forall k, 0 < f ^ k) by (intro; apply pow_lt, Fp). pose proof (TH i Hn) as Ti. pose proof (P i) as Pi.
        split; [apply Rdiv_lt_0_compat; [apply Rmult_lt_0_compat; [exact Gp|apply Pf]|exact Tp]|].
        replace (S i - 1)%nat with i by lia. replace (S i - 2)%nat with (i - 1)%nat by lia. split; [|split].
        * unfold t. rewrite Rpow_mult_distr. pose proof (Pf i). toF. field. repeat split; lra.
        * rewrite E1. rewrite Rpow_mult_distr. destruct i as [|k]; [lia|]. replace (S k - 1)%nat with k by lia. unfold t. pose proof (P k). pose proof (Pf k). cbn [pow]. field.
          cbn [pow] in Pi. repeat split; try lra.
        * intro X. rewrite (G1 X). unfold f. rewrite X by (lia || exact Tp). field. lra.
      + intros -> X. rewrite Rpow_mult_distr. unfold f. rewrite X by (lia || exact Tp). unfold t. rewrite (G1 X). pose proof (P n). field. lra.
    - split.
      + unfold scale_inv. split; [exact Sp|]. exists g. split; [exact Gp|]. replace (S i - 1)%nat with i by lia. replace (S i - 2)%nat with (i - 1)%nat by lia. repeat split; auto.
      + intros ->. rewrite Nat.eqb_refl, orb_true_r in Q. discriminate.
  Qed.
  Lemma scale_fold m : (m <= n - 1)%nat -> scale_inv (2 + m) (fold_left (scale_step RF root n al be) (seq 2 m) (al 0%nat, fone RF, fone RF)).
  Proof.
    induction m as [|m IH]; intro H.
    - cbn [seq fold_left plus]. unfold scale_inv. cbn [Nat.sub pow]. split; [toF; lra|]. exists 1. rewrite theta_1, theta_0. toF. repeat split; try lra.
    - rewrite seq_S, fold_left_app. cbn [fold_left]. replace (2 + S m)%nat with (S (2 + m)) by lia. apply scale_step_ok; [lia|lia|]. apply IH. lia.
  Qed.
  Lemma scale_pos : 0 < scale_of RF root n al be.
  Proof.
    unfold scale_of. pose proof (scale_fold (n - 1) ltac:(lia)) as I. destruct (fold_left _ (seq 2 (n - 1)) _) as [[t1 t0] s]. cbn [snd]. apply I.
  Qed.
  Lemma scale_det : (2 <= n)%nat -> (forall x k, 0 < x -> (1 <= k)%nat -> root x k ^ k = x) -> scale_of RF root n al be ^ n = th n.
  Proof.
    intros N2 X. unfold scale_of. replace (n - 1)%nat with (S (n - 2)) by lia. rewrite seq_S, fold_left_app. cbn [fold_left].
    replace (2 + (n - 2))%nat with n by lia. pose proof (scale_fold (n - 2) ltac:(lia)) as I. replace (2 + (n - 2))%nat with n in I by lia.
    exact (proj2 (scale_step_ok n _ N2 ltac:(lia) I) eq_refl X).
  Qed.
End Scale.
