(** C136: an integration the likelihood fit could not fit leaves no trace in the combined rate.  Exact reals with missing values. *)
From Coq Require Import Reals Lra.
From Verif Require Import Base BaseLemmas RBase RNBase LikelyModel LikelySpec LikelyProofs LikelyFit LikelyNoise LikelyImage LikelyProps2.
Local Open Scope R_scope.

(** an integration: fitted, or with nothing but a DQ word *)
Definition shot : Type := lint RF + N.
Definition up (x : shot) : lint RN :=
  match x with
  | inl i => {| n_rate := Some (n_rate RF i : R) : RN; n_dq := n_dq RF i; n_vp := Some (n_vp RF i : R) : RN; n_vr := Some (n_vr RF i : R) : RN; n_err := Some (n_err RF i : R) : RN; n_chisq := Some (n_chisq RF i : R) : RN |}
  | inr d => {| n_rate := None : RN; n_dq := d; n_vp := None : RN; n_vr := None : RN; n_err := None : RN; n_chisq := None : RN |}
  end.
Definition fitted (l : list shot) : list (lint RF) := flat_map (fun x => match x with inl i => [i] | inr _ => [] end) l.
Lemma in_fitted i l : In i (fitted l) <-> In (inl i) l.
Proof.
  unfold fitted. rewrite in_flat_map. split.
  - intros ([j|d] & I & J); cbn in J; [destruct J as [->|[]]; exact I|destruct J].
  - intro I. exists (inl i). split; [exact I|left; reflexivity].
Qed.
(** a sum that skips missing values *)
Lemma nansum_up (f : lint RN -> RN) (g : lint RF -> R) l : (forall i, In i (fitted l) -> f (up (inl i)) = (Some (g i) : RN)) -> (forall d, f (up (inr d)) = (None : RN)) ->
  nansum RN (map f (map up l)) = (Some (Rsum (map g (fitted l))) : RN).
Proof.
  intros H1 H2. rewrite map_map. unfold nansum, suml. rewrite map_map.
  assert (G : forall l (a : R), (forall i, In i (fitted l) -> f (up (inl i)) = (Some (g i) : RN)) ->
    fold_left (fadd RN) (map (fun x => if fisnan RN (f (up x)) then fzero RN else f (up x)) l) (Some a : RN) = (Some (a + Rsum (map g (fitted l))) : RN)).
  { clear l H1. induction l as [|x l IH]; intros a H1; [cbn; f_equal; ring|]. destruct x as [i|d].
    - cbn [map fold_left]. rewrite (H1 i) by (left; reflexivity). change (fold_left (fadd RN) (map (fun x => if fisnan RN (f (up x)) then fzero RN else f (up x)) l) (Some (a + g i) : RN) = (Some (a + Rsum (map g (i :: fitted l))) : RN)).
      rewrite IH by (intros j J; apply H1; right; exact J). cbn [map]. rewrite Rsum_cons. f_equal. ring.
    - cbn [map fold_left]. rewrite H2. change (fold_left (fadd RN) (map (fun x => if fisnan RN (f (up x)) then fzero RN else f (up x)) l) (Some (a + 0) : RN) = (Some (a + Rsum (map g (fitted l))) : RN)).
      rewrite Rplus_0_r. apply IH. exact H1. }
  etransitivity; [apply (G l 0 H1)|]. f_equal. ring.
Qed.
Lemma nansum_or_up (f : lint RN -> RN) (g : lint RF -> R) l : fitted l <> [] -> (forall i, In i (fitted l) -> f (up (inl i)) = (Some (g i) : RN)) -> (forall d, f (up (inr d)) = (None : RN)) ->
  nansum_or_nan RN (map f (map up l)) = (Some (Rsum (map g (fitted l))) : RN).
Proof.
  intros N H1 H2. unfold nansum_or_nan. destruct (forallb (fisnan RN) (map f (map up l))) eqn:E; [|apply nansum_up; assumption]. exfalso.
  rewrite forallb_forall in E. destruct (fitted l) as [|i r] eqn:F; [congruence|]. assert (I : In (inl i) l) by (apply in_fitted; rewrite F; left; reflexivity).
  specialize (E (f (up (inl i))) (in_map f _ _ (in_map up _ _ I))). rewrite H1 in E by (left; reflexivity). discriminate.
Qed.
(** one pass, written with functions of the integration *)
Definition scaled (fo : FOps) (s : fo) (i : lint fo) : fo := fmul fo (n_vp fo i) (let r := fdiv fo s (n_rate fo i) in if negb (fisfinite fo r) || flt fo r (fzero fo) then fzero fo else r).
Definition wgt (fo : FOps) (s : fo) (i : lint fo) : fo := fdiv fo (fone fo) (fadd fo (scaled fo s i) (n_vr fo i)).
Lemma pass_is (fo : FOps) L (s : fo) : image_pass fo L s =
  let tot := nansum fo (map (wgt fo s) L) in (map (scaled fo s) L, map (fun i => fdiv fo (wgt fo s i) tot) L, nansum_or_nan fo (map (fun i => fmul fo (n_rate fo i) (fdiv fo (wgt fo s i) tot)) L)).
Proof. unfold image_pass. cbv zeta. rewrite combine_map_l, !map_map. cbn [fst snd]. rewrite combine_map_l, !map_map. reflexivity. Qed.
Section Missing.
  Variables (l : list shot) (s : R).
  Hypothesis N : fitted l <> [].
  Hypothesis P : forall i, In i (fitted l) -> 0 <= n_vp RF i /\ 0 < n_vr RF i.
  Lemma scaled_up i : scaled RN (Some s) (up (inl i)) = (Some (int_var s i - n_vr RF i) : RN).
  Proof.
    unfold scaled, int_var. cbn [up n_vp n_rate fdiv RN]. destruct (Reqb (n_rate RF i) 0) eqn:Z.
    - apply Reqb_spec in Z. change (F RF) with R in *. rewrite Z. cbn [fisfinite RN negb orb fzero fmul rn2]. f_equal. unfold Rdiv. rewrite Rinv_0, Rmult_0_r.
      change (F RF) with R. rewrite ?Rmult_0_r. destruct (Rltb 0 0); ring.
    - cbn [fisfinite RN negb orb flt rncmp fzero fmul rn2]. destruct (Rltb _ 0); cbn; f_equal; change (F RF) with R; ring.
  Qed.
  Lemma scaled_up_missing d : scaled RN (Some s) (up (inr d)) = (None : RN).
  Proof. reflexivity. Qed.
  Lemma wgt_up i : In i (fitted l) -> wgt RN (Some s) (up (inl i)) = (Some (/ int_var s i) : RN).
  Proof.
    intro I. unfold wgt. rewrite scaled_up. cbn [up n_vr fadd RN rn2 fone fdiv]. change (F RF) with R in *. replace (int_var s i - n_vr RF i + n_vr RF i) with (int_var s i) by ring.
    pose proof (int_var_pos s i (proj1 (P i I)) (proj2 (P i I))). destruct (Reqb (int_var s i) 0) eqn:E; [apply Reqb_spec in E; lra|]. f_equal. unfold Rdiv. ring.
  Qed.
  Let W := Rsum (map (fun i => / int_var s i) (fitted l)).
  Lemma W_pos : 0 < W.
  Proof. apply Rsum_pos'; [exact N|]. intros i I. apply Rinv_0_lt_compat, int_var_pos; apply P, I. Qed.
  Lemma tot_up : nansum RN (map (wgt RN (Some s)) (map up l)) = (Some W : RN).
  Proof. apply nansum_up; [apply wgt_up|reflexivity]. Qed.
  Lemma share_up i : In i (fitted l) -> fdiv RN (wgt RN (Some s) (up (inl i))) (Some W) = (Some (/ int_var s i / W) : RN).
  Proof. intro I. rewrite wgt_up by exact I. cbn. pose proof W_pos. destruct (Reqb W 0) eqn:E; [apply Reqb_spec in E; lra|reflexivity]. Qed.
  Lemma pass_up : image_pass RN (map up l) (Some s) =
    (map (scaled RN (Some s)) (map up l), map (fun i => fdiv RN (wgt RN (Some s) i) (Some W)) (map up l), Some (wmean s (fitted l)) : RN).
  Proof.
    rewrite pass_is. cbv zeta. rewrite tot_up. f_equal. rewrite (nansum_or_up _ (fun i => n_rate RF i * (/ int_var s i / W)) l N); [| |reflexivity].
    - f_equal. unfold wmean. fold W. unfold Rdiv. rewrite (Rmult_comm (Rsum _) (/ _)), <- Rsum_scal. apply Rsum_ext'. intros i _. change (F RF) with R. ring.
    - intros i I. rewrite share_up by exact I. reflexivity.
  Qed.
  Lemma var_up (v : lint RN -> RN) (g : lint RF -> R) : (forall i, In i (fitted l) -> v (up (inl i)) = (Some (g i) : RN)) -> (forall d, v (up (inr d)) = (None : RN)) ->
    nansum_or_nan RN (map (fun vw : RN * RN => fmul RN (fst vw) (fmul RN (snd vw) (snd vw))) (combine (map v (map up l)) (map (fun i => fdiv RN (wgt RN (Some s) i) (Some W)) (map up l)))) =
    (Some (Rsum (map (fun i => g i * (/ int_var s i / W * (/ int_var s i / W))) (fitted l))) : RN).
  Proof.
    intros H1 H2. rewrite combine_map_2, map_map. cbn [fst snd].
    apply (nansum_or_up (fun x => fmul RN (v x) (fmul RN (fdiv RN (wgt RN (Some s) x) (Some W)) (fdiv RN (wgt RN (Some s) x) (Some W)))) _ l N).
    - intros i I. rewrite H1, share_up by exact I. reflexivity.
    - intro d. rewrite H2. reflexivity.
  Qed.
End Missing.
(** [median] ignores missing values *)
Definition is_nanmedian (median' : list RN -> RN) (median : list R -> R) : Prop :=
  forall l : list RN, flat_map (fun x : option R => match x with Some v => [v] | None => [] end) l <> [] -> median' l = (Some (median (flat_map (fun x : option R => match x with Some v => [v] | None => [] end) l)) : RN).
Lemma rates_up l : flat_map (fun x : option R => match x with Some v => [v] | None => [] end) (map (n_rate RN) (map up l)) = map (n_rate RF) (fitted l).
Proof. induction l as [|[i|d] l IH]; [reflexivity| |]; cbn [map flat_map up n_rate fitted app]; [exact (f_equal (cons (n_rate RF i)) IH)|exact IH]. Qed.
Lemma chisq_missing l : Exists (fun x : shot => match x with inl _ => False | inr _ => True end) l -> suml RN (map (n_chisq RN) (map up l)) = (None : RN).
Proof.
  assert (A : forall (l : list RN), fold_left (fadd RN) l (None : RN) = (None : RN)) by (induction l0 as [|x l0 IH]; [reflexivity|exact IH]).
  intro E. unfold suml. generalize (fzero RN) as a. induction E as [x l Hx|x l E IH]; intro a; cbn [map fold_left].
  - destruct x as [i|d]; [destruct Hx|]. replace (fadd RN a (n_chisq RN (up (inr d)))) with (None : F RN) by (destruct a; reflexivity). apply A.
  - apply IH.
Qed.

(** Two or more integrations fitted, any number not: rate, variances and error are those of the fitted ones alone. *)
Theorem C136_missing : forall median median' final_dq (l : list shot) im',
  is_nanmedian median' median -> (2 <= length (fitted l))%nat -> (forall i, In i (fitted l) -> 0 <= n_vp RF i /\ 0 < n_vr RF i) ->
  image_info RN median' final_dq (map up l) = Some im' ->
  exists im, image_info RF median (fun _ => Some (n_dq RN im')) (fitted l) = Some im /\
    n_rate RN im' = (Some (n_rate RF im : R) : RN) /\ n_vp RN im' = (Some (n_vp RF im : R) : RN) /\ n_vr RN im' = (Some (n_vr RF im : R) : RN) /\ n_err RN im' = (Some (n_err RF im : R) : RN).
Proof.
  intros median median' final_dq l im' MED L P H.
  assert (N : fitted l <> []) by (destruct (fitted l); [cbn in L; lia|discriminate]).
  assert (L2 : (2 <= length (map up l))%nat).
  { rewrite map_length. apply (Nat.le_trans _ _ _ L). clear. induction l as [|[i|d] l IH]; [apply le_n|change (S (length (fitted l)) <= S (length l))%nat; lia|change (length (fitted l) <= S (length l))%nat; lia]. }
  assert (Un : image_info RN median' final_dq (map up l) = (do dq <- final_dq (map (n_dq RN) (map up l));
        let '(_, _, s1) := image_pass RN (map up l) (median' (map (n_rate RN) (map up l))) in let '(vp, w, s2) := image_pass RN (map up l) s1 in
        let var v := nansum_or_nan RN (map (fun vw => fmul RN (fst vw) (fmul RN (snd vw) (snd vw))) (combine v w)) in
        let var_p := var vp in let var_r := var (map (n_vr RN) (map up l)) in
        Some {| n_rate := s2; n_dq := dq; n_vp := var_p; n_vr := var_r; n_err := fsqrt RN (fadd RN var_p var_r); n_chisq := suml RN (map (n_chisq RN) (map up l)) |})).
  { clear - L2. destruct (map up l) as [|i1 [|i2 r]]; [cbn in L2; lia|cbn in L2; lia|reflexivity]. }
  rewrite Un in H. clear Un. destruct (final_dq _) as [dq|]; [|discriminate]. cbn [bind] in H.
  rewrite MED in H by (rewrite rates_up; destruct (fitted l); [congruence|discriminate]). rewrite rates_up in H. set (s0 := median (map (n_rate RF) (fitted l))) in *.
  rewrite (pass_up l s0 N P) in H. cbv beta iota in H. set (s1 := wmean s0 (fitted l)) in *. rewrite (pass_up l s1 N P) in H. cbv beta iota zeta in H.
  rewrite (var_up l s1 N P (scaled RN (Some s1)) (fun i => int_var s1 i - n_vr RF i)) in H; [|intros i _; apply scaled_up|reflexivity].
  rewrite (var_up l s1 N P (n_vr RN) (fun i => n_vr RF i : R)) in H; [|reflexivity|reflexivity].
  injection H as <-. cbn [n_rate n_vp n_vr n_err n_dq].
  destruct (image_info RF median (fun _ => Some dq) (fitted l)) as [im|] eqn:E.
  2: { exfalso. destruct (fitted l) as [|i1 [|i2 r]]; [cbn in L; lia|cbn in L; lia|]. unfold image_info in E. cbn [bind] in E. destruct (image_pass RF (i1 :: i2 :: r) _) as [[? ?] ?]. destruct (image_pass RF (i1 :: i2 :: r) _) as [[? ?] ?]. discriminate. }
  exists im. split; [reflexivity|]. destruct (image_is median _ (fitted l) im L E) as (Er & Ep & Ev & Ee & _). cbv zeta in *. fold s0 in Er, Ep, Ev. fold s1 in Er, Ep, Ev.
  split; [exact (f_equal Some (eq_sym Er))|]. split; [exact (f_equal Some (eq_sym Ep))|]. split; [exact (f_equal Some (eq_sym Ev))|].
  etransitivity; [exact (f_equal2 (fun a c : R => fsqrt RN (fadd RN (Some a : F RN) (Some c : F RN))) (eq_sym Ep) (eq_sym Ev))|]. rewrite Ee.
  destruct (C76_combined median (fun _ => Some dq) (fitted l) im (fold_right Rmin 0 (map (n_rate RF) (fitted l))) (fold_right Rmax 0 (map (n_rate RF) (fitted l))) L P) as (_ & _ & V1 & V2 & _); [|exact E|].
  { intros i I. assert (G : forall L, In (n_rate RF i : R) L -> fold_right Rmin 0 L <= n_rate RF i <= fold_right Rmax 0 L).
    { clear. induction L as [|x L IH]; [intros []|]. cbn [fold_right In]. intros [->|I].
      - split; [apply Rmin_l|apply Rmax_l].
      - destruct (IH I). split; [eapply Rle_trans; [apply Rmin_r|eassumption]|eapply Rle_trans; [eassumption|apply Rmax_r]]. }
    apply G, in_map, I. }
  cbn [fsqrt fadd RN rn2]. change (F RF) with R in *. destruct (Rltb (n_vp RF im + n_vr RF im) 0) eqn:Z; [apply Rltb_spec in Z; lra|reflexivity].
Qed.
Print Assumptions C136_missing.

(** Hence the combined rate lies between the rates of the fitted integrations, with an error no larger than any of theirs at that rate. *)
Theorem C136_bounds : forall median median' final_dq (l : list shot) im' u v,
  is_nanmedian median' median -> (2 <= length (fitted l))%nat -> (forall i, In i (fitted l) -> 0 <= n_vp RF i /\ 0 < n_vr RF i) -> (forall i, In i (fitted l) -> u <= n_rate RF i <= v) ->
  image_info RN median' final_dq (map up l) = Some im' ->
  exists rate vp vr err : R, n_rate RN im' = (Some rate : RN) /\ n_vp RN im' = (Some vp : RN) /\ n_vr RN im' = (Some vr : RN) /\ n_err RN im' = (Some err : RN) /\
    u <= rate <= v /\ err * err = vp + vr /\ 0 <= vp /\ 0 < vr.
Proof.
  intros median median' final_dq l im' u v MED L P B H. destruct (C136_missing median median' final_dq l im' MED L P H) as (im & E & E1 & E2 & E3 & E4).
  exists (n_rate RF im), (n_vp RF im), (n_vr RF im), (n_err RF im). do 4 (split; [assumption|]). destruct (C76_combined median _ (fitted l) im u v L P B E) as (A1 & A2 & A3 & A4 & _). auto.
Qed.
Print Assumptions C136_bounds.
(** One integration fitted, with a rate that is not zero, and others not: the combined numbers are those of the fitted one. *)
Theorem C136_one : forall median median' final_dq (l : list shot) im' i,
  is_nanmedian median' median -> (forall x, median [x] = x) -> fitted l = [i] -> (2 <= length l)%nat -> n_rate RF i <> 0 -> 0 <= n_vp RF i -> 0 < n_vr RF i ->
  image_info RN median' final_dq (map up l) = Some im' ->
  n_rate RN im' = (Some (n_rate RF i : R) : RN) /\ n_vp RN im' = (Some (n_vp RF i : R) : RN) /\ n_vr RN im' = (Some (n_vr RF i : R) : RN) /\ n_err RN im' = (Some (sqrt (n_vp RF i + n_vr RF i)) : RN).
Proof.
  intros median median' final_dq l im' i MED M1 FI L2 R0 V1 V2 H.
  assert (N : fitted l <> []) by (rewrite FI; discriminate). assert (P : forall j, In j (fitted l) -> 0 <= n_vp RF j /\ 0 < n_vr RF j) by (rewrite FI; intros j [<-|[]]; auto).
  assert (Un : image_info RN median' final_dq (map up l) = (do dq <- final_dq (map (n_dq RN) (map up l));
        let '(_, _, s1) := image_pass RN (map up l) (median' (map (n_rate RN) (map up l))) in let '(vp, w, s2) := image_pass RN (map up l) s1 in
        let var v := nansum_or_nan RN (map (fun vw => fmul RN (fst vw) (fmul RN (snd vw) (snd vw))) (combine v w)) in
        let var_p := var vp in let var_r := var (map (n_vr RN) (map up l)) in
        Some {| n_rate := s2; n_dq := dq; n_vp := var_p; n_vr := var_r; n_err := fsqrt RN (fadd RN var_p var_r); n_chisq := suml RN (map (n_chisq RN) (map up l)) |})).
  { rewrite <- (map_length up) in L2. clear - L2. destruct (map up l) as [|i1 [|i2 r]]; [cbn in L2; lia|cbn in L2; lia|reflexivity]. }
  rewrite Un in H. clear Un. destruct (final_dq _) as [dq|]; [|discriminate]. cbn [bind] in H.
  rewrite MED in H by (rewrite rates_up, FI; discriminate). rewrite rates_up, FI in H. cbn [map] in H. rewrite M1 in H. set (r := n_rate RF i : R) in *.
  assert (IV : int_var r i = n_vp RF i + n_vr RF i).
  { unfold int_var. fold r. replace (r / r) with 1 by (field; exact R0). destruct (Rltb 1 0) eqn:E; [apply Rltb_spec in E; lra|]. change (F RF) with R. ring. }
  assert (WM : wmean r (fitted l) = r).
  { unfold wmean. rewrite FI. cbn [map]. rewrite !Rsum_cons, !Rsum_nil, IV, !Rplus_0_r. fold r. change (F RF) with R in *. field. lra. }
  rewrite (pass_up l r N P) in H. cbv beta iota in H. rewrite WM in H. rewrite (pass_up l r N P) in H. cbv beta iota zeta in H.
  rewrite (var_up l r N P (scaled RN (Some r)) (fun i => int_var r i - n_vr RF i)) in H; [|intros j _; apply scaled_up|reflexivity].
  rewrite (var_up l r N P (n_vr RN) (fun i => n_vr RF i : R)) in H; [|reflexivity|reflexivity].
  injection H as <-. cbn [n_rate n_vp n_vr n_err]. rewrite WM, FI. cbn [map]. rewrite !Rsum_cons, !Rsum_nil, IV, !Rplus_0_r. change (F RF) with R in *.
  assert (Q : 0 < n_vp RF i + n_vr RF i) by lra. set (q := n_vp RF i + n_vr RF i) in *.
  replace (/ q / / q) with 1 by (field; lra). split; [reflexivity|]. split; [f_equal; unfold q; ring|]. split; [f_equal; ring|].
  cbn [fadd fsqrt RN rn2]. replace ((q - n_vr RF i) * (1 * 1) + n_vr RF i * (1 * 1)) with q by ring. destruct (Rltb q 0) eqn:E; [apply Rltb_spec in E; lra|reflexivity].
Qed.
Print Assumptions C136_one.
(** Chi squared is not treated so (np.sum, not np.nansum): one integration without a fit makes it missing for the exposure. *)
Theorem C136_chisq_missing : forall median' final_dq (l : list shot) im', (2 <= length l)%nat ->
  Exists (fun x : shot => match x with inl _ => False | inr _ => True end) l -> image_info RN median' final_dq (map up l) = Some im' -> n_chisq RN im' = (None : RN).
Proof.
  intros median' final_dq l im' L E H. rewrite <- (map_length up) in L. rewrite <- (chisq_missing l E). clear E.
  destruct (map up l) as [|i1 [|i2 r]]; [cbn in L; lia|cbn in L; lia|]. unfold image_info in H. destruct (final_dq _); [|discriminate]. cbn [bind] in H.
  destruct (image_pass RN (i1 :: i2 :: r) _) as [[? ?] ?]. destruct (image_pass RN (i1 :: i2 :: r) _) as [[? ?] ?]. injection H as <-. reflexivity.
Qed.
Print Assumptions C136_chisq_missing.
(** three integrations, the second without a fit *)
Definition mi_l : list shot := [inl (ex_lint 3); inr 1%N; inl (ex_lint 5)].
Definition mi_med (l : list R) : R := nth 0 l 0.
Definition mi_med' (l : list RN) : RN := match flat_map (fun x : option R => match x with Some v => [v] | None => [] end) l with [] => None | v :: r => Some v end.
Example C136_example : is_nanmedian mi_med' mi_med /\ exists im, image_info RN mi_med' (fun _ => Some 0%N) (map up mi_l) = Some im /\
  (exists rate, n_rate RN im = (Some rate : RN) /\ 3 <= rate <= 5) /\ n_chisq RN im = (None : RN).
Proof.
  assert (M : is_nanmedian mi_med' mi_med). { intros l H. unfold mi_med', mi_med. destruct (flat_map (fun x : option R => match x with Some v => [v] | None => [] end) l) as [|v r]; [congruence|reflexivity]. }
  split; [exact M|]. eexists. split; [reflexivity|]. match goal with |- context[n_rate RN ?i] => set (im := i) end. split.
  - destruct (C136_bounds mi_med mi_med' (fun _ => Some 0%N) mi_l im 3 5 M) as (rate & vp & vr & err & E & _ & _ & _ & B & _); [cbn; lia| | |reflexivity|exists rate; auto].
    + intros i [<-|[<-|[]]]; cbn; lra.
    + intros i [<-|[<-|[]]]; cbn; lra.
  - apply (C136_chisq_missing mi_med' (fun _ => Some 0%N) mi_l im); [cbn; lia|right; left; exact I|reflexivity].
Qed.
Example C136_one_example : exists im, image_info RN mi_med' (fun _ => Some 0%N) (map up [inr 1%N; inl (ex_lint 3)]) = Some im /\ n_rate RN im = (Some 3 : RN) /\ n_vr RN im = (Some 1 : RN).
Proof.
  destruct C136_example as [M _]. eexists. split; [reflexivity|]. match goal with |- context[n_rate RN ?i] => set (im := i) end.
  destruct (C136_one mi_med mi_med' (fun _ => Some 0%N) [inr 1%N; inl (ex_lint 3)] im (ex_lint 3) M) as (A & _ & B & _); [reflexivity|reflexivity|cbn; lia|cbn; lra|cbn; lra|cbn; lra|reflexivity|].
  split; [exact A|exact B].
Qed.
