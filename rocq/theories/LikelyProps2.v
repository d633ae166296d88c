(** Theorems about the likelihood ramp fit, continued (C73-C76). *)
From Verif Require Import Base BaseLemmas FLaws RBase LikelyModel LikelySpec LikelyProofs LikelyFit LikelyNoise LikelyOmit LikelyMask LikelyImage LikelyProps.
From Coq Require Import Reals Lra Lia Sorted SpecFloat FunctionalExtensionality.
Local Open Scope R_scope.

(** ** C73: the variance parts *)
Lemma Sn_last n f : (1 <= n)%nat -> Sn n (fun i => if Nat.ltb (S i) n then f i else 0) = Sn (n - 1) f.
Proof.
  intro H. destruct n as [|n]; [lia|]. cbn [Sn]. destruct (Nat.ltb_spec (S n) (S n)); [lia|]. rewrite Rplus_0_r. replace (S n - 1)%nat with n by lia.
  apply Sn_ext. intros i Hi. destruct (Nat.ltb_spec (S i) (S n)); [reflexivity|lia].
Qed.
Lemma Sn_prev n f : Sn n (fun i => match i with O => 0 | S k => f k end) = Sn (n - 1) f.
Proof.
  induction n as [|n IH]; [reflexivity|]. cbn [Sn]. rewrite IH. destruct n as [|n]; [cbn; ring|]. replace (S (S n) - 1)%nat with (S n) by lia. replace (S n - 1)%nat with n by lia. reflexivity.
Qed.
Lemma quad_tri n a b w : (1 <= n)%nat ->
  quad n (fun _ => true) (tri a b) w w = Sn n (fun i => w i * w i * a i) + 2 * Sn (n - 1) (fun i => w (S i) * w i * b i).
Proof.
  intro H. unfold quad, Su. rewrite (Sn_ext n _ (fun i => (match i with O => 0 | S k => w (S k) * w k * b k end) + (w i * w i * a i + (if Nat.ltb (S i) n then w (S i) * w i * b i else 0)))).
  - rewrite !Sn_plus, Sn_last, Sn_prev by exact H. ring.
  - intros i Hi. rewrite tri_row by exact Hi. destruct i, (Nat.ltb _ n); ring.
Qed.
Lemma quad_mask n use V w : (forall i, (i < n)%nat -> use i = false -> w i = 0) -> quad n use V w w = quad n (fun _ => true) V w w.
Proof.
  intro Z. unfold quad, Su. apply Sn_ext. intros i Hi. destruct (use i) eqn:U.
  - f_equal. apply Sn_ext. intros j Hj. destruct (use j) eqn:Uj; [reflexivity|]. rewrite (Z j Hj Uj). ring.
  - rewrite (Z i Hi U). ring.
Qed.
Lemma quad_lin n use V W a b x : quad n use (fun i j => a * V i j + b * W i j) x x = a * quad n use V x x + b * quad n use W x x.
Proof.
  unfold quad. rewrite <- !Su_scal, <- Su_plus. apply Su_ext. intros i Hi Ui.
  rewrite (Su_ext n use (fun j => (a * V i j + b * W i j) * x j) (fun j => a * (V i j * x j) + b * (W i j * x j))) by (intros; ring). rewrite Su_plus, !Su_scal. ring.
Qed.
(** The reported Poisson and read-noise variances are the variances the two noise sources give the fitted weighted
    mean; both are non-negative and they add up to the square of the reported error. *)
Theorem C73_variance_parts : forall times guess gain rn root use d r,
  sane times guess gain rn root use ->
  let n := (length times - 1)%nat in
  fit_ramps RF n (mk_covar RF times) root gain rn (Some guess) d use = Some r ->
  f_vp RF r = quad n use (diff_cov (guess / gain) 0 times) (f_w RF r) (f_w RF r) /\
  f_vr RF r = quad n use (diff_cov 0 rn times) (f_w RF r) (f_w RF r) /\
  0 <= f_vp RF r /\ 0 < f_vr RF r /\ f_vp RF r + f_vr RF r = f_uncert RF r * f_uncert RF r.
Proof.
  intros times guess gain rn root use d r OK n H.
  pose proof (b_n _ _ _ _ _ _ OK) as N. fold n in N.
  destruct (C37_gls _ _ _ _ _ _ _ _ OK H) as [[x X] G]. destruct (G x X) as [P [_ [_ W]]]. clear G. fold n in X, P, W.
  destruct (C37_best_linear_unbiased _ _ _ _ _ _ _ _ OK H) as [S1 [_ [UU _]]]. fold n in S1, UU.
  pose proof (b_r times guess gain rn root use d r H) as E. fold n in E.
  pose proof (sane_times _ _ _ _ _ _ OK) as Gt. pose proof (sane_rate _ _ _ _ _ _ OK) as Hr. pose proof (sane_rn _ _ _ _ _ _ OK) as Hn.
  assert (Z : forall i, (i < n)%nat -> use i = false -> f_w RF r i = 0) by (intros i Hi U; rewrite (W i Hi), U; reflexivity).
  set (c := pixel_cov RF (mk_covar RF times) guess gain rn) in *.
  assert (Vp : f_vp RF r = quad n (fun _ => true) (tri (p_ap RF c) (p_bp RF c)) (f_w RF r) (f_w RF r)).
  { rewrite quad_tri by exact N. rewrite E. unfold fit_ramp, ramp_result. cbn [f_vp f_w]. rewrite !lsum_Sn. toF. reflexivity. }
  assert (Vr : f_vr RF r = quad n (fun _ => true) (tri (p_ar RF c) (p_br RF c)) (f_w RF r) (f_w RF r)).
  { rewrite quad_tri by exact N. rewrite E. unfold fit_ramp, ramp_result. cbn [f_vr f_w]. rewrite !lsum_Sn. toF. reflexivity. }
  assert (Tp : forall i j, (i < n)%nat -> (j < n)%nat -> diff_cov (guess / gain) 0 times i j = tri (p_ap RF c) (p_bp RF c) i j).
  { intros i j Hi Hj. rewrite (cov_is_tri times guess gain 0 Gt i j) by (unfold n in *; lia). unfold tri, p_alpha, p_beta, c, pixel_cov. cbn [p_ap p_ar p_bp p_br]. toF.
    destruct (Nat.eqb i j); [ring|]. destruct (Nat.eqb j (S i)); [ring|]. destruct (Nat.eqb i (S j)); ring. }
  assert (Tr : forall i j, (i < n)%nat -> (j < n)%nat -> diff_cov 0 rn times i j = tri (p_ar RF c) (p_br RF c) i j).
  { intros i j Hi Hj. replace 0 with (0 / gain) by (unfold Rdiv; ring). rewrite (cov_is_tri times 0 gain rn Gt i j) by (unfold n in *; lia). unfold tri, p_alpha, p_beta, c, pixel_cov. cbn [p_ap p_ar p_bp p_br]. toF. unfold Rdiv.
    destruct (Nat.eqb i j); [ring|]. destruct (Nat.eqb j (S i)); [ring|]. destruct (Nat.eqb i (S j)); ring. }
  assert (Qp : f_vp RF r = quad n use (diff_cov (guess / gain) 0 times) (f_w RF r) (f_w RF r)) by (rewrite (quad_mask n use _ _ Z), (quad_ext n _ _ _ _ _ Tp); exact Vp).
  assert (Qr : f_vr RF r = quad n use (diff_cov 0 rn times) (f_w RF r) (f_w RF r)) by (rewrite (quad_mask n use _ _ Z), (quad_ext n _ _ _ _ _ Tr); exact Vr).
  assert (Ne : exists i, (i < n)%nat /\ use i = true /\ f_w RF r i <> 0).
  { destruct (Classical_Prop.classic (exists i, (i < n)%nat /\ use i = true /\ f_w RF r i <> 0)) as [Y|No]; [exact Y|exfalso].
    assert (Su n use (f_w RF r) = 0); [|lra]. apply Sn_zero. intros i Hi. destruct (use i) eqn:U; [|reflexivity].
    destruct (Req_dec (f_w RF r i) 0) as [Q|Q]; [exact Q|]. exfalso. apply No. exists i. auto. }
  assert (Pr : forall e, e <> 0 -> 0 < quad n use (diff_cov 0 e times) (f_w RF r) (f_w RF r)).
  { intros e He. apply posdef_used; [|exact Ne]. apply noise_posdef; [exact Gt|lra|exact He]. }
  split; [exact Qp|]. split; [exact Qr|].
  assert (Sum : forall e, quad n use (diff_cov (guess / gain) e times) (f_w RF r) (f_w RF r) = f_vp RF r + e * e * quad n use (diff_cov 0 1 times) (f_w RF r) (f_w RF r)).
  { intro e. rewrite Qp. rewrite (quad_ext n use (diff_cov (guess / gain) e times) (fun i j => 1 * diff_cov (guess / gain) 0 times i j + e * e * diff_cov 0 1 times i j)), quad_lin; [ring|].
    intros i j Hi Hj. unfold diff_cov, group_cov. destruct (Nat.eqb (S i) (S j)), (Nat.eqb (S i) j), (Nat.eqb i (S j)), (Nat.eqb i j); unfold Rdiv; ring. }
  pose proof (Pr 1 ltac:(lra)) as P1. set (q := quad n use (diff_cov 0 1 times) (f_w RF r) (f_w RF r)) in *.
  split.
  - destruct (Rle_lt_dec 0 (f_vp RF r)) as [Y|Neg]; [exact Y|exfalso].
    set (e := sqrt (- f_vp RF r / (2 * q))). assert (Ep : 0 < - f_vp RF r / (2 * q)) by (apply Rdiv_lt_0_compat; lra).
    assert (Es : e * e = - f_vp RF r / (2 * q)) by (apply sqrt_sqrt; lra).
    assert (Ez : e <> 0) by (intro Q; rewrite Q in Es; rewrite <- Es in Ep; lra).
    assert (PP : 0 < quad n use (diff_cov (guess / gain) e times) (f_w RF r) (f_w RF r)) by (apply posdef_used; [apply noise_posdef; assumption|exact Ne]).
    rewrite Sum, Es in PP. replace (- f_vp RF r / (2 * q) * q) with (- f_vp RF r / 2) in PP by (eqR; field; lra). cbn [F RF] in *. lra.
  - split; [rewrite Qr; apply Pr, Hn|]. rewrite UU, Sum, Qr. f_equal.
    rewrite (quad_ext n use (diff_cov 0 rn times) (fun i j => 0 * diff_cov 0 0 times i j + rn * rn * diff_cov 0 1 times i j)), quad_lin; [unfold q; ring|].
    intros i j Hi Hj. unfold diff_cov, group_cov. destruct (Nat.eqb (S i) (S j)), (Nat.eqb (S i) j), (Nat.eqb i (S j)), (Nat.eqb i j); unfold Rdiv; ring.
Qed.
Print Assumptions C73_variance_parts.
(** for the three reads of C37's example: weights 1/2 each, Poisson part 1/2, read-noise part 1/2 *)
Lemma ex_cov_r i j : (i < 2)%nat -> (j < 2)%nat -> diff_cov 0 1 ex_times i j = if Nat.eqb i j then 2 else -1.
Proof.
  intros Hi Hj. destruct i as [|[|i]]; [| |lia]; destruct j as [|[|j]]; try lia; cbn; unfold diff_cov, group_cov, pcovR, Rmean; cbn;
    unfold Rmin; repeat match goal with |- context[Rle_dec ?a ?b] => destruct (Rle_dec a b); try lra end; field.
Qed.
Example C73_ex : forall r, fit_ramps RF 2 (mk_covar RF ex_times) (fun x _ => x) 1 1 (Some 1) (fun i => match i with O => 1 | _ => 3 end) (fun _ => true) = Some r ->
  f_vp RF r = 1 / 2 /\ f_vr RF r = 1 / 2.
Proof.
  intros r H. destruct (C73_variance_parts ex_times 1 1 1 (fun x _ => x) (fun _ => true) _ r (ex_sane _ eq_refl) H) as [_ [B [_ [_ S]]]].
  destruct (C37_gls ex_times 1 1 1 (fun x _ => x) (fun _ => true) _ r (ex_sane _ eq_refl) H) as [_ G].
  assert (X : solves 2 (fun _ => true) (diff_cov (1 / 1) 1 ex_times) (fun _ => / 2) (fun _ => 1)).
  { intros i Hi _. unfold Su. cbn [Sn]. rewrite !ex_cov by lia. destruct i as [|[|i]]; [| |lia]; cbn; lra. }
  destruct (G (fun _ => / 2) X) as [_ [_ [_ W]]]. change (length ex_times - 1)%nat with 2%nat in B, S, W.
  assert (V : f_vr RF r = 1 / 2).
  { rewrite B. unfold quad, Su. cbn [Sn]. rewrite !ex_cov_r, !W by lia. unfold Su. cbn [Sn Nat.eqb]. eqR. field. }
  split; [|exact V]. rewrite V in S. destruct (C37_gls_ex r H) as [_ U]. rewrite U in S. cbn [F RF] in *. lra.
Qed.

(** ** C74: the fits with one or two differences left out *)
Lemma without_masked use k : use k = false -> without use k = use.
Proof. intro U. apply functional_extensionality. intro i. unfold without. destruct (Nat.eqb_spec i k) as [->|]; [rewrite U; reflexivity|apply andb_true_r]. Qed.
Lemma without_swap use k l : without (without use k) l = without (without use l) k.
Proof. apply functional_extensionality. intro i. unfold without. destruct (use i), (Nat.eqb i k), (Nat.eqb i l); reflexivity. Qed.
Section C74.
  Variables (n : nat) (c : pixcov RF) (d : nat -> R) (use : nat -> bool).
  Let V := tri (p_alpha RF c) (p_beta RF c).
  Hypothesis n1 : (1 <= n)%nat. Hypothesis PD : posdef n V.
  Lemma scale_free s1 s2 u : 0 < s1 -> 0 < s2 -> (exists i, (i < n)%nat /\ u i = true) ->
    f_rate RF (fit_ramp RF n c s1 d u) = f_rate RF (fit_ramp RF n c s2 d u) /\ f_chisq RF (fit_ramp RF n c s1 d u) = f_chisq RF (fit_ramp RF n c s2 d u) /\
    f_uncert RF (fit_ramp RF n c s1 d u) = f_uncert RF (fit_ramp RF n c s2 d u) /\
    (forall i, (i < n)%nat -> f_w RF (fit_ramp RF n c s1 d u) i = f_w RF (fit_ramp RF n c s2 d u) i).
  Proof.
    intros H1 H2 U. destruct (solution_exists n c n1 PD u (fun _ => 1)) as [x X]. destruct (solution_exists n c n1 PD u d) as [y Y].
    rewrite (val_rate n c d n1 PD s1 u x H1 X U), (val_rate n c d n1 PD s2 u x H2 X U), (val_chisq n c d n1 PD s1 u x y H1 X Y U), (val_chisq n c d n1 PD s2 u x y H2 X Y U), (val_uncert n c d n1 PD s1 u x H1 X U), (val_uncert n c d n1 PD s2 u x H2 X U).
    repeat split. intros i Hi. rewrite (val_w n c d n1 PD s1 u x H1 X U i Hi), (val_w n c d n1 PD s2 u x H2 X U i Hi). reflexivity.
  Qed.
  Variables (scale s' : R).
  Hypothesis Sc : 0 < scale. Hypothesis Sc' : 0 < s'.
  Let o := omissions RF n c scale d use.
  Lemma one_any k : (k < n)%nat -> (exists i, (i < n)%nat /\ without use k i = true) -> let r := fit_ramp RF n c s' d (without use k) in
    o_r1 RF o k = f_rate RF r /\ o_x1 RF o k = f_chisq RF r.
  Proof.
    intros Hk More r. unfold o, omissions. cbn [o_r1 o_x1]. destruct (use k) eqn:U.
    - destruct (solution_exists n c n1 PD use (fun _ => 1)) as [x X]. destruct (solution_exists n c n1 PD use d) as [y Y].
      exact (one_omit_refit n c d scale use n1 PD Sc x y X Y k Hk U More s' Sc').
    - unfold r. rewrite (without_masked use k U) in More |- *. destruct (scale_free scale s' use Sc Sc' More) as [A [B _]]. auto.
  Qed.
  (** leaving out k and k+1 can be told apart: the two differences stay coupled once the rate has been fitted *)
  Definition coupling (k : nat) : Prop := forall x u, solves n use V x (fun _ => 1) -> solves n use V u (fun i => if Nat.eqb i k then 1 else 0) ->
    Su n use x * u (S k) <> x k * x (S k).
  Lemma two_any k : (S k < n)%nat -> (exists i, (i < n)%nat /\ without (without use k) (S k) i = true) ->
    (use k = true -> use (S k) = true -> coupling k) -> let r := fit_ramp RF n c s' d (without (without use k) (S k)) in
    o_r2 RF o k = f_rate RF r /\ o_x2 RF o k = f_chisq RF r.
  Proof.
    intros Hk More Cp r. destruct (use k) eqn:U.
    - destruct (use (S k)) eqn:U1.
      + unfold o, omissions. cbn [o_r2 o_x2]. rewrite U, U1. cbn [negb].
        destruct (solution_exists n c n1 PD use (fun _ => 1)) as [x X]. destruct (solution_exists n c n1 PD use d) as [y Y].
        apply (two_omit_refit n c d scale use n1 PD Sc x y X Y k Hk U U1 More s'); [|exact Sc'].
        unfold coupled. rewrite (val_C n c d n1 PD scale use x Sc X), !(val_dC n c d n1 PD scale use x Sc X), (off_e n c scale use PD Sc), U, U1 by lia.
        pose proof (Cp eq_refl eq_refl x _ X (e_solves n c scale use n1 PD Sc k ltac:(lia) U)) as Q. cbv beta in Q.
        match goal with |- context[scale * (?a / scale)] => set (e := a / scale) in * end.
        intro Z. apply Q. toF. apply (Rmult_eq_reg_l (scale * scale)); [|apply Rmult_integral_contrapositive_currified; lra].
        fold e. assert (Z' : scale * x k * (scale * x (S k)) - scale * Su n use x * (scale * e) = 0) by exact Z. lra.
      + unfold r. rewrite without_swap, (without_masked use (S k) U1) in More |- *. destruct (one_any k ltac:(lia) More) as [A B]. rewrite <- A, <- B.
        unfold o, omissions. cbn [o_r2 o_x2 o_r1 o_x1]. rewrite U, U1. cbn [negb]. auto.
    - unfold r. rewrite (without_masked use k U) in More |- *. destruct (one_any (S k) Hk More) as [A B]. rewrite <- A, <- B.
      unfold o, omissions. cbn [o_r2 o_x2 o_r1 o_x1]. rewrite U. cbn [negb]. auto.
  Qed.
End C74.

(** The rate and chi squared reported for leaving out a difference are those of a new fit without it, whatever the mask
    (leaving out a masked difference changes nothing). *)
Theorem C74_one_omitted : forall n (c : pixcov RF) scale s' d use k,
  (1 <= n)%nat -> posdef n (tri (p_alpha RF c) (p_beta RF c)) -> 0 < scale -> 0 < s' -> (k < n)%nat ->
  (exists i, (i < n)%nat /\ without use k i = true) ->
  let o := omissions RF n c scale d use in let r := fit_ramp RF n c s' d (without use k) in
  o_r1 RF o k = f_rate RF r /\ o_x1 RF o k = f_chisq RF r.
Proof. intros n c scale s' d use k N PD Sc Sc' Hk More. exact (one_any n c d use N PD scale s' Sc Sc' k Hk More). Qed.
Print Assumptions C74_one_omitted.
(** The same for two neighbouring differences, provided they are coupled. *)
Theorem C74_two_omitted_partial : forall n (c : pixcov RF) scale s' d use k,
  (1 <= n)%nat -> posdef n (tri (p_alpha RF c) (p_beta RF c)) -> 0 < scale -> 0 < s' -> (S k < n)%nat ->
  (exists i, (i < n)%nat /\ without (without use k) (S k) i = true) ->
  (use k = true -> use (S k) = true -> coupling n c use k) ->
  let o := omissions RF n c scale d use in let r := fit_ramp RF n c s' d (without (without use k) (S k)) in
  o_r2 RF o k = f_rate RF r /\ o_x2 RF o k = f_chisq RF r.
Proof. intros n c scale s' d use k N PD Sc Sc' Hk More Cp. exact (two_any n c d use N PD scale s' Sc Sc' k Hk More Cp). Qed.
Print Assumptions C74_two_omitted_partial.
(** independent differences of equal variance: any two of them are coupled through the common rate *)
Lemma flat_coupling use k : (S k < 3)%nat -> use k = true -> use (S k) = true -> coupling 3 flat_cov use k.
Proof.
  intros Hk U U1 x u X E.
  assert (V : forall w i, (i < 3)%nat -> use i = true -> Su 3 use (fun j => tri (p_alpha RF flat_cov) (p_beta RF flat_cov) i j * w j) = 2 * w i).
  { intros w i Hi Ui. unfold Su. rewrite (Sn_single 3 i); [rewrite Ui; unfold tri; rewrite Nat.eqb_refl; unfold p_alpha; cbn; eqR; ring|exact Hi|].
    intros j _ Ne. destruct (use j); [|reflexivity]. unfold tri. destruct (Nat.eqb_spec i j); [congruence|]. unfold p_beta. cbn. destruct (Nat.eqb j (S i)), (Nat.eqb i (S j)); ring. }
  pose proof (X k ltac:(lia) U) as X0. pose proof (X (S k) Hk U1) as X1. pose proof (E (S k) Hk U1) as E1. cbv beta in E1.
  rewrite V in X0, X1, E1 by (lia || assumption). destruct (Nat.eqb_spec (S k) k); [lia|].
  replace (u (S k)) with 0 by lra. replace (x k) with (1 / 2) by lra. replace (x (S k)) with (1 / 2) by lra. lra.
Qed.
(** three differences 1, 1000, 5: leaving out the second gives the mean of 1 and 5, leaving out the first two gives 5 *)
Example C74_ex : let d := fun i : nat => nth i [1; 1000; 5] 0 in let o := omissions RF 3 flat_cov 1 d (fun _ => true) in o_r1 RF o 1%nat = 3 /\ o_r2 RF o 0%nat = 5 /\ o_x2 RF o 0%nat = 0.
Proof.
  intros d o.
  destruct (C74_one_omitted 3 flat_cov 1 1 d (fun _ => true) 1 ltac:(lia) (flat_posdef 3) ltac:(lra) ltac:(lra) ltac:(lia) ltac:(exists 0%nat; split; [lia|reflexivity])) as [A _].
  destruct (C74_two_omitted_partial 3 flat_cov 1 1 d (fun _ => true) 0 ltac:(lia) (flat_posdef 3) ltac:(lra) ltac:(lra) ltac:(lia) ltac:(exists 2%nat; split; [lia|reflexivity]) (fun a b => flat_coupling _ 0 ltac:(lia) a b)) as [B C].
  fold o in A, B, C. rewrite A, B, C. split.
  - assert (X : solves 3 (without (fun _ => true) 1) (tri (p_alpha RF flat_cov) (p_beta RF flat_cov)) (fun _ => / 2) (fun _ => 1)).
    { intros i Hi Ui. unfold Su, without. destruct i as [|[|[|i]]]; [| discriminate | |lia]; cbn; unfold p_alpha, p_beta; cbn; lra. }
    rewrite (val_rate 3 flat_cov d ltac:(lia) (flat_posdef 3) 1 _ _ ltac:(lra) X ltac:(exists 0%nat; split; [lia|reflexivity])).
    unfold Su, without, d. cbn. lra.
  - apply (C38_constant_rate 3 flat_cov 1 d _ 5 ltac:(lia) (flat_posdef 3) ltac:(lra)).
    + exists 2%nat. split; [lia|reflexivity].
    + intros i Hi Ui. destruct i as [|[|[|i]]]; [discriminate|discriminate|reflexivity|lia].
Qed.
(** Without coupling the formula for two omissions divides by zero.  Reads at 1, 2, 3, 5, read noise only, differences
    -1, 1000, -1: the value for the pair is NaN, and the comparison with NaN then makes the search find no jump,
    although leaving out the middle difference alone lowers chi squared from about 286285 to 0. *)
Theorem C74_uncoupled_refuted : exists times diffs,
  let j := ex_jf times diffs (fun _ => true) in let o := j_om B64 j in
  fisnan B64 (o_x2 B64 o 0%nat) = true /\
  flt B64 (z64 286000) (fsub B64 (j_chisq B64 j) (o_x1 B64 o 1%nat)) = true /\
  (let r := drops B64 3 (fun _ => 1%nat) ex_h j in map (fst r) [0%nat; 1%nat; 2%nat] = [false; false; false] /\ map (snd r) [0%nat; 1%nat] = [false; false]).
Proof. exists [1; 2; 3; 5]%Z, [-1; 1000; -1]%Z. vm_compute. auto. Qed.
Print Assumptions C74_uncoupled_refuted.

(** ** C75: the internal rescaling of the covariance *)
Theorem C75_scale_immaterial : forall n (c : pixcov RF) s1 s2 d use,
  (1 <= n)%nat -> posdef n (tri (p_alpha RF c) (p_beta RF c)) -> 0 < s1 -> 0 < s2 -> (exists i, (i < n)%nat /\ use i = true) ->
  let r1 := fit_ramp RF n c s1 d use in let r2 := fit_ramp RF n c s2 d use in
  f_rate RF r1 = f_rate RF r2 /\ f_chisq RF r1 = f_chisq RF r2 /\ f_uncert RF r1 = f_uncert RF r2 /\
  (forall i, (i < n)%nat -> f_w RF r1 i = f_w RF r2 i) /\ f_vp RF r1 = f_vp RF r2 /\ f_vr RF r1 = f_vr RF r2.
Proof.
  intros n c s1 s2 d use N PD H1 H2 U r1 r2. destruct (scale_free n c d N PD s1 s2 use H1 H2 U) as [A [B [C D]]]. fold r1 r2 in A, B, C, D.
  split; [exact A|]. split; [exact B|]. split; [exact C|]. split; [exact D|].
  unfold r1, r2, fit_ramp, ramp_result in *. cbn [f_vp f_vr f_w] in *. rewrite !lsum_Sn.
  split; toF; (f_equal; [apply Sn_ext; intros i Hi; rewrite D by exact Hi; reflexivity|f_equal; apply Sn_ext; intros i Hi; rewrite !D by lia; reflexivity]).
Qed.
Print Assumptions C75_scale_immaterial.
(** The scale chosen is positive, and with exact roots it brings the determinant to one, whatever the ramp length. *)
Theorem C75_scale_choice : forall n (c : pixcov RF) root,
  let al := p_alpha RF c in let be := p_beta RF c in
  posdef n (tri al be) -> (forall x i, 0 < x -> (1 <= i)%nat -> 0 < root x i) ->
  0 < scale_of RF root n al be /\
  ((2 <= n)%nat -> (forall x k, 0 < x -> (1 <= k)%nat -> root x k ^ k = x) ->
   theta RF (fun i => al i / scale_of RF root n al be) (fun i => be i / scale_of RF root n al be) n = 1).
Proof.
  intros n c root al be PD Rt.
  assert (TH : forall i, (i <= n)%nat -> 0 < theta RF al be i).
  { intros i Hi. apply (minors_pos n al be); [apply theta_0|apply theta_1|intro; apply theta_S| |exact Hi]. intros x Hx. exact (PD x Hx). }
  pose proof (scale_pos n al be root TH Rt) as P. split; [exact P|]. intros N X. pose proof (scale_det n al be root TH Rt N X) as D.
  set (s := scale_of RF root n al be) in *.
  assert (Sc : forall i, theta RF (fun i => al i / s) (fun i => be i / s) i * s ^ i = theta RF al be i /\ theta RF (fun i => al i / s) (fun i => be i / s) (S i) * s ^ S i = theta RF al be (S i)).
  { induction i as [|i [I1 I2]].
    - rewrite !theta_0, !theta_1. split; [cbn; eqR; ring|]. cbn [pow]. eqR. field. lra.
    - split; [exact I2|]. rewrite !theta_S, <- I1, <- I2. cbn [pow]. eqR. field. lra. }
  destruct (Sc n) as [E _]. rewrite <- D in E. assert (Q : s ^ n <> 0) by (pose proof (pow_lt s n P); lra).
  apply (Rmult_eq_reg_r (s ^ n)); [rewrite Rmult_1_l; exact E|exact Q].
Qed.
Print Assumptions C75_scale_choice.
(** four differences of variance 2, scale 2 instead of 1 *)
Example C75_ex : let d := fun i : nat => nth i [1; 2; 4; 5] 0 in f_rate RF (fit_ramp RF 4 flat_cov 1 d (fun _ => true)) = f_rate RF (fit_ramp RF 4 flat_cov 2 d (fun _ => true)) /\ 0 < scale_of RF (fun x _ => x) 4 (p_alpha RF flat_cov) (p_beta RF flat_cov).
Proof.
  intro d. split.
  - apply (C75_scale_immaterial 4 flat_cov 1 2 d (fun _ => true)); [lia|apply flat_posdef|lra|lra|exists 0%nat; split; [lia|reflexivity]].
  - apply (C75_scale_choice 4 flat_cov (fun x _ => x)); [apply flat_posdef|auto].
Qed.

(** ** C76: combining the integrations *)
Lemma Rsum_member {A} (f : A -> R) l i : In i l -> (forall j, In j l -> 0 < f j) -> f i <= Rsum (map f l).
Proof.
  induction l as [|x l IH]; intros Hi P; [destruct Hi|]. cbn [map]. rewrite Rsum_cons. pose proof (P x (or_introl eq_refl)). destruct l as [|y l].
  - destruct Hi as [->|[]]. cbn. lra.
  - assert (0 < Rsum (map f (y :: l))) by (apply Rsum_pos'; [discriminate|]; intros; apply P; right; assumption).
    destruct Hi as [->|Hi]; [lra|]. specialize (IH Hi (fun j H => P j (or_intror H))). lra.
Qed.
(** For every median and every final-DQ rule: the combined rate lies between the rates of the integrations, the error is
    that of the inverse-variance weighted mean and no larger than any single integration's, the variances are
    non-negative and add up to its square, and chi squared adds up. *)
Theorem C76_combined : forall median final_dq ints im u v,
  (2 <= length ints)%nat -> (forall i, In i ints -> 0 <= n_vp RF i /\ 0 < n_vr RF i) -> (forall i, In i ints -> u <= n_rate RF i <= v) ->
  image_info RF median final_dq ints = Some im ->
  u <= n_rate RF im <= v /\ n_err RF im * n_err RF im = n_vp RF im + n_vr RF im /\ 0 <= n_vp RF im /\ 0 < n_vr RF im /\
  (exists s, u <= s <= v /\ n_vp RF im + n_vr RF im = / Rsum (map (fun i => / int_var s i) ints) /\ forall i, In i ints -> n_vp RF im + n_vr RF im <= int_var s i) /\
  n_chisq RF im = Rsum (map (n_chisq RF) ints).
Proof.
  intros median final_dq ints im u v L P B H. destruct (image_is median final_dq ints im L H) as [Er [Ep [Erv [Ee [Ec _]]]]].
  set (s1 := wmean (median (map (n_rate RF) ints)) ints) in *. cbv zeta in *.
  assert (N : ints <> []) by (destruct ints; [cbn in L; lia|discriminate]).
  assert (IV : forall i, In i ints -> 0 < int_var s1 i) by (intros i Hi; apply int_var_pos; apply P, Hi).
  set (W := Rsum (map (fun i => / int_var s1 i) ints)) in *.
  assert (Wp : 0 < W) by (apply Rsum_pos'; [exact N|]; intros i Hi; apply Rinv_0_lt_compat, IV, Hi).
  assert (Wg : forall i, In i ints -> 0 < / int_var s1 i / W) by (intros i Hi; apply Rdiv_lt_0_compat; [apply Rinv_0_lt_compat, IV, Hi|exact Wp]).
  assert (Vp : 0 <= n_vp RF im).
  { rewrite Ep. replace 0 with (Rsum (map (fun _ : lint RF => 0) ints)) by (clear; induction ints as [|x l IH]; [reflexivity|cbn [map]; rewrite Rsum_cons, IH; lra]).
    apply Rsum_le'. intros i Hi. apply Rmult_le_pos; [|left; apply Rmult_lt_0_compat; apply Wg, Hi].
    unfold int_var. destruct (P i Hi) as [A _]. assert (Q : 0 <= if Rltb (s1 / n_rate RF i) 0 then 0 else s1 / n_rate RF i).
    { destruct (Rltb (s1 / n_rate RF i) 0) eqn:E; [lra|]. apply Rnot_lt_le. intro Q. apply (proj2 (Rltb_spec _ _)) in Q. congruence. }
    pose proof (Rmult_le_pos _ _ A Q). cbn [F RF] in *. lra. }
  assert (Vr : 0 < n_vr RF im).
  { rewrite Erv. apply Rsum_pos'; [exact N|]. intros i Hi. apply Rmult_lt_0_compat; [apply P, Hi|]. apply Rmult_lt_0_compat; apply Wg, Hi. }
  assert (Tot : n_vp RF im + n_vr RF im = / W).
  { rewrite Ep, Erv. transitivity (Rsum (map (fun i => / (W * W) * / int_var s1 i) ints)).
    - assert (G : forall l, (forall i, In i l -> In i ints) -> Rsum (map (fun i => (int_var s1 i - n_vr RF i) * (/ int_var s1 i / W * (/ int_var s1 i / W))) l) + Rsum (map (fun i => n_vr RF i * (/ int_var s1 i / W * (/ int_var s1 i / W))) l) = Rsum (map (fun i => / (W * W) * / int_var s1 i) l)).
      { induction l as [|x l IH]; intro Sub; [cbn; ring|]. cbn [map]. rewrite !Rsum_cons. rewrite <- IH by (intros; apply Sub; right; assumption).
        pose proof (IV x (Sub x (or_introl eq_refl))). eqR. field. split; [lra|]. cbn [F RF] in *. lra. }
      apply G. auto.
    - assert (G : forall l, Rsum (map (fun i => / (W * W) * / int_var s1 i) l) = / (W * W) * Rsum (map (fun i => / int_var s1 i) l)).
      { induction l as [|x l IH]; [cbn; ring|]. cbn [map]. rewrite !Rsum_cons, IH. ring. }
      rewrite G. fold W. field. lra. }
  split; [rewrite Er; apply wmean_between; assumption|]. split; [rewrite Ee; apply sqrt_sqrt; cbn [F RF] in *; lra|]. split; [exact Vp|]. split; [exact Vr|]. split; [|exact Ec].
  exists s1. split; [apply wmean_between; assumption|]. split; [exact Tot|]. intros i Hi. rewrite Tot. rewrite <- (Rinv_inv (int_var s1 i)).
  apply Rinv_le_contravar; [apply Rinv_0_lt_compat, IV, Hi|]. unfold W. apply (Rsum_member (fun i => / int_var s1 i)); [exact Hi|]. intros j Hj. apply Rinv_0_lt_compat, IV, Hj.
Qed.
Print Assumptions C76_combined.
(** the same rate in every integration is reproduced *)
Theorem C76_constant : forall median final_dq ints im q,
  (2 <= length ints)%nat -> (forall i, In i ints -> 0 <= n_vp RF i /\ 0 < n_vr RF i) -> (forall i, In i ints -> n_rate RF i = q) ->
  image_info RF median final_dq ints = Some im -> n_rate RF im = q.
Proof.
  intros median final_dq ints im q L P E H. destruct (C76_combined median final_dq ints im q q L P) as [[A B] _]; [|exact H|apply Rle_antisym; assumption].
  intros i Hi. rewrite (E i Hi). split; apply Rle_refl.
Qed.
Print Assumptions C76_constant.
Definition ex_lint (q : R) : lint RF := @Build_lint RF q 0 1 1 1 1.
Example C76_ex : exists im, image_info RF (fun l => nth 0 l 0) (fun _ => Some 0%N) [ex_lint 3; ex_lint 5] = Some im /\ 3 <= n_rate RF im <= 5 /\ n_chisq RF im = 2.
Proof.
  eexists. split; [reflexivity|]. match goal with |- context[n_rate RF ?i] => set (im := i) end.
  destruct (C76_combined (fun l => nth 0 l 0) (fun _ => Some 0%N) [ex_lint 3; ex_lint 5] im 3 5) as [A [_ [_ [_ [_ B]]]]]; [cbn; lia| | |reflexivity|].
  - intros i [<-|[<-|[]]]; cbn; lra.
  - intros i [<-|[<-|[]]]; cbn; lra.
  - split; [exact A|]. rewrite B. cbn. lra.
Qed.
