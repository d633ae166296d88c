(** Algebra of the Casertano+22 fit over the real numbers. *)
From Verif Require Import Base BaseLemmas RBase Cas22Model.
From Coq Require Import Reals Lra Lia.
Local Open Scope R_scope.

Lemma sum_R (l : list R) : sum RF l = Rsum l.
Proof.
  assert (H : forall (l : list R) (a : R), fold_left Rplus l a = a + Rsum l).
  { clear. induction l as [|x l IH]; intro a; cbn [fold_left]; [rewrite Rsum_nil; lra|]. rewrite IH, Rsum_cons. lra. }
  transitivity (0 + Rsum l); [exact (H l 0)|lra].
Qed.
Lemma Rsum_ext {A} (f g : A -> R) l : (forall x, In x l -> f x = g x) -> Rsum (map f l) = Rsum (map g l).
Proof. intro H. f_equal. apply map_ext_in, H. Qed.
Lemma Rsum_nonneg {A} (f : A -> R) l : (forall x, In x l -> 0 <= f x) -> 0 <= Rsum (map f l).
Proof. intro H. induction l as [|x l IH]; cbn [map]; rewrite ?Rsum_cons, ?Rsum_nil; [lra|]. pose proof (H x (or_introl eq_refl)).
  assert (0 <= Rsum (map f l)) by (apply IH; intros; apply H; right; assumption). lra. Qed.
Lemma Rsum_ge_member {A} (f : A -> R) l y : (forall x, In x l -> 0 <= f x) -> In y l -> f y <= Rsum (map f l).
Proof.
  intros H I. induction l as [|x l IH]; [destruct I|]. cbn [map]. rewrite Rsum_cons.
  assert (N : 0 <= Rsum (map f l)) by (apply Rsum_nonneg; intros; apply H; right; assumption).
  destruct I as [->|I]; [lra|]. pose proof (H x (or_introl eq_refl)). assert (f y <= Rsum (map f l)) by (apply IH; [intros; apply H; right; assumption|assumption]). lra.
Qed.
Lemma Rsum_pos {A} (f : A -> R) l y : (forall x, In x l -> 0 <= f x) -> In y l -> 0 < f y -> 0 < Rsum (map f l).
Proof. intros H I P. pose proof (Rsum_ge_member f l y H I). lra. Qed.
Lemma Rsum_le {A} (f g : A -> R) l : (forall x, In x l -> f x <= g x) -> Rsum (map f l) <= Rsum (map g l).
Proof. intro H. induction l as [|x l IH]; cbn [map]; rewrite ?Rsum_cons, ?Rsum_nil; [lra|]. pose proof (H x (or_introl eq_refl)).
  assert (Rsum (map f l) <= Rsum (map g l)) by (apply IH; intros; apply H; right; assumption). lra. Qed.

(** a weighted sum of squares is positive as soon as two points of positive weight differ *)
Lemma det_pos {A} (w t : A -> R) l a b : (forall x, In x l -> 0 <= w x) -> In a l -> In b l -> 0 < w a -> 0 < w b -> t a <> t b ->
  0 < Rsum (map (fun x => w x * (t x * t x)) l) * Rsum (map w l) - Rsum (map (fun x => w x * t x) l) * Rsum (map (fun x => w x * t x) l).
Proof.
  intros W Ia Ib Wa Wb T. set (f0 := Rsum (map w l)). set (f1 := Rsum (map (fun x => w x * t x) l)). set (f2 := Rsum (map _ l)).
  assert (P0 : 0 < f0) by (apply (Rsum_pos w l a); assumption).
  assert (E : Rsum (map (fun x => w x * ((t x - f1 / f0) * (t x - f1 / f0))) l) = f2 - f1 * f1 / f0).
  { rewrite (Rsum_ext _ (fun x => w x * (t x * t x) + ((- 2 * (f1 / f0)) * (w x * t x) + (f1 / f0) * (f1 / f0) * w x))) by (intros; ring).
    rewrite Rsum_plus, Rsum_plus, Rsum_scal, Rsum_scal. fold f0 f1 f2. field. lra. }
  assert (Q : 0 < f2 - f1 * f1 / f0).
  { rewrite <- E. set (m := f1 / f0). destruct (Req_EM_T (t a) m) as [Ea|N].
    - apply (Rsum_pos _ l b); [intros x I; pose proof (W x I); pose proof (Rle_0_sqr (t x - m)); unfold Rsqr in *; nra|assumption|].
      apply Rmult_lt_0_compat; [assumption|]. apply Rlt_0_sqr. lra.
    - apply (Rsum_pos _ l a); [intros x I; pose proof (W x I); pose proof (Rle_0_sqr (t x - m)); unfold Rsqr in *; nra|assumption|].
      apply Rmult_lt_0_compat; [assumption|]. apply Rlt_0_sqr. lra. }
  apply (Rmult_lt_compat_r f0) in Q; [|assumption]. replace ((f2 - f1 * f1 / f0) * f0) with (f2 * f0 - f1 * f1) in Q by (field; lra). lra.
Qed.

(** the estimator's coefficients *)
Section Coeffs.
  Variables (w t : nat -> R) (l : list nat).
  Let f0 := Rsum (map w l).
  Let f1 := Rsum (map (fun i => w i * t i) l).
  Let f2 := Rsum (map (fun i => w i * (t i * t i)) l).
  Let det := f2 * f0 - f1 * f1.
  Definition cf (i : nat) : R := (f0 * t i - f1) * w i / det.
  Lemma cf_sum0 : Rsum (map cf l) = 0.
  Proof.
    rewrite (Rsum_ext _ (fun i => (f0 / det) * (w i * t i) + (- f1 / det) * w i)) by (intros; unfold cf, Rdiv; ring).
    rewrite Rsum_plus, !Rsum_scal. fold f0 f1. unfold Rdiv. ring.
  Qed.
  Lemma cf_sum1 : det <> 0 -> Rsum (map (fun i => cf i * t i) l) = 1.
  Proof.
    intro D. rewrite (Rsum_ext _ (fun i => (f0 / det) * (w i * (t i * t i)) + (- f1 / det) * (w i * t i))) by (intros; unfold cf, Rdiv; ring).
    rewrite Rsum_plus, !Rsum_scal. fold f0 f1 f2. unfold det in *. field. exact D.
  Qed.
End Coeffs.

(** the double sum computed with a running sum *)
Definition quad (c : nat -> R) (V : nat -> nat -> R) (l : list nat) : R := Rsum (map (fun i => Rsum (map (fun j => c i * c j * V i j) l)) l).
Lemma Rsum_swap {A B} (f : A -> B -> R) l m : Rsum (map (fun i => Rsum (map (fun j => f i j) m)) l) = Rsum (map (fun j => Rsum (map (fun i => f i j) l)) m).
Proof.
  induction l as [|x l IH]; cbn [map].
  - rewrite Rsum_nil. induction m as [|y m IHm]; cbn [map]; rewrite ?Rsum_cons, ?Rsum_nil; [reflexivity|]. rewrite <- IHm. lra.
  - rewrite Rsum_cons, IH, <- Rsum_plus. apply Rsum_ext. intros y _. rewrite Rsum_cons. reflexivity.
Qed.
Lemma quad_snoc c V l k : (forall i, In i l -> V i k = V k i) ->
  quad c V (l ++ [k]) = quad c V l + (c k * c k * V k k + 2 * c k * Rsum (map (fun i => c i * V i k) l)).
Proof.
  intro S. unfold quad. rewrite !map_app, Rsum_app. cbn [map]. rewrite Rsum_cons, Rsum_nil.
  rewrite (Rsum_ext _ (fun i => Rsum (map (fun j => c i * c j * V i j) l) + c k * (c i * V i k))).
  2:{ intros i _. rewrite map_app, Rsum_app. cbn [map]. rewrite Rsum_cons, Rsum_nil. ring. }
  rewrite Rsum_plus, Rsum_scal, map_app, Rsum_app. cbn [map]. rewrite Rsum_cons, Rsum_nil.
  rewrite (Rsum_ext (fun j => c k * c j * V k j) (fun j => c k * (c j * V j k))) by (intros j I; rewrite S by assumption; ring). rewrite Rsum_scal. ring.
Qed.

(** what is used of the C function pow on non-negative bases *)
Definition pow_ok (pow : R -> R -> R) : Prop := (forall x p, 0 <= x -> 0 <= pow x p) /\ (forall p, pow 1 p = 1).
Definition c_pow (x p : R) : R := if Req_EM_T x 0 then (if Req_EM_T p 0 then 1 else 0) else Rpower x p.
Lemma c_pow_ok : pow_ok c_pow.
Proof.
  split; intros; unfold c_pow.
  - destruct (Req_EM_T x 0); [destruct (Req_EM_T p 0); lra|]. left. apply exp_pos.
  - destruct (Req_EM_T 1 0); [lra|]. unfold Rpower. rewrite ln_1, Rmult_0_r. apply exp_0.
Qed.

Section Fit.
  Variable pow : R -> R -> R.
  Variables y t tau : nat -> R.
  Variable nr : nat -> nat.
  Variable rn : R.
  (** covariance of the accumulated counts of two resultants, per unit rate *)
  Definition cov (i j : nat) : R := if Nat.eqb i j then tau i else t (Nat.min i j).
  Definition wt (r : ramp) : nat -> R := weight_at RF pow y t nr rn r.
  Definition det (r : ramp) : R :=
    let l := members r in
    Rsum (map (fun i => wt r i * (t i * t i)) l) * Rsum (map (wt r) l) - Rsum (map (fun i => wt r i * t i) l) * Rsum (map (fun i => wt r i * t i) l).
  Definition co (r : ramp) : nat -> R := cf (wt r) t (members r).
  Definition fitR (r : ramp) : rfit RF :=
    {| f_slope := Rsum (map (fun i => co r i * y i) (members r)) : RF;
       f_read := Rsum (map (fun i => co r i * co r i * (rn * rn) / INR (nr i)) (members r)) : RF;
       f_poisson := quad (co r) cov (members r) : RF |}.
  Lemma fit_fold (c : nat -> R) s m :
    fold_left (fun (st : rfit RF * RF) i =>
      let '(a, s) := st in
      ({| f_slope := fadd RF (f_slope a) (fmul RF (c i) (y i));
          f_read := fadd RF (f_read a) (fdiv RF (fmul RF (fmul RF (c i) (c i)) (fmul RF rn rn)) (fn RF (nr i)));
          f_poisson := fadd RF (f_poisson a) (fadd RF (fmul RF (fmul RF (c i) (c i)) (tau i)) (fmul RF (fmul RF (fz RF 2) (c i)) s)) |},
       fadd RF s (fmul RF (c i) (t i)))) (seq s m) (zfit RF, fzero RF) =
    ({| f_slope := Rsum (map (fun i => c i * y i) (seq s m)) : RF;
        f_read := Rsum (map (fun i => c i * c i * (rn * rn) / INR (nr i)) (seq s m)) : RF;
        f_poisson := quad c cov (seq s m) : RF |}, Rsum (map (fun i => c i * t i) (seq s m))).
  Proof.
    induction m as [|m IH]; [reflexivity|]. rewrite seq_S, fold_left_app, IH. cbn [fold_left f_slope f_read f_poisson].
    rewrite quad_snoc.
    2:{ intros i I. unfold cov. rewrite (Nat.eqb_sym i), (Nat.min_comm i). apply in_seq in I. destruct (Nat.eqb_spec (s + m) i); [lia|reflexivity]. }
    rewrite !map_app, !Rsum_app. cbn [map]. rewrite !Rsum_cons, !Rsum_nil. unfold fn, fz. cbn [fadd fmul fdiv fofZ RF].
    assert (E : Rsum (map (fun i => c i * cov i (s + m)) (seq s m)) = Rsum (map (fun i => c i * t i) (seq s m))).
    { apply Rsum_ext. intros i I. apply in_seq in I. unfold cov. destruct (Nat.eqb_spec i (s + m)); [lia|]. rewrite Nat.min_l by lia. reflexivity. }
    rewrite E. assert (C0 : cov (s + m) (s + m) = tau (s + m)) by (unfold cov; rewrite Nat.eqb_refl; reflexivity). rewrite C0, INR_IZR_INZ, !Rplus_0_r. reflexivity.
  Qed.
  Lemma fit_ramp_R r : (fst r < snd r)%nat -> fit_ramp RF pow y t tau nr rn r = if Reqb (det r) 0 then zfit RF else fitR r.
  Proof.
    intro H. unfold fit_ramp. destruct (Nat.leb_spec (snd r + 1 - fst r) 1); [lia|]. cbv zeta.
    rewrite !sum_R. change (feq RF) with Reqb. change (fzero RF) with 0. unfold det, wt.
    destruct (Reqb _ 0); [reflexivity|].
    pose proof (fit_fold (co r) (fst r) (snd r + 1 - fst r)) as E.
    change (seq (fst r) (snd r + 1 - fst r)) with (members r) in E.
    exact (f_equal (fun p : rfit RF * RF => let '(a, _) := p in a) E).
  Qed.

  Hypothesis POW : pow_ok pow.
  Lemma power_nonneg x : 0 <= get_power RF x.
  Proof.
    unfold get_power, PTABLE. cbn [find fst]. unfold fz. change (flt RF) with Rltb. cbn [fofZ RF fzero fone fdiv].
    repeat (destruct (Rltb x _); [cbn [snd]; lra|]). lra.
  Qed.
  Lemma read_factor p k : 0 <= p -> (1 <= k)%nat -> 0 < (1 + p) * INR k / (1 + p * INR k).
  Proof. intros P K. apply le_INR in K. cbn in K. unfold Rdiv. apply Rmult_lt_0_compat; [nra|]. apply Rinv_0_lt_compat. nra. Qed.
  Lemma wt_eq r i : wt r i = (1 + ramp_power RF y rn r) * INR (nr i) / (1 + ramp_power RF y rn r * INR (nr i))
    * pow (Rabs ((t i - (t (fst r) + t (snd r)) / 2) / t_scale RF t r)) (ramp_power RF y rn r).
  Proof. unfold wt, weight_at, fn, fz. rewrite INR_IZR_INZ. reflexivity. Qed.
  Lemma wt_nonneg r i : (1 <= nr i)%nat -> 0 <= wt r i.
  Proof.
    intro K. rewrite wt_eq. apply Rmult_le_pos; [left; apply read_factor; [apply power_nonneg|assumption]|]. apply POW, Rabs_pos.
  Qed.
  Lemma wt_end r i : (1 <= nr i)%nat -> t (fst r) <> t (snd r) -> i = fst r \/ i = snd r -> 0 < wt r i.
  Proof.
    intros K T I. rewrite wt_eq.
    assert (S : t_scale RF t r = (t (snd r) - t (fst r)) / 2).
    { unfold t_scale, fz. change (feq RF) with Reqb. cbn [fofZ RF fdiv fsub fzero]. destruct (Reqb _ 0) eqn:E; [|reflexivity]. apply Reqb_spec in E. lra. }
    assert (A : Rabs ((t i - (t (fst r) + t (snd r)) / 2) / t_scale RF t r) = 1).
    { rewrite S. destruct I as [-> | ->].
      - replace ((t (fst r) - (t (fst r) + t (snd r)) / 2) / ((t (snd r) - t (fst r)) / 2)) with (-1) by (field; lra). rewrite Rabs_Ropp || idtac.
        rewrite Rabs_left; lra.
      - replace ((t (snd r) - (t (fst r) + t (snd r)) / 2) / ((t (snd r) - t (fst r)) / 2)) with 1 by (field; lra). apply Rabs_R1. }
    rewrite A, (proj2 POW), Rmult_1_r. apply read_factor; [apply power_nonneg|assumption].
  Qed.
  Lemma members_in r i : In i (members r) <-> (fst r <= i /\ i < snd r + 1)%nat.
  Proof. clear. unfold members. rewrite in_seq. lia. Qed.
  Lemma ramp_det_pos r : (fst r < snd r)%nat -> t (fst r) <> t (snd r) -> (forall i, (fst r <= i <= snd r)%nat -> (1 <= nr i)%nat) -> 0 < det r.
  Proof.
    intros H T K. unfold det. apply (det_pos (wt r) t (members r) (fst r) (snd r)).
    - intros x I. apply members_in in I. apply wt_nonneg, K. lia.
    - apply members_in. lia.
    - apply members_in. lia.
    - apply wt_end; [apply K; lia|assumption|auto].
    - apply wt_end; [apply K; lia|assumption|auto].
    - assumption.
  Qed.
  Lemma fit_ramp_good r : (fst r < snd r)%nat -> t (fst r) <> t (snd r) -> (forall i, (fst r <= i <= snd r)%nat -> (1 <= nr i)%nat) ->
    fit_ramp RF pow y t tau nr rn r = fitR r /\ Rsum (map (co r) (members r)) = 0 /\ Rsum (map (fun i => co r i * t i) (members r)) = 1.
  Proof.
    intros H T K. pose proof (ramp_det_pos r H T K) as D. split; [|split].
    - rewrite fit_ramp_R by assumption. destruct (Reqb (det r) 0) eqn:E; [apply Reqb_spec in E; lra|reflexivity].
    - apply cf_sum0.
    - apply cf_sum1. unfold det in D. cbv zeta in D. lra.
  Qed.
  Lemma read_pos r : rn <> 0 -> (fst r < snd r)%nat -> t (fst r) <> t (snd r) -> (forall i, (fst r <= i <= snd r)%nat -> (1 <= nr i)%nat) ->
    0 < f_read (fitR r).
  Proof.
    intros RN H T K. destruct (fit_ramp_good r H T K) as (_ & _ & C1). cbn [fitR f_read]. change (F RF) with R.
    set (g := fun i => co r i * co r i * (rn * rn) / INR (nr i)).
    assert (RN2 : 0 < rn * rn) by (apply Rlt_0_sqr; assumption).
    assert (NP : forall i, In i (members r) -> 0 < INR (nr i)) by (intros i I; apply members_in in I; apply lt_0_INR; specialize (K i ltac:(lia)); lia).
    assert (G : forall i, In i (members r) -> 0 <= g i).
    { intros i I. unfold g, Rdiv. pose proof (Rinv_0_lt_compat _ (NP i I)). pose proof (Rle_0_sqr (co r i)). unfold Rsqr in *.
      apply Rmult_le_pos; [apply Rmult_le_pos; lra|lra]. }
    destruct (Rle_lt_or_eq_dec 0 (Rsum (map g (members r))) (Rsum_nonneg g _ G)) as [Q|Q]; [exact Q|exfalso].
    assert (Z0 : forall i, In i (members r) -> co r i = 0).
    { intros i I. pose proof (Rsum_ge_member g _ i G I) as Q1. pose proof (G i I) as Q2. assert (Q3 : g i = 0) by lra. unfold g, Rdiv in Q3.
      apply Rmult_integral in Q3. destruct Q3 as [Q3|Q3]; [|pose proof (Rinv_0_lt_compat _ (NP i I)); lra].
      apply Rmult_integral in Q3. destruct Q3 as [Q3|Q3]; [|lra]. apply Rmult_integral in Q3. tauto. }
    rewrite (Rsum_ext _ (fun _ => 0)) in C1 by (intros i I; rewrite (Z0 i I); ring). rewrite Rsum_const in C1. lra.
  Qed.
End Fit.

(** ** Averaging *)
Lemma average_R (fits : list (rfit RF)) :
  let w := fun f : rfit RF => if Reqb (f_read f) 0 then 0 else / f_read f in
  let W := Rsum (map w fits) in
  average RF fits =
    let s := (if Reqb W 0 then Rsum (map (fun f => w f * f_slope f) fits) else Rsum (map (fun f => w f * f_slope f) fits) / W) in
    {| f_slope := s : RF;
       f_read := (if Reqb W 0 then Rsum (map (fun f => w f * w f * f_read f) fits) else Rsum (map (fun f => w f * w f * f_read f) fits) / (W * W)) : RF;
       f_poisson := (if Reqb W 0 then Rsum (map (fun f => w f * w f * f_poisson f) fits) else Rsum (map (fun f => w f * w f * f_poisson f) fits) / (W * W)) * Rmax s 0 : RF |}.
Proof.
  cbv zeta. set (w := fun f : rfit RF => if Reqb (f_read f) 0 then 0 else / f_read f). set (W := Rsum (map w fits)).
  assert (A : forall fits (a : rfit RF) (tot : R), fold_left (accumulate RF) fits (a, tot) =
    ({| f_slope := (f_slope a + Rsum (map (fun f => w f * f_slope f) fits)) : RF; f_read := (f_read a + Rsum (map (fun f => w f * w f * f_read f) fits)) : RF;
        f_poisson := (f_poisson a + Rsum (map (fun f => w f * w f * f_poisson f) fits)) : RF |}, tot + Rsum (map w fits))).
  { clear. induction fits as [|f fits IH]; intros a tot; cbn [fold_left map].
    - rewrite !Rsum_nil, !Rplus_0_r. destruct a; reflexivity.
    - unfold accumulate at 2. cbn [fisnan RF]. change (feq RF) with Reqb. cbn [fzero fone fdiv fadd fmul RF].
      assert (E : (if Reqb (f_read f) 0 then 0 else 1 / f_read f) = w f) by (unfold w; destruct (Reqb _ 0); [reflexivity|unfold Rdiv; ring]).
      change (F RF) with R in *. rewrite E, IH. cbn [f_slope f_read f_poisson]. rewrite !Rsum_cons, <- !Rplus_assoc. reflexivity. }
  unfold average. change (fold_left (accumulate RF) fits (zfit RF, fzero RF)) with (fold_left (accumulate RF) fits (zfit RF, 0 : F RF)).
  pose proof (A fits (zfit RF) 0) as A0. match goal with |- context [fold_left ?f ?l ?x] => change (fold_left f l x) with (fold_left (accumulate RF) fits (zfit RF, 0)) end. rewrite A0. unfold zfit. cbn [f_slope f_read f_poisson fzero RF]. rewrite !Rplus_0_l. fold W.
  change (feq RF) with Reqb. unfold cmax0. change (flt RF) with Rltb. cbn [fzero fone fdiv fmul RF].
  assert (M : forall s : R, (if Rltb s 0 then 0 else s) = Rmax s 0).
  { intro s. destruct (Rltb s 0) eqn:E; unfold Rmax; destruct (Rle_dec s 0) as [H|H]; try reflexivity; try (apply Rltb_spec in E; lra).
    assert (~ s < 0) by (rewrite <- Rltb_spec; congruence). lra. }
  destruct (Reqb W 0); rewrite M; [|reflexivity]. unfold Rdiv. rewrite Rinv_1, !Rmult_1_r. reflexivity.
Qed.
