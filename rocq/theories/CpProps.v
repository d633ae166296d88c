(** C119 for the Casertano fit with missing values: a constant added to all resultants of a pixel. *)
From Coq Require Import Reals Lra FunctionalExtensionality.
From Verif Require Import Base BaseLemmas FLaws RBase RNBase Cas22Model Cas22Spec Cas22Proofs Cas22Props.
Local Open Scope R_scope.

Definition some (x : RN) : Prop := exists v : R, x = (Some v : RN).
Lemma some_dec (x : RN) : some x \/ x = None. Proof. destruct x as [v|]; [left; exists v; reflexivity|right; reflexivity]. Qed.
Definition acc (f : nat -> RN) (l : list nat) (a : RN) : RN := fold_left (fun a i => fadd RN a (f i)) l a.
Lemma acc_none f l : acc f l None = None. Proof. induction l as [|i l IH]; [reflexivity|exact IH]. Qed.
Lemma acc_hit f l i a : In i l -> f i = None -> acc f l a = None.
Proof.
  intros I F. revert a. induction l as [|j l IH]; intro a; [destruct I|]. destruct I as [->|I]; [|apply IH, I]. unfold acc. cbn [fold_left]. rewrite F.
  replace (fadd RN a None) with (None : RN) by (destruct a; reflexivity). apply acc_none.
Qed.
Lemma acc_some (g : nat -> R) f l (a : R) : (forall i, In i l -> f i = (Some (g i) : RN)) -> acc f l (Some a) = (Some (a + Rsum (map g l)) : RN).
Proof.
  revert a. induction l as [|i l IH]; intros a H; [cbn; f_equal; unfold Rsum; cbn; ring|]. unfold acc in *. cbn [fold_left map]. rewrite H by (left; reflexivity).
  change (fadd RN (Some a : RN) (Some (g i) : RN)) with (Some (a + g i) : RN). rewrite IH by (intros; apply H; right; assumption). rewrite Rsum_cons. f_equal. ring.
Qed.
Lemma sum_acc (f : nat -> RN) l : sum RN (map f l) = acc f l (fzero RN).
Proof. unfold sum, acc. generalize (fzero RN). induction l as [|i l IH]; intro a; [reflexivity|]. cbn [map fold_left]. apply IH. Qed.
Lemma Rsum_add {A} (f g : A -> R) l : Rsum (map (fun i => f i + g i) l) = Rsum (map f l) + Rsum (map g l).
Proof. induction l as [|x l IH]; [unfold Rsum; cbn; ring|]. cbn [map]. rewrite !Rsum_cons, IH. ring. Qed.
Lemma Rsum_mul {A} (c : R) (f : A -> R) l : Rsum (map (fun i => c * f i) l) = c * Rsum (map f l).
Proof. induction l as [|x l IH]; [unfold Rsum; cbn; ring|]. cbn [map]. rewrite !Rsum_cons, IH. ring. Qed.
Lemma map_ext_R {A} (f g : A -> R) l : (forall x, f x = g x) -> Rsum (map f l) = Rsum (map g l).
Proof. intro H. f_equal. apply map_ext, H. Qed.

(** the weighted sum whose coefficients (f0 t - f1) w / det add up to zero *)
Lemma raised_sum (w t y : nat -> RN) (c : R) det l : det <> Some 0 ->
  let f0 := sum RN (map w l) in let f1 := sum RN (map (fun i => fmul RN (w i) (t i)) l) in
  let k i := fdiv RN (fmul RN (fsub RN (fmul RN f0 (t i)) f1) (w i)) det in
  acc (fun i => fmul RN (k i) (fadd RN (y i) (Some c))) l (fzero RN) = acc (fun i => fmul RN (k i) (y i)) l (fzero RN).
Proof.
  intros D f0 f1 k. destruct l as [|i0 l0]; [reflexivity|]. set (l := i0 :: l0) in *.
  assert (NONE : (forall i, In i l -> k i = None) -> acc (fun i => fmul RN (k i) (fadd RN (y i) (Some c))) l (fzero RN) = acc (fun i => fmul RN (k i) (y i)) l (fzero RN)).
  { intro H. rewrite !(acc_hit _ l i0) by first [left; reflexivity | rewrite H by (left; reflexivity); reflexivity]. reflexivity. }
  destruct det as [d|]; [|apply NONE; intros i _; unfold k; destruct (fmul RN _ _); reflexivity].
  assert (D0 : d <> 0) by (intros ->; apply D; reflexivity).
  assert (DEC : (forall i, In i l -> some (w i) /\ some (t i)) \/ exists i, In i l /\ fmul RN (w i) (t i) = None).
  { clear. induction l as [|i l IH]; [left; intros i []|]. destruct (some_dec (w i)) as [W|W], (some_dec (t i)) as [T|T].
    2-4: right; exists i; split; [left; reflexivity|]; rewrite ?W, ?T; try reflexivity; destruct (w i); reflexivity.
    destruct IH as [IH|(j & J1 & J2)]; [left; intros j [<-|J]; [split; assumption|apply IH, J]|right; exists j; split; [right; exact J1|exact J2]]. }
  destruct DEC as [A|(j & J1 & J2)].
  2: { apply NONE. intros i _. unfold k. assert (F : f1 = None) by (unfold f1; rewrite sum_acc; apply (acc_hit _ l j); assumption). rewrite F. destruct (fmul RN f0 (t i)); reflexivity. }
  set (wr := fun i => match w i with Some v => v | None => 0 end). set (tr := fun i => match t i with Some v => v | None => 0 end).
  assert (W : forall i, In i l -> w i = (Some (wr i) : RN)) by (intros i I; destruct (A i I) as [[v V] _]; unfold wr; rewrite V; reflexivity).
  assert (T : forall i, In i l -> t i = (Some (tr i) : RN)) by (intros i I; destruct (A i I) as [_ [v V]]; unfold tr; rewrite V; reflexivity).
  set (F0 := Rsum (map wr l)). set (F1 := Rsum (map (fun i => wr i * tr i) l)).
  assert (E0 : f0 = (Some F0 : RN)) by (unfold f0; rewrite sum_acc; change (fzero RN) with (Some 0 : RN); rewrite (acc_some wr w l 0 W); f_equal; unfold F0; ring).
  assert (E1 : f1 = (Some F1 : RN)).
  { unfold f1. rewrite sum_acc. change (fzero RN) with (Some 0 : RN). rewrite (acc_some (fun i => wr i * tr i)); [f_equal; unfold F1; ring|]. intros i I. rewrite W, T by exact I. reflexivity. }
  set (kr := fun i => (F0 * tr i - F1) * wr i / d).
  assert (K : forall i, In i l -> k i = (Some (kr i) : RN)).
  { intros i I. unfold k. rewrite E0, E1, W, T by exact I. cbn. destruct (Reqb d 0) eqn:E; [apply Reqb_spec in E; contradiction|]. reflexivity. }
  assert (Z : Rsum (map kr l) = 0).
  { unfold kr. rewrite (map_ext_R _ (fun i => F0 / d * (wr i * tr i) + - F1 / d * wr i)) by (intro; field; exact D0). rewrite Rsum_add, !Rsum_mul. fold F0 F1. field. exact D0. }
  assert (DY : (forall i, In i l -> some (y i)) \/ exists i, In i l /\ y i = None).
  { clear. induction l as [|i l IH]; [left; intros i []|]. destruct (some_dec (y i)) as [Y|Y]; [|right; exists i; split; [left; reflexivity|exact Y]].
    destruct IH as [IH|(j & J1 & J2)]; [left; intros j [<-|J]; [exact Y|apply IH, J]|right; exists j; split; [right; exact J1|exact J2]]. }
  destruct DY as [Y|(j & J1 & J2)].
  - set (yr := fun i => match y i with Some v => v | None => 0 end).
    assert (YR : forall i, In i l -> y i = (Some (yr i) : RN)) by (intros i I; destruct (Y i I) as [v V]; unfold yr; rewrite V; reflexivity).
    change (fzero RN) with (Some 0 : RN). rewrite (acc_some (fun i => kr i * (yr i + c))) by (intros i I; rewrite K, YR by exact I; reflexivity).
    rewrite (acc_some (fun i => kr i * yr i)) by (intros i I; rewrite K, YR by exact I; reflexivity). f_equal. f_equal.
    rewrite (map_ext_R _ (fun i => kr i * yr i + c * kr i)) by (intro; ring). rewrite Rsum_add, Rsum_mul, Z. ring.
  - rewrite !(acc_hit _ l j) by first [exact J1 | rewrite J2; destruct (k j); reflexivity]. reflexivity.
Qed.

Section Raised.
  Variable pow : RN -> RN -> RN.
  Variables (y t tau : nat -> RN) (nr : nat -> nat) (rn : RN) (c : R).
  Notation y' := (fun i => fadd RN (y i) (Some c)).
  Lemma diff_raised i j : fsub RN (fadd RN (y i) (Some c)) (fadd RN (y j) (Some c)) = fsub RN (y i) (y j).
  Proof. destruct (y i), (y j); try reflexivity. cbn. f_equal. ring. Qed.
  Lemma power_raised r : ramp_power RN y' rn r = ramp_power RN y rn r.
  Proof. unfold ramp_power. rewrite diff_raised. reflexivity. Qed.
  Lemma weight_raised r : weight_at RN pow y' t nr rn r = weight_at RN pow y t nr rn r.
  Proof. apply functional_extensionality; intro i. unfold weight_at. rewrite power_raised. reflexivity. Qed.
  Lemma fit_raised : fit_ramp RN pow y' t tau nr rn = fit_ramp RN pow y t tau nr rn.
  Proof.
    apply functional_extensionality; intro r. unfold fit_ramp. destruct (Nat.leb _ 1); [reflexivity|]. cbv zeta. rewrite weight_raised.
    set (f0 := sum RN (map (weight_at RN pow y t nr rn r) _)). set (f1 := sum RN (map (fun i => fmul RN (weight_at RN pow y t nr rn r i) (t i)) _)).
    set (det := fsub RN _ _). destruct (feq RN det (fzero RN)) eqn:E; [reflexivity|].
    assert (D : det <> Some 0) by (intro Z; rewrite Z in E; cbn in E; unfold Reqb in E; destruct (Req_EM_T 0 0); [discriminate|congruence]).
    pose proof (raised_sum (weight_at RN pow y t nr rn r) t y c det (members r) D) as Q. cbv zeta in Q. fold f0 f1 in Q.
    unfold coeff_at. rewrite weight_raised. change (fun i => fdiv RN (fmul RN (fsub RN (fmul RN f0 (t i)) f1) (weight_at RN pow y t nr rn r i)) det) with (coeff_at RN pow y t nr rn r f0 f1 det) in Q.
    set (k := fun i => fdiv RN (fmul RN (fsub RN (fmul RN f0 (t i)) f1) (weight_at RN pow y t nr rn r i)) det) in *.
    assert (G : forall (v : nat -> RN) l (a : rfit RN) s,
      fold_left (fun (st : rfit RN * RN) i => let '(a, s) := st in
        ({| f_slope := fadd RN (f_slope a) (fmul RN (k i) (v i)); f_read := fadd RN (f_read a) (fdiv RN (fmul RN (fmul RN (k i) (k i)) (fmul RN rn rn)) (fn RN (nr i)));
            f_poisson := fadd RN (f_poisson a) (fadd RN (fmul RN (fmul RN (k i) (k i)) (tau i)) (fmul RN (fmul RN (fz RN 2) (k i)) s)) |}, fadd RN s (fmul RN (k i) (t i)))) l (a, s) =
      let e := fold_left (fun (st : RN * RN * RN) i => let '(r, p, s) := st in
        (fadd RN r (fdiv RN (fmul RN (fmul RN (k i) (k i)) (fmul RN rn rn)) (fn RN (nr i))), fadd RN p (fadd RN (fmul RN (fmul RN (k i) (k i)) (tau i)) (fmul RN (fmul RN (fz RN 2) (k i)) s)), fadd RN s (fmul RN (k i) (t i)))) l (f_read a, f_poisson a, s) in
      ({| f_slope := acc (fun i => fmul RN (k i) (v i)) l (f_slope a); f_read := fst (fst e); f_poisson := snd (fst e) |}, snd e)).
    { intros v l. induction l as [|i l IH]; intros a s; [destruct a; reflexivity|]. cbn [fold_left]. rewrite IH. reflexivity. }
    cbv zeta. rewrite (G y'), (G y). cbv zeta. cbn [zfit f_slope]. f_equal. exact Q.
  Qed.
  Lemma fill_raised n b : fill_pixel RN y' t tau nr rn n b = fill_pixel RN y t tau nr rn n b.
  Proof. apply functional_extensionality; intro d. apply functional_extensionality; intro i. unfold fill_pixel, pixel_at. rewrite !diff_raised. reflexivity. Qed.
End Raised.

(** A constant added to all resultants of a pixel (one for each pixel) changes nothing in what the fit returns: rates, variances, flags; resultants may be NaN. *)
Theorem C119_cas22_nan : forall pow lg use_jump ic cc read_time pattern n np y dq rn b (c : nat -> R),
  fit_ramps RN pow lg use_jump ic cc read_time pattern n np (fun i p => fadd RN (y i p) (Some (c p))) dq rn b = fit_ramps RN pow lg use_jump ic cc read_time pattern n np y dq rn b.
Proof.
  intros. unfold fit_ramps. destruct (_ || _); [reflexivity|]. f_equal. f_equal. apply functional_extensionality; intro st. apply functional_extensionality; intro p. destruct st as [outs b'].
  unfold fit_jumps. rewrite (fit_raised pow (fun i => y i p)), (fill_raised (fun i => y i p)). reflexivity.
Qed.
Print Assumptions C119_cas22_nan.
Example C119_cas22_nan_ex : forall b, let y i := (nth i [Some 3; None; Some 9; Some 12] None : RN) in
  fit_ramps RN (fun _ _ => fone RN) (fun x => x) true (Some 4) (Some 0) (Some 2) [[1]; [2]; [3]; [4]]%Z 4 1 (fun i _ => fadd RN (y i) (Some 100)) (fun i _ => if Nat.eqb i 1 then 1%Z else 0%Z) (fun _ => Some 10) b =
  fit_ramps RN (fun _ _ => fone RN) (fun x => x) true (Some 4) (Some 0) (Some 2) [[1]; [2]; [3]; [4]]%Z 4 1 (fun i _ => y i) (fun i _ => if Nat.eqb i 1 then 1%Z else 0%Z) (fun _ => Some 10) b /\
  fadd RN (y 0%nat) (Some 100) <> y 0%nat.
Proof. intro b. cbv zeta. split; [exact (C119_cas22_nan _ _ _ _ _ _ _ _ _ _ _ _ _ (fun _ => 100))|]. cbn. intro H. assert (3 + 100 = 3) by congruence. lra. Qed.
