(** Exact real arithmetic as an instance of [FOps] (no NaN, no infinities, no rounding).
    Used for algebraic identities only; uses the standard library's real numbers. *)
From Verif Require Import Base.
From Coq Require Import Reals Lra.
Local Open Scope R_scope.

Definition Rltb (x y : R) : bool := if Rlt_dec x y then true else false.
Definition Rleb (x y : R) : bool := if Rle_dec x y then true else false.
Definition Reqb (x y : R) : bool := if Req_EM_T x y then true else false.
Definition RF : FOps := {|
  F := R; fzero := 0; fone := 1; fnan := 0; fofZ := IZR;
  fadd := Rplus; fsub := Rminus; fmul := Rmult; fdiv := Rdiv; fabs := Rabs; fsqrt := sqrt;
  flt := Rltb; fle := Rleb; feq := Reqb;
  fisnan := fun _ => false; fisfinite := fun _ => true |}.

Lemma Rltb_spec x y : Rltb x y = true <-> x < y.
Proof. unfold Rltb. destruct (Rlt_dec x y); split; intros; try assumption; try reflexivity; congruence || contradiction. Qed.
Lemma Rleb_spec x y : Rleb x y = true <-> x <= y.
Proof. unfold Rleb. destruct (Rle_dec x y); split; intros; try assumption; try reflexivity; congruence || contradiction. Qed.
Lemma Reqb_spec x y : Reqb x y = true <-> x = y.
Proof. unfold Reqb. destruct (Req_EM_T x y); split; intros; try assumption; try reflexivity; congruence || contradiction. Qed.

(** sums *)
Definition Rsum (l : list R) : R := fold_right Rplus 0 l.
Definition Rmean (l : list R) : R := Rsum l / INR (length l).
Lemma Rsum_cons x l : Rsum (x :: l) = x + Rsum l. Proof. reflexivity. Qed.
Lemma Rsum_nil : Rsum [] = 0. Proof. reflexivity. Qed.
Lemma Rsum_app l l' : Rsum (l ++ l') = Rsum l + Rsum l'.
Proof. induction l as [|x l IH]; cbn [app]; rewrite ?Rsum_cons, ?Rsum_nil, ?IH; lra. Qed.
Lemma Rsum_plus {A} (f g : A -> R) l : Rsum (map (fun x => f x + g x) l) = Rsum (map f l) + Rsum (map g l).
Proof. induction l as [|x l IH]; cbn [map]; rewrite ?Rsum_cons, ?Rsum_nil, ?IH; lra. Qed.
Lemma Rsum_scal {A} (f : A -> R) k l : Rsum (map (fun x => k * f x) l) = k * Rsum (map f l).
Proof. induction l as [|x l IH]; cbn [map]; rewrite ?Rsum_cons, ?Rsum_nil, ?IH; lra. Qed.
Lemma Rsum_const {A} k (l : list A) : Rsum (map (fun _ => k) l) = INR (length l) * k.
Proof. induction l as [|x l IH]; [cbn; lra|]. cbn [map length]. rewrite Rsum_cons, S_INR, IH; lra. Qed.
Lemma Rmean_shift {A} (f : A -> R) k l : l <> [] -> Rmean (map (fun x => f x + k) l) = Rmean (map f l) + k.
Proof. intro H. unfold Rmean. rewrite !map_length, Rsum_plus, Rsum_const.
  assert (INR (length l) <> 0) by (apply not_0_INR; destruct l; [congruence|discriminate]). field; assumption. Qed.
(** turn an equation in the carrier of [RF] into one in [R] *)
Ltac toR := cbn [fdiv fsub fmul fadd fofZ fzero fone fabs fsqrt RF];
  match goal with |- @eq _ ?x ?y => change (@eq R x y) end.
