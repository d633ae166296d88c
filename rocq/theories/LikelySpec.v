(** Specifications for the likelihood ramp fit, independent of its recursions. *)
From Verif Require Import Base RBase.
From Coq Require Import Reals Lra Sorted.
Local Open Scope R_scope.

(** f 0 + ... + f (n-1) *)
Fixpoint Sn (n : nat) (f : nat -> R) : R := match n with O => 0 | S k => Sn k f + f k end.
(** the sum over the differences in use *)
Definition Su (n : nat) (use : nat -> bool) (f : nat -> R) : R := Sn n (fun i => if use i then f i else 0).
(** the symmetric matrix with diagonal [a] and off-diagonal [b] *)
Definition tri (a b : nat -> R) (i j : nat) : R :=
  if Nat.eqb i j then a i else if Nat.eqb j (S i) then b i else if Nat.eqb i (S j) then b j else 0.
(** x solves V x = rhs on the differences in use *)
Definition solves (n : nat) (use : nat -> bool) (V : nat -> nat -> R) (x rhs : nat -> R) : Prop :=
  forall i, (i < n)%nat -> use i = true -> Su n use (fun j => V i j * x j) = rhs i.
(** x' V y over the differences in use *)
Definition quad (n : nat) (use : nat -> bool) (V : nat -> nat -> R) (x y : nat -> R) : R :=
  Su n use (fun i => x i * Su n use (fun j => V i j * y j)).
Definition posdef (n : nat) (V : nat -> nat -> R) : Prop :=
  forall x, (exists i, (i < n)%nat /\ x i <> 0) -> 0 < quad n (fun _ => true) V x x.
(** chi squared of the model "every used difference is r" *)
Definition chi2 (n : nat) (use : nat -> bool) (V : nat -> nat -> R) (d : nat -> R) (r c : R) : Prop :=
  forall y, solves n use V y (fun i => d i - r) -> c = Su n use (fun i => (d i - r) * y i).

(** ** The noise of a ramp: unit-rate Poisson process read at given times, read noise [rn] per read, groups averaged *)
Definition pcovR (a b : list R) : R := Rsum (map (fun x => Rsum (map (fun y => Rmin x y) b)) a) / (INR (length a) * INR (length b)).
(** covariance of the means of groups g and h *)
Definition group_cov (rate rn : R) (times : list (list R)) (g h : nat) : R :=
  rate * pcovR (nth g times []) (nth h times []) + (if Nat.eqb g h then rn * rn / INR (length (nth g times [])) else 0).
(** covariance of the differences i and j of successive group means, each divided by its time step *)
Definition diff_cov (rate rn : R) (times : list (list R)) (i j : nat) : R :=
  let K := group_cov rate rn times in let dt k := Rmean (nth (S k) times []) - Rmean (nth k times []) in
  (K (S i) (S j) - K (S i) j - K i (S j) + K i j) / (dt i * dt j).
(** read times increase through the whole exposure, every group has a read *)
Definition good_times (times : list (list R)) : Prop :=
  Forall (fun g => g <> []) times /\ StronglySorted Rlt (concat times).
