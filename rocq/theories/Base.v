(** Shared vocabulary of the model: floating-point operations as a record,
    images as index functions, exceptions as values, DQ words as [N]. *)
From Coq Require Export List Arith NArith ZArith Bool Lia.
From Coq Require Import SpecFloat.
Export ListNotations.

(** ** Exceptions as values
    A Python call that raises is modelled by [None] (or by a constructor of a
    dedicated error type when the kind of exception matters). *)
Definition bind {A B} (x : option A) (f : A -> option B) : option B :=
  match x with Some a => f a | None => None end.
Notation "'do' x <- e ; f" := (bind e (fun x => f))
  (at level 200, x pattern, e at level 100, f at level 200, right associativity).

(** A [for x in l] loop whose body may raise. *)
Fixpoint foldM {A S} (body : S -> A -> option S) (l : list A) (s : S) : option S :=
  match l with
  | [] => Some s
  | x :: l' => match body s x with Some s' => foldM body l' s' | None => None end
  end.

(** ** Floating-point arithmetic
    The operations used by the numerical code.  No law is assumed: a theorem
    quantified over [fo : FOps] holds for IEEE arithmetic of any precision (with
    NaN, infinities, rounding) as well as for exact arithmetic. *)
Record FOps := {
  F :> Type;
  fzero : F; fone : F; fnan : F;
  fofZ : Z -> F;
  fadd : F -> F -> F; fsub : F -> F -> F; fmul : F -> F -> F; fdiv : F -> F -> F;
  fabs : F -> F; fsqrt : F -> F;
  flt : F -> F -> bool; fle : F -> F -> bool; feq : F -> F -> bool;
  fisnan : F -> bool; fisfinite : F -> bool
}.
Definition fge (fo : FOps) (x y : fo) : bool := fle fo y x.
Definition fgt (fo : FOps) (x y : fo) : bool := flt fo y x.

(** IEEE binary32 / binary64 as formalised by the standard library
    ([Coq.Floats.SpecFloat]), round to nearest even, no axioms. *)
Definition sf_isnan (x : spec_float) : bool := match x with S754_nan => true | _ => false end.
Definition sf_isfinite (x : spec_float) : bool :=
  match x with S754_zero _ | S754_finite _ _ _ => true | _ => false end.
Definition sf_ofZ (prec emax : Z) (z : Z) : spec_float := binary_normalize prec emax z 0 false.
Definition ieee (prec emax : Z) : FOps := {|
  F := spec_float;
  fzero := S754_zero false; fone := sf_ofZ prec emax 1; fnan := S754_nan;
  fofZ := sf_ofZ prec emax;
  fadd := SFadd prec emax; fsub := SFsub prec emax; fmul := SFmul prec emax; fdiv := SFdiv prec emax;
  fabs := SFabs; fsqrt := SFsqrt prec emax;
  flt := SFltb; fle := SFleb; feq := SFeqb;
  fisnan := sf_isnan; fisfinite := sf_isfinite |}.
Definition B32 : FOps := ieee 24 128.
Definition B64 : FOps := ieee 53 1024.

(** ** Images and cubes
    A numpy array is an index function; its shape is passed separately. *)
Definition img (A : Type) := nat -> nat -> A.
Definition cube (A : Type) := nat -> img A.

(** [a[k] = v] on the leading axis. *)
Definition upd {A} (k : nat) (v : A) (f : nat -> A) : nat -> A :=
  fun j => if Nat.eqb j k then v else f j.

(** ** DQ flags *)
Definition bit (k : N) : N := N.shiftl 1 k.
(** [word & flag != 0] *)
Definition has (w f : N) : bool := negb (N.eqb (N.land w f) 0).
Definition flag_if (b : bool) (f : N) : N := if b then f else 0%N.
