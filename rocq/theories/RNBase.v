(** Exact arithmetic with a missing value: [None] plays NaN (and every value that is not finite).  Comparisons with it are
    false, operations with it give it, division by zero gives it. *)
From Verif Require Import Base RBase.
From Coq Require Import Reals Lra.
Local Open Scope R_scope.
Definition rn2 (f : R -> R -> R) (x y : option R) : option R := match x, y with Some a, Some b => Some (f a b) | _, _ => None end.
Definition rncmp (f : R -> R -> bool) (x y : option R) : bool := match x, y with Some a, Some b => f a b | _, _ => false end.
Definition RN : FOps := {|
  F := option R; fzero := Some 0; fone := Some 1; fnan := None; fofZ := fun z => Some (IZR z);
  fadd := rn2 Rplus; fsub := rn2 Rminus; fmul := rn2 Rmult;
  fdiv := fun x y => match x, y with Some a, Some b => if Reqb b 0 then None else Some (a / b) | _, _ => None end;
  fabs := option_map Rabs; fsqrt := fun x => match x with Some a => if Rltb a 0 then None else Some (sqrt a) | None => None end;
  flt := rncmp Rltb; fle := rncmp Rleb; feq := rncmp Reqb;
  fisnan := fun x => match x with Some _ => false | None => true end;
  fisfinite := fun x => match x with Some _ => true | None => false end |}.
