(** What a user expects of the linearity step. *)
From Verif Require Import Base.
From Coq Require Import Reals.
Section Spec.
Context (fo : FOps).
(** nested (Horner) form c0 + x*(c1 + x*(...)) *)
Fixpoint horner (cs : list fo) (x : fo) : fo :=
  match cs with
  | [] => fzero fo
  | [c] => c
  | c :: cs' => fadd fo (fmul fo (horner cs' x) x) c
  end.
(** coefficients of a pixel for which no correction is available *)
Definition unusable (cs : list fo) (ref_dq nlc : N) : Prop :=
  N.land ref_dq nlc <> 0%N \/
  (exists a, In a cs /\ fisnan fo a = true) \/
  (exists a, nth_error cs 1 = Some a /\ feq fo a (fzero fo) = true).
End Spec.
(** c0 + c1 x + ... + cn x^n over the reals *)
Definition polyR (cs : list R) (x : R) : R :=
  fold_right Rplus 0%R (map (fun k => nth k cs 0 * x ^ k)%R (seq 0 (length cs))).
