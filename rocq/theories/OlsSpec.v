(** What the segments of a ramp are, and the data-quality words of the OLS products, said without the
    fitter's scan, lists and counters. *)
From Verif Require Import Base Cas22Model Cas22Spec OlsModel.

(** a group's flags other than PERSISTENCE *)
Definition flags_of (f : oflags) (g : nat -> N) (k : nat) : Z := Z.of_N (N.ldiff (g k) (o_pers f)).
(** a run of usable groups, extended by a directly preceding group flagged only as a jump; end exclusive *)
Definition extend (f : oflags) (g : nat -> N) (r : ramp) : nat * nat :=
  ((if Nat.ltb 0 (fst r) && N.eqb (N.ldiff (g (fst r - 1)) (o_pers f)) (o_jump f) then fst r - 1 else fst r), snd r + 1).
Definition long (s : nat * nat) : bool := Nat.ltb 1 (snd s - fst s).
(** single-group segments count only if there is nothing longer, and then only the first *)
Definition kept (l : list (nat * nat)) : list (nat * nat) := if existsb long l then filter long l else firstn 1 l.

(** flags are single bits at distinct places *)
Definition flags_at (dnu jump sat pers ngval chg : N) : oflags :=
  {| o_dnu := bit dnu; o_jump := bit jump; o_sat := bit sat; o_pers := bit pers; o_ngval := bit ngval; o_chg := bit chg |}.
