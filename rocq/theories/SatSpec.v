(** Specification vocabulary for the saturation step, independent of the model. *)
From Verif Require Import Base.

(** Chebyshev distance at most [n]. *)
Definition near (n r c r' c' : nat) : Prop :=
  (r <= r' + n /\ r' <= r + n) /\ (c <= c' + n /\ c' <= c + n).

(** Some pixel of the [nr] x [nc] image within distance [n] of (r, c) satisfies [m]. *)
Definition near_any (n nr nc : nat) (m : nat -> nat -> Prop) (r c : nat) : Prop :=
  exists r' c', r' < nr /\ c' < nc /\ near n r c r' c' /\ m r' c'.

Section Eff.
Context (fo : FOps).
(** The full-well threshold that a user expects to be in force at a pixel: pixels marked
    "no saturation check" or with a NaN threshold are compared with one count above
    the A/D converter limit; all others with the reference threshold. *)
Definition eff_threshold (marked : bool) (thr atod : fo) : fo :=
  if marked || fisnan fo thr then fadd fo atod (fone fo) else thr.
End Eff.
