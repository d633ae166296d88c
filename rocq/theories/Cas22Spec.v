(** What the ramps of a pixel are, independently of how they are found. *)
From Verif Require Import Base Cas22Model.
From Coq Require Import Sorting.Sorted.

(** [k] lies in one of the ramps *)
Definition covered (l : list ramp) (k : nat) : Prop := exists r, In r l /\ fst r <= k <= snd r.
(** in time order, non-empty, with at least one resultant between consecutive ramps *)
Definition separated (l : list ramp) : Prop :=
  (forall r, In r l -> fst r <= snd r) /\ StronglySorted (fun a b => snd a + 1 < fst b) l.
(** the maximal runs of good resultants among the first [n]: separated, and covering precisely the good
    resultants.  (A run that could be extended would touch a good resultant in no ramp, or another ramp.) *)
Definition is_runs (dq : nat -> Z) (n : nat) (l : list ramp) : Prop :=
  separated l /\ (forall k, covered l k <-> k < n /\ dq k = 0%Z).

(** Covariance, per unit count rate, of the mean counts of two resultants under a Poisson process: counts
    accumulated by times s and t have covariance min(s, t).  Reads are given by their numbers. *)
From Coq Require Import Reals.
From Verif Require Import RBase.
Definition pcov (read_time : R) (a b : list Z) : R :=
  (read_time / (INR (length a) * INR (length b)) * Rsum (map (fun s => Rsum (map (fun t => Rmin (IZR s) (IZR t)) b)) a))%R.
