(** np.nanmedian along one axis, as called by outlier_detection/median.py (lines 41-47) and by jump/twopoint_difference.py,
    written out instead of being a parameter: the values that are not NaN in ascending order, the middle one or the mean of
    the two middle ones, NaN when there is none.  The rounding of that mean is the one of the arithmetic [fo]. *)
From Verif Require Import Base.

Section Median.
  Variable fo : FOps.
  (** ascending order *)
  Fixpoint ins (x : fo) (l : list fo) : list fo :=
    match l with [] => [x] | y :: l' => if fle fo x y then x :: l else y :: ins x l' end.
  Definition ascending (l : list fo) : list fo := fold_right ins [] l.
  (** np.median of values none of which is NaN *)
  Definition np_median (l : list fo) : fo :=
    let s := ascending l in
    let n := length s in
    if Nat.eqb n 0 then fnan fo
    else if Nat.odd n then nth (n / 2) s (fnan fo)
    else fdiv fo (fadd fo (nth (n / 2 - 1) s (fnan fo)) (nth (n / 2) s (fnan fo))) (fofZ fo 2).
  (** np.nanmedian (median.py line 46) *)
  Definition np_nanmedian (l : list fo) : fo := np_median (filter (fun x => negb (fisnan fo x)) l).
End Median.
