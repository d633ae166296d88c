(** Model of the resampling of one variance array, src/stcal/resample/resample.py: Resample._check_var_array (lines
    1346-1360), _resample_one_variance_array (lines 1221-1277), and the loop that calls it (lines 1136-1144).  Drizzle
    (another package) is a parameter: [driz x p] is what a fresh drizzle with fill value NaN shows at output pixel [p]
    after the image [x] has been added to it with the model's pixel map, weight map, scales and rectangle (lines 1257-1275);
    these do not depend on the array.  Images are functions of a flat pixel number with a shape beside them.  The float32
    of drizzle's output is not distinguished. *)
From Verif Require Import Base ResModel.

Section Rv.
  Variable fo : FOps.
  (** a numpy array: shape and values *)
  Record arr := { a_shape : list nat; a_val : nat -> fo }.
  (** ndarray.size, as used in lines 1352, 1242 *)
  Definition a_size (a : arr) : nat := fold_right Nat.mul 1 (a_shape a).
  Definition shape_eqb (s t : list nat) : bool := if list_eq_dec Nat.eq_dec s t then true else false.
  (** _check_var_array (lines 1346-1360): [v] is model.get(array_name), [sci] the shape of model["data"] *)
  Definition check_var (v : option arr) (sci : list nat) : bool :=
    match v with
    | None => false
    | Some a => if Nat.eqb (a_size a) 0 then false else if negb (shape_eqb (a_shape a) sci) then false else true
    end.
  (** _resample_one_variance_array (lines 1221-1277): None when the array is skipped *)
  Definition resample_one (driz : (nat -> fo) -> nat -> fo) (v : option arr) (sci : list nat) : option (nat -> fo) :=
    match v with
    | None => None
    | Some a =>
        if Nat.eqb (a_size a) 0 then None else
        if negb (shape_eqb (a_shape a) sci) then None else
        let out := driz (fun i => fsqrt fo (a_val a i)) in
        Some (fun p => fmul fo (out p) (out p))
    end.
  (** the first loop of resample_variance_arrays (lines 1136-1144): the arrays it stores *)
  Definition drizzled (driz : (nat -> fo) -> nat -> fo) (arrays : nat -> option arr) (sci : list nat) (n : nat) : option (nat -> fo) :=
    if check_var (arrays n) sci then resample_one driz (arrays n) sci else None.
  (** an input model with its variance arrays: the record of ResModel with [m_var] computed *)
  Definition with_arrays (m : rmodel fo) (driz : (nat -> fo) -> nat -> fo) (arrays : nat -> option arr) (sci : list nat) : rmodel fo :=
    {| m_group := m_group _ m; m_start := m_start _ m; m_end := m_end _ m; m_exp := m_exp _ m; m_meas := m_meas _ m; m_dur := m_dur _ m;
       m_keys := m_keys _ m; m_dim2 := m_dim2 _ m; m_ratio := m_ratio _ m; m_var := drizzled driz arrays sci |}.
End Rv.
Arguments a_shape {fo}. Arguments a_val {fo}.
