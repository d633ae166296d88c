(** Model of the caller's side of the Casertano+22 fit: src/stcal/ramp_fitting/ols_cas22_fit.py, fit_ramps_casertano
    (lines 39-144).  The conversions to float32 are not distinguished (one arithmetic, as in Cas22Model); a DQ array has
    the shape of the resultants; a unit is its conversion factor to electrons (a unit that does not convert raises and is
    not modelled). *)
From Verif Require Import Base Cas22Model.
Local Open Scope nat_scope.

(** a numpy array in C order: shape and elements *)
Record nd (A : Type) := { nd_shape : list nat; nd_at : nat -> A }.
Arguments nd_shape {A}. Arguments nd_at {A}.
Definition size (s : list nat) : nat := fold_right Nat.mul 1 s.
(** astype(np.int32) of an integer (line 105) *)
Definition int32 (z : Z) : Z := ((z + 2 ^ 31) mod 2 ^ 32 - 2 ^ 31)%Z.

Section Wrapper.
  Variable fo : FOps.
  Variables (pow : fo -> fo -> fo) (log10 : fo -> fo).
  (** the read noise: a number, a vector, or an array of two or more axes *)
  Inductive noise := rn_num (x : fo) | rn_vec (l : list fo) | rn_img (a : nd fo).
  (** lines 106-108: number of elements and elements of the array used; [s] is resultants.shape[1:].  A vector is broadcast
      along the last axis by the product with np.ones(s). *)
  Definition expand_noise (rn : noise) (s : list nat) : option (nat * (nat -> fo)) :=
    match rn with
    | rn_num x => Some (size s, fun _ => fmul fo x (fone fo))
    | rn_vec l =>
        let m := length l in
        match rev s with
        | [] => Some (m, fun p => fmul fo (nth p l (fzero fo)) (fone fo))
        | c :: _ =>
            if Nat.eqb m c then Some (size s, fun p => fmul fo (nth (p mod c) l (fzero fo)) (fone fo))
            else if Nat.eqb m 1 then Some (size s, fun _ => fmul fo (nth 0 l (fzero fo)) (fone fo))
            else if Nat.eqb c 1 then Some (size s * m, fun p => fmul fo (nth (p mod m) l (fzero fo)) (fone fo))
            else None
        end
    | rn_img a => Some (size (nd_shape a), nd_at a)
    end.
  Record wout := { o_params : nd fo; o_vars : nd fo; o_dq : nd Z; o_unit : option fo }.
  (** the outputs before the last lines: one row of two parameters (the intercept is zero) and three variances per pixel
      (_fit.pyx lines 185-225), and the DQ (lines 128-130) *)
  Definition zrow : rfit fo * fo * (nat -> Z) := (zfit fo, fzero fo, fun _ => 0%Z).
  Definition param_at (outs : list (rfit fo * fo * (nat -> Z))) (k : nat) : fo :=
    if Nat.eqb (k mod 2) 0 then fzero fo else f_slope (fst (fst (nth (k / 2) outs zrow))).
  Definition var_at (outs : list (rfit fo * fo * (nat -> Z))) (k : nat) : fo :=
    let '(f, tot, _) := nth (k / 3) outs zrow in match k mod 3 with 0 => f_read f | 1 => f_poisson f | _ => tot end.
  Definition dq_at (np : nat) (outs : list (rfit fo * fo * (nat -> Z))) (k : nat) : Z := snd (nth (k mod np) outs zrow) (k / np).
  (** lines 93-144.  [unit]: factor to electrons of the resultants' unit.  A noise array with fewer elements than there are
      pixels is read out of bounds (bounds checks are off, _fit.pyx line 95): None here.  [b0]: uninitialised buffers. *)
  Definition casertano (unit : option fo) (res : nd fo) (dq : nd Z) (rn : noise) (read_time : fo) (pattern : list (list Z)) (use_jump : bool)
      (intercept constant : option fo) (b0 : buffer fo) : option wout :=
    let ic := match intercept with Some x => x | None => fdiv fo (fofZ fo 11) (fofZ fo 2) end in
    let cc := match constant with Some x => x | None => fdiv fo (fone fo) (fofZ fo 3) end in
    let y k := match unit with Some f => fmul fo (nd_at res k) f | None => nd_at res k end in
    match nd_shape res with
    | [] => None
    | n :: s =>
        let np := size s in
        do e <- expand_noise rn s;
        (* a single ramp: line 115 reshapes the noise to one element *)
        if match s with [] => negb (Nat.eqb (fst e) 1) | _ => Nat.ltb (fst e) np end then None
        else
          do outs <- fit_ramps fo pow log10 use_jump ic cc read_time pattern n np (fun i p => y (i * np + p)) (fun i p => int32 (nd_at dq (i * np + p))) (snd e) b0;
          let params := {| nd_shape := s ++ [2]; nd_at := param_at outs |} in
          let vars := {| nd_shape := s ++ [3]; nd_at := var_at outs |} in
          (* lines 132-134: for a single ramp the first entry only *)
          let first {A} (a : nd A) := match s with [] => {| nd_shape := []; nd_at := nd_at a |} | _ => a end in
          Some {| o_params := first params; o_vars := first vars; o_dq := {| nd_shape := nd_shape res; nd_at := dq_at np outs |}; o_unit := unit |}
    end.
End Wrapper.
