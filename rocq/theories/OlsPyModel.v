(** The python around the OLS fitter: src/stcal/ramp_fitting/ramp_fit.py, ols_fit.py and utils.py.
    Arrays are functions with explicit dimensions; the group DQ array is the caller's memory and is updated in place. *)
From Verif Require Import Base OlsModel.

(** ** DQ compression (utils.py) *)
(** set_if_total_integ (lines 42-71) at one pixel: [l] are the words along the summed axis *)
Definition set_if_total (final : N) (l : list N) (flag set_flag : N) : N :=
  let total := fold_left (fun a w => if has w flag then S a else a) l 0 in
  if Nat.eqb total (length l) then N.lor final set_flag else final.
(** dq_compress_sect (lines 100-118) at one pixel; the sums are over [word & flag] *)
Definition dq_compress_sect (f : oflags) (groups : list N) (pdq : N) : N :=
  let pdq := set_if_total pdq groups (N.lor (o_sat f) (o_dnu f)) (o_dnu f) in
  let sumf flag := fold_left (fun a w => a + N.land w flag)%N groups 0%N in
  let pdq := if N.ltb 0 (sumf (o_sat f)) then N.lor pdq (o_sat f) else pdq in
  if N.ltb 0 (sumf (o_jump f)) then N.lor pdq (o_jump f) else pdq.
(** dq_compress_final (lines 138-154) at one pixel; dq_int[0] fails without integrations *)
Definition dq_compress_final (dnu : N) (ints : list N) : option N :=
  match ints with
  | [] => None
  | w :: l =>
      let all := fold_left N.lor l w in
      Some (set_if_total (N.ldiff all dnu) ints dnu dnu)
  end.

(** ** suppress_one_good_group_ramps (ramp_fit.py lines 291-312) *)
(** the pixels of one integration with exactly one group of (word & npers) = 0, in row-major order; words are uint8 *)
Definition pixels (nr nc : nat) : list (nat * nat) := flat_map (fun r => map (fun c => (r, c)) (seq 0 nc)) (seq 0 nr).
Definition one_good (pers : N) (ng : nat) (dq : nat -> img N) (rc : nat * nat) : bool :=
  Nat.eqb (length (filter (fun g => N.eqb (N.land (dq g (fst rc) (snd rc)) (N.ldiff 255 pers)) 0) (seq 0 ng))) 1.
Definition or_pixel (dnu : N) (dq : nat -> img N) (rc : nat * nat) : nat -> img N :=
  fun g r c => if Nat.eqb r (fst rc) && Nat.eqb c (snd rc) then N.lor (dq g r c) dnu else dq g r c.
Definition suppress_integ (f : oflags) (ng nr nc : nat) (dq : nat -> img N) : nat -> img N :=
  fold_left (or_pixel (o_dnu f)) (filter (one_good (o_pers f) ng dq) (pixels nr nc)) dq.
Definition suppress (f : oflags) (ni ng nr nc : nat) (dq : nat -> nat -> img N) : nat -> nat -> img N :=
  fold_left (fun a i => upd i (suppress_integ f ng nr nc (a i)) a) (seq 0 ni) dq.
(** ramp_fit (ramp_fit.py lines 186-189) and ramp_fit_data (lines 268-270) *)
Definition maybe_suppress (f : oflags) (wanted : bool) (ni ng nr nc : nat) (dq : nat -> nat -> img N) : nat -> nat -> img N :=
  if wanted && negb (Nat.eqb ng 1) then suppress f ni ng nr nc dq else dq.

(** ** discard_miri_groups (ols_fit.py lines 692-760) *)
(** group [g] is DO_NOT_USE everywhere *)
Definition all_dnu (f : oflags) (ni nr nc : nat) (mem : nat -> nat -> img N) (g : nat) : bool :=
  forallb (fun i => forallb (fun rc => has (mem i g (fst rc) (snd rc)) (o_dnu f)) (pixels nr nc)) (seq 0 ni).
(** the loop over wh_cr (lines 715-719): subtract JUMP_DET where set, in group [g] *)
Definition clear_jump (f : oflags) (ni nr nc : nat) (mem : nat -> nat -> img N) (g : nat) : nat -> nat -> img N :=
  fun i j r c => if Nat.ltb i ni && Nat.eqb j g && Nat.ltb r nr && Nat.ltb c nc && has (mem i j r c) (o_jump f)
                 then N.sub (mem i j r c) (o_jump f) else mem i j r c.
(** the while loop (lines 700-719): [off] groups dropped, [rem] groups remain; None: refused.  [fuel] bounds the
    number of iterations and is never exhausted (each iteration drops one of the [rem] groups). *)
Fixpoint miri_loop (f : oflags) (ni nr nc : nat) (fuel : nat) (mem : nat -> nat -> img N) (off rem : nat)
  : (nat -> nat -> img N) * option (nat * nat) :=
  match fuel with
  | 0 => (mem, None)
  | S k =>
      if all_dnu f ni nr nc mem off then
        if Nat.ltb (rem - 1) 1 then (mem, None)
        else miri_loop f ni nr nc k (clear_jump f ni nr nc mem (S off)) (S off) (rem - 1)
      else (mem, Some (off, rem))
  end.
(** lines 721-760; result: the caller's group DQ memory and, unless refused, the first kept group and how many are kept *)
Definition discard_miri (f : oflags) (ni ng nr nc : nat) (mem : nat -> nat -> img N) : (nat -> nat -> img N) * option (nat * nat) :=
  let '(mem, r) := miri_loop f ni nr nc (S ng) mem 0 ng in
  (mem, do x <- r;
        let '(off, rem) := x in
        do rem <- (if all_dnu f ni nr nc mem (off + rem - 1) then if Nat.ltb (rem - 1) 1 then None else Some (rem - 1) else Some rem);
        if Nat.ltb rem 2 then None else Some (off, rem)).

(** ** Byte order (ols_fit.py lines 564-590, 612-619, 653-667) *)
(** an array: its elements' bytes in memory, and whether its dtype declares the other byte order than the machine's *)
Record barr := { b_mem : list (list N); b_foreign : bool }.
(** byteswap(inplace=True) through a view: the memory changes, the array's dtype does not *)
Definition byteswap (a : barr) : barr := {| b_mem := map (@rev N) (b_mem a); b_foreign := b_foreign a |}.
Definition handle_endianness (a : barr) : barr * bool := if b_foreign a then (byteswap a, true) else (a, false).
(** what numpy shows: the bytes of an element in machine order; [dec] interprets machine-order bytes *)
Definition np_values {V} (dec : list N -> V) (a : barr) : list V := map (fun w => dec (if b_foreign a then rev w else w)) (b_mem a).
(** what the C code reads: raw memory (slope_fitter.c lines 1730-1782, PyArray_GETPTR) *)
Definition c_values {V} (dec : list N -> V) (a : barr) : list V := map dec (b_mem a).
Record barrs := { a_gain : barr; a_rn : barr; a_data : barr; a_dark : barr; a_gdq : barr; a_pdq : barr; a_zf : barr; a_orig : barr }.
(** endianness_handler: ZEROFRAME and the original group DQ are not handled *)
Definition before_c (a : barrs) : barrs * (bool * bool) :=
  let '(g, gb) := handle_endianness (a_gain a) in let '(r, rb) := handle_endianness (a_rn a) in
  ({| a_gain := g; a_rn := r; a_data := fst (handle_endianness (a_data a)); a_dark := fst (handle_endianness (a_dark a));
      a_gdq := fst (handle_endianness (a_gdq a)); a_pdq := fst (handle_endianness (a_pdq a)); a_zf := a_zf a; a_orig := a_orig a |}, (rb, gb)).
(** after the C call (lines 581-585) *)
Definition after_c (a : barrs) (sw : bool * bool) : barrs :=
  let '(rb, gb) := sw in
  {| a_gain := if gb then byteswap (a_gain a) else a_gain a; a_rn := if rb then byteswap (a_rn a) else a_rn a; a_data := a_data a;
     a_dark := a_dark a; a_gdq := a_gdq a; a_pdq := a_pdq a; a_zf := a_zf a; a_orig := a_orig a |}.

(** ** The read noise (ramp_fit.py lines 265-266) *)
(** the caller's array after the call, at one pixel: multiplied in place *)
Definition scaled_readnoise (fo : FOps) (nframes : nat) (gain rn : fo) : fo :=
  fmul fo rn (fdiv fo gain (fsqrt fo (fmul fo (fofZ fo 2) (fofZ fo (Z.of_nat nframes))))).
