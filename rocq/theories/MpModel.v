(** Model of src/stcal/multiprocessing.py and of the row slicing / reassembly in
    src/stcal/ramp_fitting/ols_fit.py *)
From Verif Require Import Base.
From Coq Require Import String Ascii.
Local Open Scope string_scope.
Local Open Scope list_scope.

(** str.isnumeric of one character (multiprocessing.py:29).  Simplification: strings
    are ASCII, so "numeric" means a decimal digit. *)
Definition is_digit (c : ascii) : bool :=
  (Nat.leb 48 (nat_of_ascii c) && Nat.leb (nat_of_ascii c) 57)%bool.
Fixpoint all_digits (s : string) : bool :=
  match s with EmptyString => true | String c s' => is_digit c && all_digits s' end.
(** str.isnumeric: false on the empty string *)
Definition isnumeric (s : string) : bool :=
  match s with EmptyString => false | _ => all_digits s end.
(** int(s) of a digit string (multiprocessing.py:30) *)
Fixpoint int_of_aux (acc : nat) (s : string) : nat :=
  match s with
  | EmptyString => acc
  | String c s' => int_of_aux (10 * acc + (nat_of_ascii c - 48)) s'
  end.
Definition int_of (s : string) : nat := int_of_aux 0 s.
(** str.lower (multiprocessing.py:31), ASCII *)
Definition lower_char (c : ascii) : ascii :=
  let n := nat_of_ascii c in
  if (Nat.leb 65 n && Nat.leb n 90)%bool then ascii_of_nat (n + 32) else c.
Fixpoint lower (s : string) : string :=
  match s with EmptyString => EmptyString | String c s' => String (lower_char c) (lower s') end.

(** [x or 1] *)
Definition or1 (n : nat) : nat := if Nat.eqb n 0 then 1 else n.

(** multiprocessing.py:4-40 *)
Definition compute_num_cores (max_cores : string) (nchunks max_available : nat) : nat :=
  let number_slices :=
    if isnumeric max_cores then int_of max_cores
    else if (String.eqb (lower max_cores) "none" || String.eqb (lower max_cores) "one")%bool then 1
    else if String.eqb max_cores "quarter" then or1 (max_available / 4)
    else if String.eqb max_cores "half" then or1 (max_available / 2)
    else if String.eqb max_cores "all" then max_available
    else 1 in
  Nat.min (Nat.min nchunks number_slices) max_available.

(** ols_fit.py:425-455; division by zero is an exception *)
Definition rows_per_slice (nslices nrows : nat) : option (list nat) :=
  if Nat.eqb nslices 0 then None
  else
    let quotient := nrows / nslices in
    let remainder := nrows mod nslices in
    Some (if Nat.ltb 0 remainder
          then repeat (quotient + 1) remainder ++ repeat quotient (nslices - remainder)
          else repeat quotient nslices).

Section Slices.
(** A: everything the fitter sees of one detector row (data, group DQ, pixel DQ, dark
    current, ZEROFRAME, original group DQ, read noise and gain of that row, for all
    integrations and groups).  M: the meta data.  B: what it returns for that row
    (slope, dq, variances, err of the image and of all integrations).  S: one segment
    plane entry of the optional product for that row. *)
Context {A M B S : Type}.
Variable meta_of_slice : M -> M.   (* ols_fit.py:494-519, the meta data a slice carries *)
Variables (zeroB : B) (zeroS : S).
(** ols_ramp_fit_single on one row: the C extension loops over pixels independently
    (slope_fitter.c, ols_slope_fit_pixels).  The optional part is the list of segment
    entries of the row. *)
Variable fit_row : M -> A -> B * list S.

(** numpy slicing of the row axis [start:start+n] (ols_fit.py:484-492, 415-416) *)
Definition row_slice {X} (start n : nat) (l : list X) : list X := firstn n (skipn start l).

(** ols_fit.py:413-420, the loop building the slices *)
Fixpoint make_slices (start : nat) (rslices : list nat) (rows : list A) : list (list A) :=
  match rslices with
  | [] => []
  | n :: rest => row_slice start n rows :: make_slices (start + n) rest rows
  end.

(** One call of ols_ramp_fit_single on a block of rows: image/integration results
    per row, and the optional product, whose segment axis is as long as the longest
    row of the block, padded with zeros. *)
Definition pad (n : nat) (l : list S) : list S := l ++ repeat zeroS (n - List.length l).
Definition nsegs (m : M) (rows : list A) : nat :=
  fold_right Nat.max 0 (map (fun a => List.length (snd (fit_row m a))) rows).
Record block_out := { b_main : list B; b_nsegs : nat; b_opt : list (list S) }.
Definition fit_block (m : M) (rows : list A) : block_out :=
  {| b_main := map (fun a => fst (fit_row m a)) rows;
     b_nsegs := nsegs m rows;
     b_opt := map (fun a => pad (nsegs m rows) (snd (fit_row m a))) rows |}.

(** get_slice (ols_fit.py:229-261) on one array: out[..., srow:erow, :] = slice *)
Definition write_rows {X} (start n : nat) (sl : list X) (out : list X) : list X :=
  firstn start out ++ sl ++ skipn (start + n) out.
(** ... and when the segment axis of the slice is shorter: out[..., :imax, srow:erow, :] = slice *)
Definition merge_segs (sl out : list S) : list S := sl ++ skipn (List.length sl) out.
Definition write_opt (start n : nat) (b : block_out) (max_segs : nat) (out : list (list S))
  : list (list S) :=
  if Nat.eqb (b_nsegs b) max_segs then write_rows start n (b_opt b) out
  else write_rows start n (map (fun p => merge_segs (fst p) (snd p))
                               (combine (b_opt b) (row_slice start n out))) out.

(** assemble_pool_results (ols_fit.py:213-223), the loop over slices *)
Fixpoint assemble (start : nat) (rslices : list nat) (res : list block_out) (max_segs : nat)
         (main : list B) (opt : list (list S)) : list B * list (list S) :=
  match rslices, res with
  | n :: rs, b :: bs =>
      assemble (start + n) rs bs max_segs
        (write_rows start n (b_main b) main) (write_opt start n b max_segs opt)
  | _, _ => (main, opt)
  end.

(** get_max_segs_crs (ols_fit.py:342-376): seg_max starts at 1 *)
Definition max_segs (res : list block_out) : nat :=
  fold_left (fun m b => if Nat.ltb m (b_nsegs b) then b_nsegs b else m) res 1.

(** ols_ramp_fit_multiprocessing (ols_fit.py:108-165) with create_output_info
    (265-339): zero arrays of full size, slices fitted independently, reassembled. *)
Definition fit_multi (m : M) (nslices : nat) (rows : list A) : option (list B * list (list S)) :=
  do rs <- rows_per_slice nslices (List.length rows);
  let res := map (fit_block (meta_of_slice m)) (make_slices 0 rs rows) in
  let ms := max_segs res in
  Some (assemble 0 rs res ms (repeat zeroB (List.length rows))
                 (repeat (repeat zeroS ms) (List.length rows))).

(** ols_ramp_fit_multi (ols_fit.py:88-105): one slice means no splitting at all *)
Definition fit_single (m : M) (rows : list A) : list B * list (list S) :=
  (b_main (fit_block m rows), b_opt (fit_block m rows)).
End Slices.

(** The scalar attributes of RampData read by the C fitter (slope_fitter.c:2107-2170).
    [start_row]/[num_rows]/[debug] only affect debugging output and are left out. *)
Record ramp_meta := {
  rm_groupgap : nat; rm_nframes : nat; rm_suppress1g : bool; rm_drop_frames1 : nat;
  rm_dnu : N; rm_jump : N; rm_sat : N; rm_pers : N; rm_ngval : N; rm_uslope : N; rm_chargeloss : N;
  rm_group_time : Z; rm_frame_time : Z   (* opaque here *)
}.
(** slice_ramp_data (ols_fit.py:477-525): a fresh RampData whose attributes are copied one
    by one; suppress_one_group_ramps is not among them and keeps its default False
    (ramp_fit_class.py:50). *)
Definition slice_meta (m : ramp_meta) : ramp_meta :=
  {| rm_groupgap := rm_groupgap m; rm_nframes := rm_nframes m; rm_suppress1g := false;
     rm_drop_frames1 := rm_drop_frames1 m;
     rm_dnu := rm_dnu m; rm_jump := rm_jump m; rm_sat := rm_sat m; rm_pers := rm_pers m;
     rm_ngval := rm_ngval m; rm_uslope := rm_uslope m; rm_chargeloss := rm_chargeloss m;
     rm_group_time := rm_group_time m; rm_frame_time := rm_frame_time m |}.
