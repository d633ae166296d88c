(** Model of src/stcal/dark_current/dark_sub.py (do_correction_data and below). *)
From Verif Require Import Base.

Section Dark.
Context (fo : FOps).
(** numpy mean over axis 0 of a stack of planes, at one pixel (dark_sub.py:229, 311):
    external, any function of the samples.  The conversions between float32 and
    float64 storage are not modelled: one arithmetic [fo] throughout. *)
Variable fmean : list fo -> fo.

Notation plane := (img fo).

(** The dark reference (dark_class.py:5-66).  [d_data]: integrations, each a list of
    group planes; a 3-D dark is a single integration with [d_is4d = false].
    [d_dq]: for a 4-D dark the planes dq[i, 0] of every integration, for a 3-D dark the
    single 2-D array. *)
Record dark := { d_is4d : bool; d_data : list (list plane); d_dq : list (img N);
                 d_nframes : nat; d_groupgap : nat }.
(** Science data (dark_class.py:69-109) *)
Record science := { c_nints : nat; c_ngroups : nat; c_data : nat -> nat -> plane;
                    c_gdq : nat -> nat -> img N; c_pdq : img N;
                    c_nframes : nat; c_groupgap : nat; c_intstart : option nat }.
Inductive step_status := COMPLETE | SKIPPED.

(** _extrapolate_int, dark_sub.py:414-422; arr[-2] of a shorter array raises *)
Definition extrapolate_int (arr : list plane) (ngroups : nat) : option (list plane) :=
  match rev arr with
  | last :: prev :: _ =>
      let rate : plane := fun r c => fsub fo (last r c) (prev r c) in
      Some (arr ++ map (fun k : nat => (fun r c =>
               fadd fo (fmul fo (fofZ fo (Z.of_nat k)) (rate r c)) (last r c)) : plane)
                       (seq 1 ngroups))
  | _ => None
  end.
(** loop over integrations, dark_sub.py:424-431 *)
Fixpoint mapM {A B} (f : A -> option B) (l : list A) : option (list B) :=
  match l with [] => Some [] | x :: l' => do y <- f x; do ys <- mapM f l'; Some (y :: ys) end.

(** number of groups of the dark: dark_data.data.shape *)
Definition d_ngroups (d : dark) : nat := length (hd [] (d_data d)).

(** dark_sub.py:105-106 *)
Definition total_frames (ngroups nframes groupgap : nat) : Z :=
  (Z.of_nat ngroups * Z.of_nat nframes + (Z.of_nat ngroups - 1) * Z.of_nat groupgap)%Z.
(** np.ceil(a / b), dark_sub.py:113-115 (exact integer ceiling; the float rounding of
    the quotient is not modelled) *)
Definition zceil (a b : Z) : Z := (- ((- a) / b))%Z.

(** dark_sub.py:105-116 *)
Definition extended_dark (s : science) (d : dark) : option (list (list plane)) :=
  let st := total_frames (c_ngroups s) (c_nframes s) (c_groupgap s) in
  let dt := total_frames (d_ngroups d) (d_nframes d) (d_groupgap d) in
  if Z.ltb dt st then
    let per := (Z.of_nat (d_nframes d) + Z.of_nat (d_groupgap d))%Z in
    if Z.eqb per 0 then None
    else mapM (fun a => extrapolate_int a (Z.to_nat (zceil (st - dt + Z.of_nat (d_groupgap d)) per)))
              (d_data d)
  else Some (d_data d).

(** dark_sub.py:131 *)
Definition nan0 (p : plane) : plane := fun r c => if fisnan fo (p r c) then fzero fo else p r c.

(** One group of the averaging loop (dark_sub.py:215-230, 299-312).  [start:end]
    is clipped like a Python slice. *)
Definition avg_group (arr : list plane) (nframes start : nat) : option plane :=
  if Nat.eqb nframes 1 then nth_error arr start                      (* IndexError *)
  else Some (fun r c => fmean (map (fun p : plane => p r c) (firstn nframes (skipn start arr)))).
(** the group loop with [start] advancing by nframes + groupgap *)
Fixpoint avg_loop (arr : list plane) (nframes groupgap start ngroups : nat) : option (list plane) :=
  match ngroups with
  | 0 => Some []
  | S k => do p <- avg_group arr nframes start;
           do ps <- avg_loop arr nframes groupgap (start + nframes + groupgap) k;
           Some (p :: ps)
  end.
(** average_dark_frames_3d (175-239) / _4d (242-321): integrations beyond the number in
    the science data are left at their initial zeros *)
Definition average_dark (s : science) (d : dark) (data : list (list plane)) : option (list (list plane)) :=
  let num := if d_is4d d then Nat.min (length data) (c_nints s) else length data in
  do front <- mapM (fun a => avg_loop a (c_nframes s) (c_groupgap s) 0 (c_ngroups s)) (firstn num data);
  Some (front ++ repeat (repeat (fun _ _ => fzero fo) (c_ngroups s)) (length data - num)).

(** subtract_dark (324-396): which dark integration serves science integration i *)
Definition dark_index (s : science) (d : dark) (nints i : nat) : nat :=
  if d_is4d d then
    if Nat.ltb i nints && Nat.eqb (match c_intstart s with None => 1 | Some k => k end) 1
    then i else nints - 1
  else 0.
Definition or_planes (l : list (img N)) : img N :=
  fun r c => fold_left (fun w p => N.lor w (p r c)) (tl l) (hd (fun _ _ => 0%N) l r c).
(** data part, lines 375-394: None when a dark integration or group is missing *)
Definition subtract_ok (s : science) (d : dark) (data : list (list plane)) : bool :=
  forallb (fun i => match nth_error data (dark_index s d (length data) i) with
                    | None => false
                    | Some a => Nat.leb (c_ngroups s) (length a)
                    end) (seq 0 (c_nints s)).
Definition subtract_data (s : science) (d : dark) (data : list (list plane)) : nat -> nat -> plane :=
  fun i j r c =>
    fsub fo (c_data s i j r c)
      (nth j (nth (dark_index s d (length data) i) data []) (fun _ _ => fzero fo) r c).

Record dark_out := { o_status : step_status; o_data : nat -> nat -> plane;
                     o_cgdq : nat -> nat -> img N; o_cpdq : img N }.

Definition subtract_dark (s : science) (d : dark) (data : list (list plane)) : option dark_out :=
  if subtract_ok s d data then
    Some {| o_status := COMPLETE; o_data := subtract_data s d data; o_cgdq := c_gdq s;
            o_cpdq := fun r c => N.lor (c_pdq s r c) (or_planes (d_dq d) r c) |}
  else None.

(** do_correction_data, dark_sub.py:49-172 (saving the dark and log messages left out) *)
Definition do_correction_data (s : science) (d : dark) : option dark_out :=
  do data <- extended_dark s d;
  if Nat.ltb (c_nframes s) (d_nframes d) || Nat.ltb (c_groupgap s) (d_groupgap d) then
    Some {| o_status := SKIPPED; o_data := c_data s; o_cgdq := c_gdq s; o_cpdq := c_pdq s |}
  else
    let data := map (map nan0) data in
    if Nat.eqb (c_nframes s) (d_nframes d) && Nat.eqb (c_groupgap s) (d_groupgap d)
    then subtract_dark s d data
    else do avg <- average_dark s d data; subtract_dark s d avg.
End Dark.
