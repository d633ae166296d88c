(** What jump detection is supposed to do, written without the model's helper functions. *)
From Verif Require Import Base JumpModel.

(** ** The documented iteration on the absolute first differences of one pixel *)
Section Iteration.
  Variable fo : FOps.
  Variable med : list fo -> fo.
  Variable P : params fo.
  Variables nints nd : nat.
  Variable rn2 : fo.

  Definition grid : list (nat * nat) := list_prod (seq 0 nints) (seq 0 nd).
  (** differences still in use *)
  Definition in_use (d : nat -> nat -> fo) : list fo :=
    filter (fun x => negb (fisnan fo x)) (map (fun p => d (fst p) (snd p)) grid).
  (** the typical difference: the smaller of two, the median of three, the median of four or more
      after leaving out the largest *)
  Definition typical (u : list fo) : fo :=
    match u with
    | [] | [_] => fnan fo
    | [a; b] => if flt fo b a then b else a
    | [_; _; _] => med u
    | _ => match filter (fun x => existsb (fun y => flt fo x y) u) u with [] => fnan fo | v => med v end
    end.
  Definition noise (m : fo) (j : nat) : fo :=
    let s := fdiv fo (fsqrt fo (fadd fo (fmul fo (fabs fo m) (p_dt P j))
                      (fdiv fo rn2 (fmul fo (fdiv fo (fofZ fo 1) (fofZ fo 2)) (p_nreads P j))))) (p_dt P j) in
    if feq fo s (fzero fo) then fnan fo else s.
  Definition excess (d : nat -> nat -> fo) (i j : nat) : fo :=
    fdiv fo (fabs fo (fsub fo (d i j) (typical (in_use d)))) (noise (typical (in_use d)) j).
  Definition limit (n : nat) : option fo :=
    match n with 0 | 1 => None | 2 => Some (p_thresh2 P) | 3 => Some (p_thresh3 P) | _ => Some (p_thresh P) end.
  (** clipped in this round: nothing has a larger excess, and the excess is over the limit *)
  Definition clipped (d : nat -> nat -> fo) (i j : nat) : bool :=
    Nat.ltb i nints && Nat.ltb j nd && negb (fisnan fo (excess d i j))
    && forallb (fun p => negb (flt fo (excess d i j) (excess d (fst p) (snd p)))) grid
    && match limit (length (in_use d)) with Some t => flt fo t (excess d i j) | None => false end.
  (** the differences after [k] rounds *)
  Fixpoint after (k : nat) (d : nat -> nat -> fo) : nat -> nat -> fo :=
    match k with
    | 0 => d
    | S k' => fun i j => if clipped (after k' d) i j then fnan fo else after k' d i j
    end.
End Iteration.

(** ** Neighbours *)
(** the four pixels sharing an edge, inside the nr x nc frame *)
Definition edge_neighbour (nr nc r c r' c' : nat) : Prop :=
  r' < nr /\ c' < nc /\ ((r' = r /\ (c' = c + 1 \/ c = c' + 1)) \/ (c' = c /\ (r' = r + 1 \/ r = r' + 1))).

(** ** Usable groups *)
(** a group of an integration is usable if some pixel of it is not DO_NOT_USE *)
Definition usable_group (kd : N) (nr nc : nat) (g : img N) : Prop :=
  exists r c, r < nr /\ c < nc /\ N.testbit (g r c) kd = false.
Definition n_usable (kd : N) (ng nr nc : nat) (g : nat -> img N) : nat :=
  length (filter (fun k => existsb (fun r => existsb (fun c => negb (N.testbit (g k r c) kd)) (seq 0 nc)) (seq 0 nr)) (seq 0 ng)).

(** The flags are three different single bits. *)
Definition flag_bits {fo} (P : params fo) (kj kd ks : N) : Prop :=
  p_jump P = bit kj /\ p_dnu P = bit kd /\ p_sat P = bit ks /\ kj <> kd /\ kj <> ks /\ kd <> ks.
