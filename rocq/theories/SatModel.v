(** Model of src/stcal/saturation/saturation.py *)
From Verif Require Import Base.

(** scipy.ndimage index extension, mode 'reflect' (d c b a | a b c d | d c b a),
    the default of [maximum_filter]; used at saturation.py:328-331.
    Index arithmetic is over Z because positions left of the array are negative. *)
Definition reflect_idx (len : nat) (k : Z) : nat :=
  let p := (2 * Z.of_nat len)%Z in
  let m := Z.modulo k p in
  Z.to_nat (if Z.ltb m (Z.of_nat len) then m else p - 1 - m)%Z.

(** saturation.py:328-331: ndimage.maximum_filter(v, 2n+1) of a boolean vector [v]
    of length [len], at position [c]. *)
Definition maxfilt1 (n len : nat) (v : nat -> bool) (c : nat) : bool :=
  existsb (fun d => v (reflect_idx len (Z.of_nat c + Z.of_nat d - Z.of_nat n)))
          (seq 0 (2 * n + 1)).

(** Length of the Python slice [a[lo:hi]] for an axis of length [len]
    (negative bounds count from the end, out-of-range bounds are clipped). *)
Definition py_bound (len : nat) (k : Z) : Z :=
  let l := Z.of_nat len in
  if Z.ltb k 0 then Z.max 0 (k + l) else Z.min k l.
Definition py_slice_len (len : nat) (lo hi : Z) : nat :=
  Z.to_nat (py_bound len hi - py_bound len lo).

(** An in-place [dst |= src] needs [src] broadcastable to [dst] along each axis. *)
Definition broadcastable (dst src : nat) : bool := Nat.eqb src dst || Nat.eqb src 1.

(** saturation.py:311-321, one (i, j) iteration of the interior loop:
    dilated[n:-n, n:-n] |= only_sat[i:i2, j:j2].  [None] when the shapes of the two
    slices do not broadcast (ValueError). *)
Definition interior_step (n nr nc : nat) (only_sat : img bool) (dil : img bool)
           (ij : nat * nat) : option (img bool) :=
  let (i, j) := ij in
  let zn := Z.of_nat n in
  let i2 := (Z.of_nat nr - Z.of_nat (2 * n + 1) + Z.of_nat i + 1)%Z in
  let j2 := (Z.of_nat nc - Z.of_nat (2 * n + 1) + Z.of_nat j + 1)%Z in
  let dr := py_slice_len nr zn (- zn) in
  let dc := py_slice_len nc zn (- zn) in
  let sr := py_slice_len nr (Z.of_nat i) i2 in
  let sc := py_slice_len nc (Z.of_nat j) j2 in
  if broadcastable dr sr && broadcastable dc sc then
    Some (fun r c =>
      if (Nat.leb n r && Nat.ltb r (n + dr)) && (Nat.leb n c && Nat.ltb c (n + dc))
      then dil r c || only_sat (if Nat.eqb sr dr then r - n + i else i)%nat
                               (if Nat.eqb sc dc then c - n + j else j)%nat
      else dil r c)
  else None.

(** saturation.py:323-331, one (i, j) iteration of the edge loop; [None] when an
    index is out of range (IndexError). *)
Definition edge_step (n nr nc : nat) (only_sat : img bool) (dil : img bool)
           (ij : nat * nat) : option (img bool) :=
  let (i, j) := ij in
  if (Nat.ltb i nr && Nat.ltb j nr) && (Nat.ltb i nc && Nat.ltb j nc) then
    let d1 : img bool := fun r c =>                       (* dilated[i] |= mf(only_sat[j]) *)
      if Nat.eqb r i then dil r c || maxfilt1 n nc (fun c' => only_sat j c') c else dil r c in
    let d2 : img bool := fun r c =>                       (* dilated[:, i] |= mf(only_sat[:, j]) *)
      if Nat.eqb c i then d1 r c || maxfilt1 n nr (fun r' => only_sat r' j) r else d1 r c in
    let d3 : img bool := fun r c =>                       (* dilated[-i-1] |= mf(only_sat[-j-1]) *)
      if Nat.eqb r (nr - 1 - i) then d2 r c || maxfilt1 n nc (fun c' => only_sat (nr - 1 - j) c') c
      else d2 r c in
    let d4 : img bool := fun r c =>                       (* dilated[:, -i-1] |= mf(only_sat[:, -j-1]) *)
      if Nat.eqb c (nc - 1 - i) then d3 r c || maxfilt1 n nr (fun r' => only_sat r' (nc - 1 - j)) r
      else d3 r c in
    Some d4
  else None.

(** for i in range(box_dim): for j in range(box_dim) — saturation.py:311-312 *)
Definition box_pairs (n : nat) : list (nat * nat) :=
  list_prod (seq 0 (2 * n + 1)) (seq 0 (2 * n + 1)).
(** for i in range(n-1,-1,-1): for j in range(i+n,-1,-1) — saturation.py:323-324 *)
Definition edge_pairs (n : nat) : list (nat * nat) :=
  flat_map (fun i => map (fun j => (i, j)) (rev (seq 0 (i + n + 1)))) (rev (seq 0 n)).

(** saturation.py:297-331: the dilated mask of [only_sat]. *)
Definition dilate (n nr nc : nat) (only_sat : img bool) : option (img bool) :=
  do d <- foldM (interior_step n nr nc only_sat) (box_pairs n) only_sat;
  foldM (edge_step n nr nc only_sat) (edge_pairs n) d.

(** saturation.py:268-338, [_adjacent_pixels] (the in-place update is returned). *)
Definition adjacent_pixels (n nr nc : nat) (sat : N) (gdq : img N) : option (img N) :=
  let only_sat : img bool := fun r c => has (gdq r c) sat in
  do d <- dilate n nr nc only_sat;
  Some (fun r c => if d r c then N.lor (gdq r c) sat else gdq r c).

(** saturation.py:148-150, 200-201, 253-254: grow only if n_pix_grow_sat > 0. *)
Definition grow (n nr nc : nat) (flag : N) (gdq : img N) : option (img N) :=
  if Nat.ltb 0 n then adjacent_pixels n nr nc flag gdq else Some gdq.

(** The four flags of the [dqflags] dictionary, saturation.py:92-95. *)
Record sat_flags := { f_dnu : N; f_sat : N; f_adf : N; f_nsc : N }.

Section Sat.
Context (fo : FOps).
(** numpy.mean of a read-pattern entry (saturation.py:170, 225): external, any function. *)
Variable fmean : list fo -> fo.

(** Arguments of flag_saturated_pixels, saturation.py:12-24.  [s_thr]/[s_satdq] are
    indexed by integration and group; the usual 2-D reference arrays are the functions
    ignoring these two indices.  [s_bias] likewise (integration index only), absent
    bias is the constant 0 (saturation.py:111-112). *)
Record sat_in := {
  s_nints : nat; s_ngroups : nat; s_nrows : nat; s_ncols : nat;
  s_data : nat -> nat -> img fo;            (* integration, group *)
  s_gdq : nat -> nat -> img N;
  s_pdq : img N;
  s_thr : nat -> nat -> img fo;
  s_satdq : nat -> nat -> img N;
  s_atod : fo;
  s_grow : nat;
  s_zframe : option (nat -> img fo);
  s_rp : option (list (list fo));
  s_bias : nat -> img fo
}.
Variable fl : sat_flags.
Variable inp : sat_in.

(** saturation.py:98-103: the no_sat_check_mask *)
Definition no_check (i g r c : nat) : bool :=
  N.eqb (N.land (s_satdq inp i g r c) (f_nsc fl)) (f_nsc fl) || fisnan fo (s_thr inp i g r c).
(** saturation.py:102: the NaN-completed reference DQ *)
Definition satdq' (i g r c : nat) : N :=
  if fisnan fo (s_thr inp i g r c) then N.lor (s_satdq inp i g r c) (f_nsc fl)
  else s_satdq inp i g r c.
(** saturation.py:108: the effective threshold *)
Definition thr' (i g r c : nat) : fo :=
  if no_check i g r c then fadd fo (s_atod inp) (fone fo) else s_thr inp i g r c.

(** saturation.py:122-150, one group of the forward pass.  State: the running tally
    [previously_saturated] and the group DQ of the integration. *)
Definition forward_group (i : nat) (st : img bool * (nat -> img N)) (g : nat)
  : option (img bool * (nat -> img N)) :=
  let (prev, gdq) := st in
  let plane := s_data inp i g in
  let prev' : img bool := fun r c => prev r c || fge fo (plane r c) (thr' i g r c) in
  let g1 : img N := fun r c => N.lor (gdq g r c) (flag_if (prev' r c) (f_sat fl)) in
  let g2 : img N := fun r c =>
    N.lor (g1 r c) (flag_if (fle fo (plane r c) (fzero fo)) (N.lor (f_adf fl) (f_dnu fl))) in
  do g3 <- grow (s_grow inp) (s_nrows inp) (s_ncols inp) (f_sat fl) g2;
  Some (prev', upd g g3 gdq).

(** saturation.py:115-150 *)
Definition forward_pass (i : nat) : option (nat -> img N) :=
  do st <- foldM (forward_group i) (seq 0 (s_ngroups inp)) (fun _ _ => false, s_gdq inp i);
  Some (snd st).

(** saturation.py:156-204, one group of the backward pass. *)
Definition backward_group (i : nat) (rp : list (list fo)) (gdq : nat -> img N) (g : nat)
  : option (nat -> img N) :=
  match nth_error rp g with
  | None => None                                              (* IndexError *)
  | Some [] => None                                           (* read_pattern[g][-1] *)
  | Some ((_ :: _) as reads) =>
      let dil := fdiv fo (fmean reads) (last reads (fzero fo)) in
      if feq fo dil (fone fo) then Some gdq                    (* continue *)
      else
        let dilf : img fo := fun r c => if no_check i g r c then fone fo else dil in
        let partial : img bool := fun r c =>
          fge fo (s_data inp i g r c) (fmul fo (thr' i g r c) (dilf r c))
          && negb (has (gdq g r c) (N.lor (f_sat fl) (f_dnu fl)))
          && has (gdq (g + 1) r c) (f_sat fl) in
        let fa : img N := fun r c => flag_if (partial r c) (f_dnu fl) in
        do fa' <- grow (s_grow inp) (s_nrows inp) (s_ncols inp) (f_dnu fl) fa;
        Some (upd g (fun r c => N.lor (gdq g r c) (fa' r c)) gdq)
  end.

(** saturation.py:156-204: for group in range(ngroups-2, -1, -1) *)
Definition backward_pass (i : nat) (gdq : nat -> img N) : option (nat -> img N) :=
  match s_rp inp with
  | None => Some gdq                                           (* every iteration continues *)
  | Some rp => foldM (backward_group i rp) (rev (seq 0 (s_ngroups inp - 1))) gdq
  end.

(** saturation.py:206-242, the extra pass for the second group. *)
Definition group2_pass (i : nat) (gdq : nat -> img N) : option (nat -> img N) :=
  match s_rp inp with
  | None => Some gdq
  | Some rp =>
      if Nat.ltb 2 (s_ngroups inp) then
        match nth_error rp 0, nth_error rp 1, nth_error rp 2 with
        | Some r0, Some r1, Some ((_ :: _) as r2) =>
            let bias := s_bias inp i in
            let thr2 := thr' i 0 in
            let d0 := s_data inp i 0 in
            let d1 := s_data inp i 1 in
            let mask : img bool := fun r c =>
              flt fo (fadd fo (fmul fo (fdiv fo (fsub fo (d0 r c) (bias r c)) (fmean r0))
                                       (last r2 (fzero fo))) (bias r c)) (thr2 r c)
              && fgt fo (fsub fo (d1 r c) (d0 r c))
                     (fdiv fo (fsub fo (thr2 r c) (d0 r c)) (fofZ fo (Z.of_nat (length r1))))
              && (has (gdq 2 r c) (f_sat fl) && negb (has (gdq 1 r c) (f_sat fl))) in
            Some (upd 1 (fun r c => N.lor (gdq 1 r c) (flag_if (mask r c) (f_dnu fl))) gdq)
        | _, _, _ => None
        end
      else Some gdq
  end.

(** saturation.py:244-256 with [_plane_saturation] (341-379): the ZEROFRAME of one
    integration; flagged samples are set to 0. *)
Definition zframe_pass (i : nat) (z : img fo) : option (img fo) :=
  let thr := thr' i 0 in
  let zdq : img N := fun r c =>
    N.lor (flag_if (fge fo (z r c) (thr r c)) (f_sat fl))
          (flag_if (fle fo (z r c) (fzero fo)) (N.lor (f_adf fl) (f_dnu fl))) in
  do zdq' <- grow (s_grow inp) (s_nrows inp) (s_ncols inp) (f_sat fl) zdq;
  Some (fun r c => if N.eqb (zdq' r c) 0 then z r c else fzero fo).

(** saturation.py:114-256, the body of the integration loop. *)
Definition integ (i : nat) : option ((nat -> img N) * option (img fo)) :=
  do g1 <- forward_pass i;
  do g2 <- backward_pass i g1;
  do g3 <- group2_pass i g2;
  match s_zframe inp with
  | None => Some (g3, None)
  | Some zf => do z <- zframe_pass i (zf i); Some (g3, Some z)
  end.

(** The integration loop (saturation.py:114): each iteration touches only the slices of
    its own integration; results are collected in integration order. *)
Fixpoint integs (l : list nat) : option (list ((nat -> img N) * option (img fo))) :=
  match l with
  | [] => Some []
  | i :: l' => do x <- integ i; do xs <- integs l'; Some (x :: xs)
  end.

Record sat_out := { o_gdq : list (nat -> img N); o_pdq : img N; o_zframe : option (list (img fo)) }.

(** saturation.py:12-265.  The reference DQ OR-ed into the pixel DQ (line 263) is the
    2-D one. *)
Definition flag_saturated_pixels : option sat_out :=
  do outs <- integs (seq 0 (s_nints inp));
  Some {| o_gdq := map fst outs;
          o_pdq := fun r c => N.lor (s_pdq inp r c) (satdq' 0 0 r c);
          o_zframe := match s_zframe inp with
                      | None => None
                      | Some _ => Some (flat_map (fun x => match snd x with Some z => [z] | None => [] end) outs)
                      end |}.
End Sat.
