(** Model of src/stcal/linearity/linearity.py *)
From Verif Require Import Base.

Section Lin.
Context (fo : FOps).
(** np.mean over the read axis (linearity.py:429, 470, 493): external *)
Variable fmean : list fo -> fo.

(** The coefficient array: one image per polynomial term (linearity.py:45-47). *)
Notation coeffs := (list (img fo)).
(** the coefficients of one pixel, lin_coeffs[:, r, c] *)
Definition at_pix (cs : coeffs) (r c : nat) : list fo := map (fun p => p r c) cs.

(** ben_coeffs (298-319): ben_cor[1] = 1.0, raises on fewer than two terms *)
Definition ben (n : nat) : list fo :=
  map (fun k => if Nat.eqb k 1 then fone fo else fzero fo) (seq 0 n).
(** lin_coeffs[:, y, x] = ben_cor for the pixels selected by [sel]; the array is changed
    in place (linearity.py:197, 246, 293) *)
Definition set_ben (sel : nat -> nat -> bool) (cs : coeffs) : coeffs :=
  map (fun kp => (fun r c => if sel r c then nth (fst kp) (ben (length cs)) (fzero fo) else snd kp r c) : img fo)
      (combine (seq 0 (length cs)) cs).

(** quantification over the pixels of the frame (np.where ... over a 2-D array, 236, 283-286) *)
Definition all_pixels (nr nc : nat) (f : nat -> nat -> bool) : bool :=
  forallb (fun r => forallb (fun c => f r c) (seq 0 nc)) (seq 0 nr).

(** correct_for_flag (255-295).  [num_flag] counts pixels sharing any bit with NO_LIN_CORR,
    the index lists hold those having all its bits: a pixel with only some of the bits makes
    the loop run past the lists (IndexError). *)
Definition correct_for_flag (nr nc : nat) (nlc : N) (cs : coeffs) (lin_dq : img N) : option coeffs :=
  let w r c := N.land (lin_dq r c) nlc in
  if all_pixels nr nc (fun r c => N.eqb (w r c) 0) then Some cs
  else if Nat.ltb (length cs) 2 then None
  else if all_pixels nr nc (fun r c => N.eqb (w r c) 0 || N.eqb (w r c) nlc)
       then Some (set_ben (fun r c => N.eqb (w r c) nlc) cs)
       else None.

(** correct_for_NaN (155-203) *)
Definition nan_at (cs : coeffs) (r c : nat) : bool := existsb (fisnan fo) (at_pix cs r c).
Definition correct_for_nan (nr nc : nat) (nlc : N) (cs : coeffs) (pdq : img N) : option (coeffs * img N) :=
  if all_pixels nr nc (fun r c => negb (nan_at cs r c)) then Some (cs, pdq)
  else if Nat.ltb (length cs) 2 then None
  else Some (set_ben (nan_at cs) cs, fun r c => N.lor (pdq r c) (flag_if (nan_at cs r c) nlc)).

(** correct_for_zero (206-252); lin_coeffs[1] raises on fewer than two terms *)
Definition zero_at (cs : coeffs) (r c : nat) : bool :=
  feq fo (nth 1 (at_pix cs r c) (fzero fo)) (fzero fo).
Definition correct_for_zero (nlc : N) (cs : coeffs) (pdq : img N) : option (coeffs * img N) :=
  if Nat.ltb (length cs) 2 then None
  else Some (set_ben (zero_at cs) cs, fun r c => N.lor (pdq r c) (flag_if (zero_at cs r c) nlc)).

(** prepare_coefficients (322-363) *)
Definition prepare (nr nc : nat) (nlc : N) (cs : coeffs) (lin_dq pdq : img N) : option (coeffs * img N) :=
  let new_pdq : img N := fun r c => N.lor (pdq r c) (lin_dq r c) in
  do cs1 <- correct_for_flag nr nc nlc cs lin_dq;
  do (cs2, p2) <- correct_for_nan nr nc nlc cs1 new_pdq;
  correct_for_zero nlc cs2 p2.

(** apply_polynomial (366-408), at one sample; Horner in the code's order *)
Definition poly (cs : list fo) (x : fo) : fo :=
  let n := length cs in
  let c k := nth k cs (fzero fo) in
  fadd fo (fold_left (fun acc j => fmul fo (fadd fo acc (c j)) x) (rev (seq 1 (n - 2)))
                     (fmul fo (c (n - 1)) x)) (c 0).
Definition poly_dq (sat : N) (cs : list fo) (x : fo) (dq : N) : fo :=
  if has dq sat then x else poly cs x.

(** linearity_correction_int (497-583) without inverse coefficients: lines 564-567 *)
Definition simple_int (sat : N) (cs : coeffs) (data : cube fo) (gdq : cube N) : cube fo :=
  fun g r c => poly_dq sat (at_pix cs r c) (data g r c) (gdq g r c).

(** ** Read-level path *)
(** additional_correction: array (nreads, rows, ncols) -> array of the same shape *)
Variable ac : option (nat -> nat -> nat -> cube fo -> cube fo).
Variable satval : option (img fo).
Variable f12 : fo.   (* the literal 1.2 *)
Variable fmin : fo -> fo -> fo.    (* np.minimum *)
Variable read_pattern : list (list Z).

(** mean_read_resultant, line 429 *)
Definition mean_read (k : nat) : fo := fmean (map (fofZ fo) (nth k read_pattern [])).
(** n_unsaturated - 1 clipped from below, minus one: lines 431-446 *)
Definition n_unsat (sat : N) (ng : nat) (gdq : nat -> N) : nat :=
  length (filter (fun g => negb (has (gdq g) sat)) (seq 0 ng)).
Definition last_valid (sat : N) (ng : nat) (gdq : nat -> N) : nat :=
  let n := (Z.of_nat (n_unsat sat ng gdq) - 1)%Z in
  Z.to_nat ((if Z.ltb n 2 then 2%Z else n) - 1).
(** predicted reads of resultant i at one pixel, after matching the resultant's value:
    lines 443-472 *)
Definition first_lin (sat : N) (cs : list fo) (d : nat -> fo) (q : nat -> N) : fo :=
  poly_dq sat cs (d 0) (q 0).
Definition count_rate (sat : N) (ng : nat) (cs : list fo) (d : nat -> fo) (q : nat -> N) : fo :=
  let l := last_valid sat ng q in
  fdiv fo (fsub fo (poly_dq sat cs (d l) (q l)) (first_lin sat cs d q))
          (fsub fo (mean_read l) (mean_read 0)).
Definition reads_unlin (sat : N) (ng : nat) (cs ics : list fo) (d : nat -> fo) (q : nat -> N) (i : nat) : list fo :=
  let us := map (fun rd => poly ics (fadd fo (first_lin sat cs d q)
                       (fmul fo (count_rate sat ng cs d q) (fsub fo (fofZ fo rd) (mean_read 0)))))
                (nth i read_pattern []) in
  let off := fsub fo (d i) (fmean us) in
  map (fun u => fadd fo u off) us.
(** _linearity_correction_tile (411-494) on a tile of [nr] rows.  The loop writes data[i]
    in place, but everything it reads of other groups was computed before it.
    IndexError when there is one group only (line 448) or too short a read pattern. *)
Definition tile (sat : N) (ng nr nc : nat) (cs ics : coeffs) (sv : option (img fo))
           (data : cube fo) (gdq : cube N) : cube fo :=
  fun i r c =>
    if has (gdq i r c) sat then data i r c
    else
      let stack : cube fo := fun k r c =>
        nth k (reads_unlin sat ng (at_pix cs r c) (at_pix ics r c) (fun g => data g r c) (fun g => gdq g r c) i) (fzero fo) in
      let nreads := length (nth i read_pattern []) in
      let stack1 : cube fo := match ac with
        | None => stack
        | Some f => fun k r c => fadd fo (stack k r c) (f nreads nr nc stack k r c) end in
      let stack2 : cube fo := match sv with
        | None => stack1
        | Some v => fun k r c => fmin (stack1 k r c) (fmul fo f12 (v r c)) end in
      fmean (map (fun k => poly (at_pix cs r c) (stack2 k r c)) (seq 0 nreads)).
(** indexing that raises in the tile: lines 448-451 and 460 *)
Definition tile_ok (ng : nat) : bool := Nat.leb 2 ng && Nat.leb ng (length read_pattern).

(** row views [..., r0:r1, :] *)
Definition rows_from {A} (r0 : nat) (p : img A) : img A := fun r c => p (r0 + r) c.
(** the loop over tiles (570-581), writing each tile back in place *)
Fixpoint tiles (fuel : nat) (sat : N) (ng nr nc th r0 : nat) (cs ics : coeffs)
         (data : cube fo) (gdq : cube N) : cube fo :=
  match fuel with
  | 0 => data
  | S fuel =>
    if Nat.leb nr r0 then data
    else
      let r1 := Nat.min (r0 + th) nr in
      let out := tile sat ng (r1 - r0) nc (map (rows_from r0) cs) (map (rows_from r0) ics)
                      (match satval with None => None | Some v => Some (rows_from r0 v) end)
                      (fun g => rows_from r0 (data g)) (fun g => rows_from r0 (gdq g)) in
      let data' : cube fo := fun g r c =>
        if Nat.leb r0 r && Nat.ltb r r1 then out g (r - r0) c else data g r c in
      tiles fuel sat ng nr nc th (r0 + th) cs ics data' gdq
  end.
(** range(0, nrows, 0) raises; fuel nr suffices for a positive step *)
Definition readlevel_int (sat : N) (ng nr nc th : nat) (cs ics : coeffs) (data : cube fo) (gdq : cube N)
  : option (cube fo) :=
  if Nat.eqb th 0 then None
  else if Nat.ltb 0 nr && negb (tile_ok ng) then None
  else Some (tiles nr sat ng nr nc th 0 cs ics data gdq).
End Lin.

(** ** linearity_correction (4-152) *)
Record lin_out (fo : FOps) := {
  l_data : nat -> cube fo; l_pdq : img N; l_zframe : option (nat -> img fo);
  l_coeffs : list (img fo); l_icoeffs : option (list (img fo))  (* the caller's arrays afterwards *) }.
Arguments l_data {fo}. Arguments l_pdq {fo}. Arguments l_zframe {fo}.
Arguments l_coeffs {fo}. Arguments l_icoeffs {fo}.

Section Top.
Context (fo : FOps) (fmean : list fo -> fo) (ac : option (nat -> nat -> nat -> cube fo -> cube fo))
        (satval : option (img fo)) (f12 : fo) (fmin : fo -> fo -> fo).
(** ZEROFRAME part, lines 125-150: zeros are marked saturated, then reset to zero *)
Definition correct_zframe (sat : N) (cs : list (img fo)) (z : nat -> img fo) : nat -> img fo :=
  fun i r c =>
    if feq fo (z i r c) (fzero fo) then fzero fo
    else poly_dq fo sat (at_pix fo cs r c) (z i r c) 0.
(** the loop over integrations, lines 113-123; data[i] only depends on integration i *)
Fixpoint all_ints (f : nat -> option (cube fo)) (n : nat) (d : nat -> cube fo) : option (nat -> cube fo) :=
  match n with
  | 0 => Some d
  | S n => do d' <- all_ints f n d; do x <- f n; Some (upd n x d')
  end.
Definition linearity_correction (nints ng nr nc : nat) (sat nlc : N)
    (data : nat -> cube fo) (gdq : nat -> cube N) (pdq : img N)
    (cs : list (img fo)) (lin_dq : img N) (zframe : option (nat -> img fo))
    (ilin : option (list (img fo))) (read_pattern : option (list (list Z))) : option (lin_out fo) :=
  match ilin, read_pattern with
  | Some _, None => None                                   (* ValueError *)
  | _, _ =>
    do (cs', p1) <- prepare fo nr nc nlc cs lin_dq pdq;
    do (ilin', p2) <- (match ilin with
                       | None => Some (None, p1)
                       | Some ics => do (ics', q) <- prepare fo nr nc nlc ics lin_dq p1; Some (Some ics', q)
                       end);
    do data' <- all_ints (fun i => match ilin' with
                  | None => Some (simple_int fo sat cs' (data i) (gdq i))
                  | Some ics' =>
                      readlevel_int fo fmean ac satval f12 fmin (match read_pattern with Some p => p | None => [] end)
                          sat ng nr nc 64 cs' ics' (data i) (gdq i)
                  end) nints data;
    Some {| l_data := data'; l_pdq := p2;
            l_zframe := match zframe with None => None | Some z => Some (correct_zframe sat cs' z) end;
            l_coeffs := cs'; l_icoeffs := ilin' |}
  end.
End Top.
