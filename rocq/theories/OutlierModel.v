(** Model of outlier_detection/utils.py.
    All line numbers refer to /repo/src/stcal/outlier_detection/utils.py. *)
From Verif Require Import Base.

Section Outlier.
  Variable fo : FOps.
  Variable fmax : fo.          (* np.finfo(dtype).max *)
  Notation "x - y" := (fsub fo x y). Notation "x * y" := (fmul fo x y). Notation "x + y" := (fadd fo x y).

  (** np.nan_to_num with its default arguments (lines 148, 195) *)
  Definition nan_to_num (x : fo) : fo :=
    if fisnan fo x then fzero fo
    else if fisfinite fo x then x
    else if flt fo x (fzero fo) then fzero fo - fmax else fmax.

  (** flag_crs (lines 117-148) *)
  Definition flag_crs (sci err blot : img fo) (snr : fo) : img bool :=
    fun r c => fgt fo (fabs fo (sci r c - blot r c)) (snr * nan_to_num (err r c)).

  (** np.putmask (out[...], mask, values) on equal-shape views: value where mask, old otherwise *)
  Definition putmask (m : bool) (v old : fo) : fo := if m then v else old.

  (** _abs_deriv (lines 89-114) of an [nr] by [nc] image; the four in-place steps in order.
      [np.diff(array, axis=0)[r] = array[r+1] - array[r]]. *)
  Definition deriv0 (a : img fo) : img fo :=                                     (* lines 91-95 *)
    fun r c => if fisnan fo (a r c) then fnan fo else fzero fo.
  Definition row_diff (a : img fo) : img fo := fun r c => fabs fo (a (r + 1)%nat c - a r c).  (* line 98 *)
  Definition col_diff (a : img fo) : img fo := fun r c => fabs fo (a r (c + 1)%nat - a r c).  (* line 109 *)
  Definition deriv1 (a out : img fo) : img fo :=                                 (* line 99 *)
    fun r c => if Nat.ltb 0 r then putmask (fisfinite fo (row_diff a (r - 1)%nat c)) (row_diff a (r - 1)%nat c) (out r c)
               else out r c.
  Definition deriv2 (nr : nat) (a out : img fo) : img fo :=                      (* lines 103-105 *)
    fun r c => if Nat.ltb (r + 1)%nat nr then putmask (fgt fo (row_diff a r c) (out r c)) (row_diff a r c) (out r c)
               else out r c.
  Definition deriv3 (a out : img fo) : img fo :=                                 (* lines 110-111 *)
    fun r c => if Nat.ltb 0 c then putmask (fgt fo (col_diff a r (c - 1)%nat) (out r c)) (col_diff a r (c - 1)%nat) (out r c)
               else out r c.
  Definition deriv4 (nc : nat) (a out : img fo) : img fo :=                      (* lines 112-113 *)
    fun r c => if Nat.ltb (c + 1)%nat nc then putmask (fgt fo (col_diff a r c) (out r c)) (col_diff a r c) (out r c)
               else out r c.
  Definition abs_deriv (nr nc : nat) (a : img fo) : img fo :=
    deriv4 nc a (deriv3 a (deriv2 nr a (deriv1 a (deriv0 a)))).

  (** ndimage.convolve(mask, ones((3, 3)), mode="nearest") on a boolean image (lines 207-208):
      the number of set pixels in the 3x3 window, indices clamped to the image.  The boolean
      output is nonzero iff that count is. *)
  Definition clamp (n : nat) (i : Z) : nat := Z.to_nat (Z.max 0 (Z.min i (Z.of_nat n - 1))).
  Definition smooth3 (nr nc : nat) (m : img bool) : img bool :=
    fun r c => Nat.ltb 0 (fold_left (fun acc dr =>
        fold_left (fun acc dc =>
            if m (clamp nr (Z.of_nat r + dr)%Z) (clamp nc (Z.of_nat c + dc)%Z) then S acc else acc)
          [-1; 0; 1]%Z acc) [-1; 0; 1]%Z 0).

  (** flag_resampled_crs (lines 151-216) *)
  Definition threshold (scale snr : fo) (deriv err : img fo) : img fo :=         (* lines 203, 212 *)
    fun r c => scale * deriv r c + snr * nan_to_num (err r c).
  Definition flag_resampled_crs (nr nc : nat) (sci err blot : img fo)
      (snr1 snr2 scale1 scale2 backg : fo) : img bool :=
    let deriv := abs_deriv nr nc blot in
    let noise := fun r c => fabs fo (sci r c - blot r c - backg) in
    let mask1 := fun r c => fgt fo (noise r c) (threshold scale1 snr1 deriv err r c) in
    let mask2 := fun r c => fgt fo (noise r c) (threshold scale2 snr2 deriv err r c) in
    fun r c => smooth3 nr nc mask1 r c && mask2 r c.
End Outlier.

(** medfilt (lines 27-51) of a 2-D array with a [kr] by [kc] kernel: zero padding by k//2 on
    every side, all kr x kc windows in C order, nanmedian of each ([med], external). *)
Section Medfilt.
  Variable fo : FOps.
  Variable med : list fo -> fo.
  (** np.pad with its default mode "constant", value 0 (line 47) *)
  Definition padded (nr nc pr pc : nat) (a : img fo) : img fo :=
    fun r c => if Nat.leb pr r && Nat.ltb r (nr + pr) && Nat.leb pc c && Nat.ltb c (nc + pc)
               then a (r - pr) (c - pc) else fzero fo.
  (** shape of view_as_windows(padded, kernel, step 1) without the window axes (line 48);
      None (ValueError) when a kernel axis is larger than the padded array *)
  Definition window_shape (n k : nat) : option nat :=
    let p := n + 2 * (k / 2) in if Nat.ltb p k then None else Some (p - k + 1).
  Definition medfilt (nr nc kr kc : nat) (a : img fo) : option (nat * nat * img fo) :=
    do orows <- window_shape nr kr;
    do ocols <- window_shape nc kc;
    let p := padded nr nc (kr / 2) (kc / 2) a in
    Some (orows, ocols, fun r c =>
      med (flat_map (fun i => map (fun j => p (r + i) (c + j)) (seq 0 kc)) (seq 0 kr))).
End Medfilt.
