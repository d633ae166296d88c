(** Model of jump/twopoint_difference.py and of the detection stage of jump/jump.py.
    Unless said otherwise line numbers refer to /repo/src/stcal/jump/twopoint_difference.py. *)
From Verif Require Import Base.

(** A 4-D array (integration, group, row, column). *)
Definition arr4 (A : Type) := nat -> nat -> img A.

(** TwoPointParams (jump/twopoint_difference_class.py lines 1-77), the fields that are read.
    [p_dt] and [p_nreads] are dt_group and n_reads_groupdiff after broadcasting over the
    differences; [p_uniform] is the test at line 482 (their standard deviations are 0). *)
Record params (fo : FOps) := {
  p_dnu : N; p_sat : N; p_jump : N;
  p_thresh : fo;      (* normal_rej_thresh *)
  p_thresh3 : fo;     (* three_diff_rej_thresh *)
  p_thresh2 : fo;     (* two_diff_rej_thresh *)
  p_neigh : bool; p_maxneigh : fo; p_minneigh : fo;
  p_n1 : Z; p_n2 : Z; p_e1 : fo; p_e2 : fo;
  p_mingroups : Z; p_minsigclip : Z; p_onlyints : bool; p_singlepass : Z;
  p_dt : nat -> fo; p_nreads : nat -> fo; p_uniform : bool
}.
Arguments p_dnu {fo}. Arguments p_sat {fo}. Arguments p_jump {fo}. Arguments p_thresh {fo}.
Arguments p_thresh3 {fo}. Arguments p_thresh2 {fo}. Arguments p_neigh {fo}. Arguments p_maxneigh {fo}.
Arguments p_minneigh {fo}. Arguments p_n1 {fo}. Arguments p_n2 {fo}. Arguments p_e1 {fo}. Arguments p_e2 {fo}.
Arguments p_mingroups {fo}. Arguments p_minsigclip {fo}. Arguments p_onlyints {fo}. Arguments p_singlepass {fo}.
Arguments p_dt {fo}. Arguments p_nreads {fo}. Arguments p_uniform {fo}.

(** np.all over the pixels of an nr x nc plane *)
Definition all_pix (nr nc : nat) (p : img bool) : bool :=
  forallb (fun r => forallb (fun c => p r c) (seq 0 nc)) (seq 0 nr).
Definition any_pix (nr nc : nat) (p : img bool) : bool :=
  existsb (fun r => existsb (fun c => p r c) (seq 0 nc)) (seq 0 nr).
Definition any2 (n m : nat) (p : nat -> nat -> bool) : bool :=
  existsb (fun i => existsb (fun j => p i j) (seq 0 m)) (seq 0 n).
Definition count_if {A} (p : A -> bool) (l : list A) : nat := length (filter p l).

Section TwoPoint.
  Variable fo : FOps.
  Variable med : list fo -> fo.  (* median of a non-empty list without NaN (numpy) *)
  (** astropy.stats.sigma_clip's mask for the differences of one pixel (integration x group);
      the flag is [only_use_ints].  External; clips each pixel independently. *)
  Variable sigclip : bool -> nat -> nat -> (nat -> nat -> fo) -> nat -> nat -> bool.
  (** the test np.mean(boolean_flag) > 1e-3 of line 707 *)
  Variable crowded : nat -> nat -> nat -> cube bool -> bool.
  Variable P : params fo.
  Notation "x - y" := (fsub fo x y). Notation "x * y" := (fmul fo x y).
  Notation "x + y" := (fadd fo x y). Notation "x / y" := (fdiv fo x y).

  Definition nonnan (l : list fo) : list fo := filter (fun x => negb (fisnan fo x)) l.
  (** np.nanmedian / np.nanmax / np.nanmin of a list, NaN when there is no number *)
  Definition nanmedian (l : list fo) : fo := match nonnan l with [] => fnan fo | l' => med l' end.
  Definition nanmax (l : list fo) : fo :=
    match nonnan l with [] => fnan fo | x :: l' => fold_left (fun m y => if flt fo m y then y else m) l' x end.
  Definition nanmin (l : list fo) : fo :=
    match nonnan l with [] => fnan fo | x :: l' => fold_left (fun m y => if flt fo y m then y else m) l' x end.
  (** the values of one pixel over the integrations and differences *)
  Definition flat2 (n m : nat) (d : nat -> nat -> fo) : list fo :=
    flat_map (fun i => map (d i) (seq 0 m)) (seq 0 n).

  (** groups_all_set_dnu (lines 629-683) *)
  Definition num_flagged (ngroups nr nc : nat) (g : nat -> img N) : nat :=       (* lines 656-659 *)
    count_if (fun k => all_pix nr nc (fun r c => has (g k r c) (p_dnu P))) (seq 0 ngroups).
  Definition max_flagged (nints ngroups nr nc : nat) (gdq : arr4 N) : nat :=     (* lines 660-661 *)
    fold_left (fun m i => if Nat.ltb m (num_flagged ngroups nr nc (gdq i)) then num_flagged ngroups nr nc (gdq i) else m) (seq 0 nints) 0%nat.
  Definition total_flagged (nints ngroups nr nc : nat) (gdq : arr4 N) : nat :=   (* line 662 *)
    fold_left (fun t i => (t + num_flagged ngroups nr nc (gdq i))%nat) (seq 0 nints) 0%nat.
  (** [num_flagged_grps] after the loop: the value of the last integration (lines 650, 656, 666) *)
  Definition last_flagged (nints ngroups nr nc : nat) (gdq : arr4 N) : nat :=
    fold_left (fun _ i => num_flagged ngroups nr nc (gdq i)) (seq 0 nints) 0%nat.
  Record counts := { c_min_usable : Z; c_total : Z; c_min_diffs : Z; c_total_sigclip : Z }.
  Definition groups_all_set_dnu (nints ngroups nr nc : nat) (gdq : arr4 N) : counts :=
    {| c_min_usable := Z.of_nat ngroups - Z.of_nat (max_flagged nints ngroups nr nc gdq);
       c_total := Z.of_nat (nints * ngroups) - Z.of_nat (total_flagged nints ngroups nr nc gdq);
       c_min_diffs := Z.of_nat ngroups - Z.of_nat (max_flagged nints ngroups nr nc gdq) - 1;
       c_total_sigclip := if p_onlyints P then Z.of_nat nints
                          else Z.of_nat (nints * ngroups) - Z.of_nat (last_flagged nints ngroups nr nc gdq) |}.

  (** check_group_counts (lines 604-626) *)
  Definition check_group_counts (nints : nat) (tot : Z) : bool :=
    (p_onlyints P && Z.ltb (Z.of_nat nints) (p_minsigclip P)) || (negb (p_onlyints P) && Z.ltb tot (p_minsigclip P)).
  (** check_sigma_clip_groups (lines 462-488) *)
  Definition check_sigma_clip_groups (nints : nat) (tot : Z) : bool :=
    p_uniform P && ((p_onlyints P && Z.leb (p_minsigclip P) (Z.of_nat nints))
                    || (negb (p_onlyints P) && Z.leb (p_minsigclip P) tot)).

  (** line 170 *)
  Definition mask_data (dat : arr4 fo) (gdq : arr4 N) : arr4 fo :=
    fun i g r c => if has (gdq i g r c) (N.lor (p_dnu P) (p_sat P)) then fnan fo else dat i g r c.
  (** line 179; index j is the difference between groups j+1 and j *)
  Definition first_diffs (dat : arr4 fo) : arr4 fo :=
    fun i j r c => (dat i (j + 1)%nat r c - dat i j r c) / p_dt P j.
  (** lines 186-188 *)
  Definition median_diffs (nints nd : nat) (fd : arr4 fo) : img fo :=
    fun r c => nanmedian (flat2 nints nd (fun i j => fd i j r c)).
  (** lines 195-202 and 315-322 for one pixel *)
  Definition sigma1 (m rn2 : fo) (j : nat) : fo :=
    let s := fsqrt fo (fabs fo m * p_dt P j + rn2 / (fdiv fo (fofZ fo 1) (fofZ fo 2) * p_nreads P j)) / p_dt P j in
    if feq fo s (fzero fo) then fnan fo else s.

  (** calc_med_first_diffs (lines 718-770) for one pixel, given its differences *)
  Definition calc_med_first_diffs (l : list fo) : fo :=
    let usable := length (nonnan l) in
    let maxval := nanmax l in
    let l' := map (fun x => if Nat.leb 4 usable && feq fo x maxval then fnan fo else x) l in
    if Nat.eqb usable 2 then nanmin l'
    else if Nat.ltb usable 2 then fnan fo
    else nanmedian l'.

  (** get_cr_locs (lines 277-350) for one pixel; [index] false means the pixel is not searched *)
  Definition cr_ratio (nints nd : nat) (d : nat -> nat -> fo) (rn2 : fo) (index : bool) : nat -> nat -> fo :=
    let m := if index then calc_med_first_diffs (flat2 nints nd d) else fzero fo in
    fun i j => fabs fo (if index then d i j - m else fzero fo) / sigma1 m rn2 j.
  Definition cr_pixel (nints nd : nat) (d : nat -> nat -> fo) (rn2 : fo) (index : bool) : nat -> bool :=
    let ratio := cr_ratio nints nd d rn2 index in
    let usable := length (nonnan (flat2 nints nd d)) in
    fun i => let mx := nanmax (map (ratio i) (seq 0 nd)) in
      (Nat.leb 4 usable && fgt fo mx (p_thresh P))
      || (Nat.eqb usable 3 && fgt fo mx (p_thresh3 P))
      || (Nat.eqb usable 2 && fgt fo mx (p_thresh2 P)).

  (** iterative_jump (lines 221-274): the whole image is searched round by round.  State:
      group DQ, |first differences|, pixels with a jump (per integration) and ratios. *)
  Record itstate := { it_gdq : arr4 N; it_d : arr4 fo; it_cr : cube bool; it_ratio : arr4 fo }.
  Definition it_locs (nints nd : nat) (gdq : arr4 N) (d : arr4 fo) (rn2 : img fo) (index : img bool) : itstate :=
    {| it_gdq := gdq; it_d := d;
       it_cr := fun i r c => cr_pixel nints nd (fun a b => d a b r c) (rn2 r c) (index r c) i;
       it_ratio := fun i j r c => cr_ratio nints nd (fun a b => d a b r c) (rn2 r c) (index r c) i j |}.
  (** line 258 *)
  Definition new_cr (nints nd : nat) (s : itstate) : arr4 bool :=
    fun i j r c => feq fo (it_ratio s i j r c) (nanmax (flat2 nints nd (fun a b => it_ratio s a b r c))) && it_cr s i r c.
  Definition it_round (nints nd nr nc : nat) (rn2 : img fo) (s : itstate) : option itstate :=
    let cr := new_cr nints nd s in
    if any_pix nr nc (fun r c => any2 nints nd (fun i j => cr i j r c))
    then Some (it_locs nints nd
           (fun i g r c => N.lor (it_gdq s i g r c)                               (* line 265 *)
                             (flag_if (Nat.ltb 0 g && Nat.leb g nd && cr i (g - 1)%nat r c) (p_jump P)))
           (fun i j r c => if cr i j r c then fnan fo else it_d s i j r c)        (* line 266 *)
           rn2 (fun r c => any2 nints nd (fun i j => cr i j r c)))                (* line 270-272 *)
    else None.                                                                    (* line 261-262 *)
  Fixpoint it_loop (fuel nints nd nr nc : nat) (rn2 : img fo) (s : itstate) : itstate :=
    match fuel with
    | 0%nat => s
    | S k => match it_round nints nd nr nc rn2 s with Some s' => it_loop k nints nd nr nc rn2 s' | None => s end
    end.
  Definition iterative_jump (nints nd nr nc : nat) (gdq : arr4 N) (fd : arr4 fo) (rn2 : img fo) : arr4 N :=
    it_gdq (it_loop (nd * nints)%nat nints nd nr nc rn2
      (it_locs nints nd gdq (fun i j r c => fabs fo (fd i j r c)) rn2 (fun _ _ => true))).

  (** look_for_more_than_one_jump (lines 353-399) *)
  Definition single_pass (nd : nat) (gdq : arr4 N) (fd : arr4 fo) (md : img fo) (sig : cube fo) : arr4 N :=
    fun i g r c => N.lor (gdq i g r c)
      (flag_if (Nat.ltb 0 g && Nat.leb g nd
                && fgt fo (fabs fo (fd i (g - 1)%nat r c - md r c) / sig (g - 1)%nat r c) (p_thresh P)
                && fisfinite fo (fd i (g - 1)%nat r c)) (p_jump P)).

  (** det_jump_sigma_clipping (lines 402-459) *)
  Definition sigclip_flags (nints nd : nat) (gdq : arr4 N) (fd : arr4 fo) : arr4 N :=      (* lines 438-448 *)
    fun i g r c => N.lor (gdq i g r c)
      (flag_if (Nat.ltb 0 g && Nat.leb g nd
                && sigclip (p_onlyints P) nints nd (fun a b => fd a b r c) i (g - 1)%nat
                && fisfinite fo (fd i (g - 1)%nat r c)
                && negb (has (gdq i g r c) (N.lor (p_sat P) (p_dnu P)))) (p_jump P)).
  Definition sigclip_clear (nr nc : nat) (gdq : arr4 N) : arr4 N :=                        (* lines 451-458 *)
    fun i g r c =>
      if all_pix nr nc (fun r c => has (gdq i g r c) (N.lor (p_jump P) (p_dnu P))) && N.eqb (gdq i g r c) (p_jump P)
      then 0%N else gdq i g r c.

  (** run_jump_detection (lines 131-218).  [nd] = ngroups - 1. *)
  Record detected := { dt_gdq : arr4 N; dt_fd : arr4 fo; dt_md : img fo; dt_sigma : cube fo }.
  Definition run_jump_detection (nints nd nr nc : nat) (dat : arr4 fo) (gdq : arr4 N) (rn2 : img fo) (k : counts) : detected :=
    let fd := first_diffs (mask_data dat gdq) in
    let md := median_diffs nints nd fd in
    let sig := fun j r c => sigma1 (md r c) (rn2 r c) j in
    {| dt_gdq := if check_sigma_clip_groups nints (c_total k)
                 then sigclip_clear nr nc (sigclip_flags nints nd gdq fd)
                 else if Z.leb (p_singlepass P) (c_min_diffs k) then single_pass nd gdq fd md sig
                 else iterative_jump nints nd nr nc gdq fd rn2;
       dt_fd := fd; dt_md := md; dt_sigma := sig |}.

  (** flag_four_neighbors (lines 491-555).  [neigh_flag] is lines 536-542 for group g = j + 1. *)
  Definition neigh_flag (gdq : arr4 N) (fd : arr4 fo) (md : img fo) (sig : cube fo) (i g : nat) : img bool :=
    fun r c => let ratio := fabs fo (fd i (g - 1)%nat r c - md r c) / sig (g - 1)%nat r c in
      flt fo ratio (p_maxneigh P) && fgt fo ratio (p_minneigh P) && has (gdq i g r c) (p_jump P).
  Definition dilate (nr nc : nat) (f : img bool) : img bool :=                             (* lines 545-549 *)
    fun r c => f r c || (Nat.ltb 0 r && f (r - 1)%nat c) || (Nat.ltb (r + 1)%nat nr && f (r + 1)%nat c)
               || (Nat.ltb 0 c && f r (c - 1)%nat) || (Nat.ltb (c + 1)%nat nc && f r (c + 1)%nat).
  Definition row3 := nat -> nat -> nat -> N.   (* (integration, group, column) *)
  Definition four_neighbors (nd nr nc : nat) (gdq : arr4 N) (fd : arr4 fo) (md : img fo) (sig : cube fo)
      : arr4 N * row3 * row3 :=
    let act := fun g => Nat.ltb 0 g && Nat.leb g nd in
    (fun i g r c => N.lor (gdq i g r c)
        (flag_if (act g && negb (has (gdq i g r c) (N.lor (p_sat P) (p_dnu P)))
                  && dilate nr nc (neigh_flag gdq fd md sig i g) r c) (p_jump P)),
     fun i g c => flag_if (act g && neigh_flag gdq fd md sig i g 0%nat c) (p_jump P),
     fun i g c => flag_if (act g && neigh_flag gdq fd md sig i g (nr - 1)%nat c) (p_jump P)).

  (** propagate_flags (lines 686-715) on a [ng] x nr x nc boolean cube *)
  Definition shift_from (j : nat) (f : cube bool) : cube bool :=                            (* line 709 *)
    fun k r c => f k r c || (Nat.leb (j + 1)%nat k && f (k - 1)%nat r c).
  Definition option_a (jmax : nat) (f : cube bool) : cube bool :=
    fold_left (fun f j => shift_from j f) (seq 0 jmax) f.
  Definition option_b (ng nr nc : nat) (n : Z) (f : cube bool) : cube bool :=               (* lines 712-714 *)
    fold_left (fun acc (p : nat * nat * nat) => let '(g, r, c) := p in
        fun k r' c' => acc k r' c' || (Nat.eqb r' r && Nat.eqb c' c && Nat.leb g k
                                        && Z.ltb (Z.of_nat k) (Z.of_nat g + n + 1) && Nat.ltb k ng))
      (flat_map (fun g => flat_map (fun r => flat_map (fun c => if f g r c then [(g, r, c)] else []) (seq 0 nc)) (seq 0 nr)) (seq 0 ng)) f.
  Definition propagate_flags (ng nr nc : nat) (f : cube bool) (n : Z) : cube bool :=
    let jmax := Z.min n (Z.of_nat ng - 2) in
    if (Z.leb jmax 50 && Z.ltb 0 jmax) || crowded ng nr nc f then option_a (Z.to_nat jmax) f
    else if Z.ltb 0 jmax then option_b ng nr nc n f else f.

  (** transient_jumps (lines 558-601) *)
  Definition big_jump (gdq : arr4 N) (fd : arr4 fo) (md : img fo) (e : fo) (i : nat) : cube bool :=
    fun g r c => Nat.ltb 0 g && fge fo ((fd i (g - 1)%nat r c - md r c) * p_dt P (g - 1)%nat) e && has (gdq i g r c) (p_jump P).
  Definition transient_jumps (ng nr nc : nat) (gdq : arr4 N) (fd : arr4 fo) (md : img fo) : arr4 N :=
    fun i g r c => N.lor (gdq i g r c)
      (flag_if ((propagate_flags ng nr nc (big_jump gdq fd md (p_e1 P) i) (p_n1 P) g r c
                 || propagate_flags ng nr nc (big_jump gdq fd md (p_e2 P) i) (p_n2 P) g r c)
                && negb (has (gdq i g r c) (N.lor (p_sat P) (p_dnu P)))) (p_jump P)).

  (** jump_detection_post_processing (lines 79-128) *)
  Definition post_processing (nd nr nc : nat) (D : detected) : arr4 N * row3 * row3 :=
    let '(g1, below, above) :=
      if p_neigh P then four_neighbors nd nr nc (dt_gdq D) (dt_fd D) (dt_md D) (dt_sigma D)
      else (dt_gdq D, fun _ _ _ => 0%N, fun _ _ _ => 0%N) in
    (if Z.ltb 0 (p_n1 P) || Z.ltb 0 (p_n2 P) then transient_jumps (nd + 1)%nat nr nc g1 (dt_fd D) (dt_md D) else g1,
     below, above).

  (** find_crs (lines 11-76).  The last component is num_primary_crs, -99 when skipped. *)
  Definition count_jumps (nints ng nr nc : nat) (gdq : arr4 N) : Z :=                       (* line 70 *)
    Z.of_nat (list_sum (map (fun i => list_sum (map (fun g => list_sum (map (fun r =>
      count_if (fun c => has (gdq i g r c) (p_jump P)) (seq 0 nc)) (seq 0 nr))) (seq 0 ng))) (seq 0 nints))).
  Definition skip (nints ng nr nc : nat) (gdq : arr4 N) : bool :=                           (* lines 46-61 *)
    let k := groups_all_set_dnu nints ng nr nc gdq in
    Z.ltb (c_min_usable k) (p_mingroups P) && check_group_counts nints (c_total_sigclip k).
  Definition find_crs (nints ng nr nc : nat) (dat : arr4 fo) (gdq : arr4 N) (rn : img fo) : arr4 N * row3 * row3 * Z :=
    if skip nints ng nr nc gdq then (gdq, fun _ _ _ => 0%N, fun _ _ _ => 0%N, (-99)%Z)
    else
      let D := run_jump_detection nints (ng - 1)%nat nr nc dat gdq (fun r c => rn r c * rn r c)
                 (groups_all_set_dnu nints ng nr nc gdq) in
      (post_processing (ng - 1)%nat nr nc D, count_jumps nints ng nr nc (dt_gdq D)).
End TwoPoint.

(** ** Detection stage of jump/jump.py *)
Section Stage.
  Variable fo : FOps.
  Variable med : list fo -> fo.
  Variable sigclip : bool -> nat -> nat -> (nat -> nat -> fo) -> nat -> nat -> bool.
  Variable crowded : nat -> nat -> nat -> cube bool -> bool.

  (** jump.py slice_data lines 255-283: (first row, number of rows) of each slice *)
  Definition slice_bounds (nrows n : nat) : list (nat * nat) :=
    let yinc := Nat.div nrows n in
    map (fun i => ((i * yinc)%nat, yinc)) (seq 0 (n - 1)) ++ [(((n - 1) * yinc)%nat, (nrows - (n - 1) * yinc)%nat)].
  Definition rows_from {A} (off : nat) (a : img A) : img A := fun r c => a (off + r)%nat c.
  Definition rows4 {A} (off : nat) (a : arr4 A) : arr4 A := fun i g => rows_from off (a i g).

  (** jump.py reassemble_sliced_data lines 193-222 *)
  Definition result := (arr4 N * row3 * row3 * Z)%type.
  Definition res_gdq (x : result) : arr4 N := fst (fst (fst x)).
  Definition res_below (x : result) : row3 := snd (fst (fst x)).
  Definition res_above (x : result) : row3 := snd (fst x).
  Definition put_rows (off h : nat) (a b : arr4 N) : arr4 N :=
    fun i g r c => if Nat.leb off r && Nat.ltb r (off + h)%nat then b i g (r - off)%nat c else a i g r c.
  Definition or_row (row : nat) (a : arr4 N) (v : row3) : arr4 N :=
    fun i g r c => if Nat.eqb r row then N.lor (a i g r c) (v i g c) else a i g r c.
  Definition reassemble (nrows yinc n : nat) (res : list result) (gdq : arr4 N) : arr4 N * Z :=
    let '(g, _, t) := fold_left (fun (st : arr4 N * row3 * Z) (kr : nat * result) =>
        let '(g, prev, t) := st in let '(k, x) := kr in
        let h := if Nat.eqb (k + 1)%nat n then (nrows - k * yinc)%nat else yinc in
        let g1 := put_rows (k * yinc)%nat h g (res_gdq x) in
        let g2 := if Nat.eqb k 0 then g1
                  else or_row (k * yinc)%nat (or_row (k * yinc - 1)%nat g1 (res_below x)) prev in
        (g2, res_above x, (t + snd x)%Z)) (combine (seq 0 (length res)) res) (gdq, fun _ _ _ => 0%N, 0%Z) in
    (g, t).

  (** jump.py twopoint_diff_multi lines 123-165; pool.starmap as an ordered map *)
  Definition twopoint_diff_multi (P : params fo) (nints ng nrows ncols : nat) (dat : arr4 fo) (gdq : arr4 N)
      (rn : img fo) (n : nat) : arr4 N * Z :=
    reassemble nrows (Nat.div nrows n) n
      (map (fun b => find_crs fo med sigclip crowded P nints ng (snd b) ncols (rows4 (fst b) dat) (rows4 (fst b) gdq) (rows_from (fst b) rn))
           (slice_bounds nrows n)) gdq.

  (** jump.py lines 102-103 *)
  Definition strip_flag (jump f w : N) : N :=
    if N.eqb (N.land w (N.lor jump f)) (N.lor jump f) then N.lxor w jump else w.
  Definition strip (P : params fo) (gdq : arr4 N) : arr4 N :=
    fun i g r c => strip_flag (p_jump P) (p_sat P) (strip_flag (p_jump P) (p_dnu P) (gdq i g r c)).

  (** jump.py line 93: minimum_groups is forced to 3 when there is one slice *)
  Definition with_mingroups (P : params fo) (z : Z) : params fo :=
    {| p_dnu := p_dnu P; p_sat := p_sat P; p_jump := p_jump P; p_thresh := p_thresh P; p_thresh3 := p_thresh3 P;
       p_thresh2 := p_thresh2 P; p_neigh := p_neigh P; p_maxneigh := p_maxneigh P; p_minneigh := p_minneigh P;
       p_n1 := p_n1 P; p_n2 := p_n2 P; p_e1 := p_e1 P; p_e2 := p_e2 P; p_mingroups := z;
       p_minsigclip := p_minsigclip P; p_onlyints := p_onlyints P; p_singlepass := p_singlepass P;
       p_dt := p_dt P; p_nreads := p_nreads P; p_uniform := p_uniform P |}.
  (** jump.py detect_jumps_data lines 86-103; [n] is n_slices, [dat] and [rn] already in electrons *)
  Definition detection_stage (P : params fo) (nints ng nrows ncols : nat) (dat : arr4 fo) (gdq : arr4 N)
      (rn : img fo) (n : nat) : arr4 N :=
    strip P (if Nat.eqb n 1
             then res_gdq (find_crs fo med sigclip crowded (with_mingroups P 3) nints ng nrows ncols dat gdq rn)
             else fst (twopoint_diff_multi P nints ng nrows ncols dat gdq rn n)).
End Stage.
