(** The detection half of MIRI showers and the geometry of snowball ellipses: src/stcal/jump/jump.py.
    Line numbers refer to that file. *)
From Verif Require Import Base JumpModel SnowModel.

Section Numbers.
  Variable fo : FOps.
  Declare Scope sh_scope.
  Notation "x + y" := (fadd fo x y) : sh_scope. Notation "x * y" := (fmul fo x y) : sh_scope.
  Notation "x - y" := (fsub fo x y) : sh_scope. Notation "x / y" := (fdiv fo x y) : sh_scope.
  Local Open Scope sh_scope.

  (** ** point_inside_ellipse (lines 703-742) *)
  (** np.cos(np.radians(x)) and np.sin(np.radians(x)): external *)
  Variables cosd sind : fo -> fo.
  Definition inside_ellipse (pt : fo * fo) (e : ellipse fo) : bool :=
    let a := fofZ fo 180 - e_angle e in
    let xc := fst pt - e_col e in let yc := snd pt - e_row e in
    let xct := xc * cosd a - yc * sind a in
    let yct := xc * sind a + yc * cosd a in
    let half v := v * (fone fo / fofZ fo 2) in
    let '(smaj, smin) := if fle fo (e_h e) (e_w e) then (half (e_w e), half (e_h e)) else (half (e_h e), half (e_w e)) in
    fle fo (xct * xct / (smaj * smaj) + yct * yct / (smin * smin)) (fone fo).

  (** ** convolve_fast (lines 1069-1126) *)
  (** sum of a list; scipy's overlap-add convolution adds in another order and with other roundings *)
  Definition fsum (l : list fo) : fo := fold_right (fadd fo) (fzero fo) l.
  Definition sum2 (n m : nat) (f : nat -> nat -> fo) : fo := fsum (map (fun i => fsum (map (f i) (seq 0 m))) (seq 0 n)).
  (** an array read as zero outside its bounds *)
  Definition at0 (nr nc : nat) (a : img fo) (r c : Z) : fo :=
    if Z.leb 0 r && Z.ltb r (Z.of_nat nr) && Z.leb 0 c && Z.ltb c (Z.of_nat nc) then a (Z.to_nat r) (Z.to_nat c) else fzero fo.
  Definition zn (n : nat) : Z := Z.of_nat n.
  (** scipy.signal.oaconvolve(a, k, mode="same"): entry (r, c) of the full convolution shifted by (K - 1) / 2 *)
  Definition conv_same (nr nc kr kc : nat) (k : img fo) (a : img fo) : img fo := fun r c =>
    sum2 kr kc (fun i j => k i j * at0 nr nc a (zn r + zn ((kr - 1) / 2) - zn i) (zn c + zn ((kc - 1) / 2) - zn j)).
  (** oaconvolve(p, k, mode="valid"): the full convolution from index K - 1 on *)
  Definition conv_valid (kr kc : nat) (k : img fo) (p : img fo) : img fo := fun r c =>
    sum2 kr kc (fun i j => k i j * p (r + (kr - 1) - i)%nat (c + (kc - 1) - j)%nat).
  (** lines 1109-1111: ones with the good-pixel map in the middle; [n] is half the first dimension on both axes *)
  Definition padded (nr nc n : nat) (good : img bool) : img fo := fun p q =>
    if Nat.leb n p && Nat.ltb p (n + nr)%nat && Nat.leb n q && Nat.ltb q (n + nc)%nat
    then if good (p - n)%nat (q - n)%nat then fone fo else fzero fo else fone fo.
  (** the assignment padded[n:-n, n:-n] = good needs equal shapes and n > 0; numpy's broadcasting of one-row or
      one-column images is not modelled *)
  Definition kernel_fits (kr kc : nat) : bool := Nat.ltb 0 (kr / 2) && Nat.eqb (kr - 1) (2 * (kr / 2)) && Nat.eqb (kc - 1) (2 * (kr / 2)) && Nat.ltb 0 kc.
  Definition convolve_fast (nr nc kr kc : nat) (k : img fo) (a : img fo) : option (img fo) :=
    let good : img bool := fun r c => fisfinite fo (a r c) in
    let v := conv_same nr nc kr kc k (fun r c => if good r c then a r c else fzero fo) in
    if kernel_fits kr kc then
      let w := conv_valid kr kc k (padded nr nc (kr / 2) good) in
      let tiny := (fone fo / fofZ fo 1000) * (sum2 kr kc k / fofZ fo (zn (kr * kc))) in
      Some (fun r c => if good r c && flt fo tiny (w r c) then v r c / w r c else fnan fo)
    else None.

  (** ** The significance of a difference (find_faint_extended, lines 818-847) *)
  (** median of a non-empty list without NaN (numpy); astropy's sigma-clipped median and standard deviation over the
      integrations (line 829) *)
  Variable med : list fo -> fo.
  Variables clip_median clip_std : list fo -> fo.
  (** np.diff(data, axis=1) (line 818) *)
  Definition diffs (data : arr4 fo) : arr4 fo := fun i g r c => data i (g + 1)%nat r c - data i g r c.
  (** lines 831-832 *)
  Definition median_diffs (nints ng : nat) (fd : arr4 fo) : img fo := fun r c => nanmedian fo med (flat2 fo nints (ng - 1) (fun i g => fd i g r c)).
  Definition sigma (rn : img fo) (nframes : nat) (md : img fo) : img fo := fun r c => fsqrt fo (fabs fo (md r c) + rn r c * rn r c / fofZ fo (zn nframes)).
  (** diff_meddiff_int (lines 1129-1157) and diff_meddiff_grp (lines 1160-1195) *)
  Definition diff_meddiff (fd : nat -> img fo) (m s : img fo) : nat -> img fo := fun g r c => fabs fo (fd g r c - m r c) / s r c.
  Record search := { k_rows : nat; k_cols : nat; k_kernel : img fo; (* Ring2DKernel(inner, outer).array *)
                     k_threshold : fo (* extend_snr_threshold *); k_minints : nat (* minimum_sigclip_groups *); k_nframes : nat; k_rn : img fo (* readnoise_2d *) }.
  Variable K : search.
  Definition ratio (nints ng : nat) (data : arr4 fo) (i g : nat) : nat -> img fo :=
    let fd := diffs data in
    if Nat.leb (k_minints K) nints then
      diff_meddiff (fd i) (fun r c => clip_median (map (fun n => fd n (g - 1)%nat r c) (seq 0 nints)))
                          (fun r c => clip_std (map (fun n => fd n (g - 1)%nat r c) (seq 0 nints)))
    else let md := median_diffs nints ng fd in diff_meddiff (fd i) md (sigma (k_rn K) (k_nframes K) md).
  (** get_bigellipses (lines 1015-1066) up to the thresholding; the regions are found by skimage *)
  Variable P : snow fo.
  Definition masked_ratio (nints ng : nat) (data : arr4 fo) (gdq : arr4 N) (pdq : img N) (i g : nat) : img fo := fun r c =>
    if has (N.lor (gdq i g r c) (pdq r c)) (N.lor (N.lor (s_jump P) (s_sat P)) (s_dnu P)) then fnan fo else ratio nints ng data i g (g - 1)%nat r c.
  Definition emission (nints ng nr nc : nat) (data : arr4 fo) (gdq : arr4 N) (pdq : img N) (i g : nat) : option (img bool) :=
    do s <- convolve_fast nr nc (k_rows K) (k_cols K) (k_kernel K) (masked_ratio nints ng data gdq pdq i g);
    Some (fun r c => flt fo (k_threshold K) (s r c)).
  (** _sk_filter_areas with extend_min_area (lines 1294-1330) on the nr x nc image: external *)
  Variable regions : nat -> nat -> img bool -> list (ellipse fo).
  (** what SnowModel.find_faint_extended is given; a kernel that does not fit raises in the code (astropy's ring kernels fit) *)
  Definition search_regions (nints ng nr nc : nat) : arr4 fo -> arr4 N -> img N -> nat -> nat -> list (ellipse fo) :=
    fun data gdq pdq i g => match emission nints ng nr nc data gdq pdq i g with Some m => regions nr nc m | None => [] end.
End Numbers.
