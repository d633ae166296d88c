(** Model of src/stcal/alignment/util.py (U below), src/stcal/alignment/resample_utils.py (R below) and
    src/stcal/velocity_aberration.py (V below).  cos, sin, arctan, arctan2, WCS transforms and shapely are parameters. *)
From Verif Require Import Base.
From Coq Require Import Ascii.

(** ** velocity aberration *)
Section Va.
  Variable fo : FOps.
  (** 3-vectors as numpy arrays of length 3 (V line 48) *)
  Definition v3 := (fo * fo * fo)%type.
  (** np.dot (V lines 49, 54) *)
  Definition vdot (a b : v3) : fo := let '(a1, a2, a3) := a in let '(b1, b2, b3) := b in fadd fo (fadd fo (fmul fo a1 b1) (fmul fo a2 b2)) (fmul fo a3 b3).
  (** elementwise operations (V lines 48, 60) *)
  Definition vmap (f : fo -> fo) (a : v3) : v3 := let '(a1, a2, a3) := a in (f a1, f a2, f a3).
  (** V line 60 *)
  Definition vplus (a b : v3) : v3 := let '(a1, a2, a3) := a in let '(b1, b2, b3) := b in (fadd fo a1 b1, fadd fo a2 b2, fadd fo a3 b3).
  (** compute_va_effects_vector (V lines 17-62); [c]: SPEED_OF_LIGHT in km/s *)
  Definition va_vector (c : fo) (v u : v3) : fo * v3 :=
    let one := fone fo in
    let beta := vmap (fun x => fdiv fo x c) v in
    let beta2 := vdot beta beta in
    if feq fo beta2 (fzero fo) then (one, u) else
    let u_beta := vdot u beta in
    let igamma := fsqrt fo (fsub fo one beta2) in
    let scale := fdiv fo (fadd fo one u_beta) igamma in
    let k := fadd fo one (fdiv fo (fmul fo (fsub fo one igamma) u_beta) beta2) in
    (scale, vmap (fun x => fdiv fo x (fadd fo one u_beta)) (vplus (vmap (fmul fo igamma) u) (vmap (fun b => fmul fo b k) beta))).
  (** compute_va_effects (V lines 65-102); [to_xyz], [of_xyz]: gwcs SphericalToCartesian, CartesianToSpherical *)
  Definition va_effects (to_xyz : fo * fo -> v3) (of_xyz : v3 -> fo * fo) (c : fo) (v : v3) (radec : fo * fo) : fo * (fo * fo) :=
    let '(s, w) := va_vector c v (to_xyz radec) in (s, of_xyz w).
End Va.

(** ** rotation matrices (U lines 278-319, 500-506) *)
Section Rot.
  Variable fo : FOps.
  Variables (cs sn : fo -> fo).
  (** calc_rotation_matrix; the result is [pc1_1; pc1_2; pc2_1; pc2_2]; None: ValueError *)
  Definition rotation_matrix (roll v3y : fo) (parity : Z) : option (fo * fo * fo * fo) :=
    if Z.eqb parity 1 || Z.eqb parity (-1) then
      let p := fofZ fo parity in
      let a := fsub fo roll (fmul fo p v3y) in
      Some (fmul fo p (cs a), sn a, fmul fo p (fsub fo (fzero fo) (sn a)), cs a)
    else None.
  (** wcs_from_sregions, the PC matrix (U lines 500-506); [rad]: np.deg2rad *)
  Definition wcs_pc (rad : fo -> fo) (roll_ref v3y : fo) (parity : Z) (rotation : option fo) : option (fo * fo * fo * fo) :=
    let y := rad v3y in
    let roll := match rotation with None => rad roll_ref | Some r => fadd fo (rad r) (fmul fo (fofZ fo parity) y) end in
    rotation_matrix roll y parity.
End Rot.

(** ** bounding boxes (U lines 340-408), one axis.  [ts]: the vertices after transform.inverse, [ncrp]: the fiducial after it *)
Section Box.
  Variable fo : FOps.
  Variable tr : fo -> Z.
  (** np.min, np.max of a non-empty list (U lines 380-381) *)
  Definition lmin (x : fo) (l : list fo) : fo := fold_left (fun a b => if flt fo b a then b else a) l x.
  (** U line 381 *)
  Definition lmax (x : fo) (l : list fo) : fo := fold_left (fun a b => if flt fo a b then b else a) l x.
  (** U lines 397-405: 0.5 *)
  Definition half : fo := fdiv fo (fone fo) (fofZ fo 2).
  (** the result of U lines 340-408 for one axis *)
  Record axis := { a_lo : fo; a_hi : fo; a_size : Z; a_offset : fo }.
  (** U lines 379-408; [None]: np.min of nothing raises *)
  Definition box_axis (ts : list fo) (ncrp : fo) (crpix : option fo) (size : option Z) : option axis :=
    match ts with
    | [] => None
    | t :: ts' =>
        let dmin := lmin t ts' in let dmax := lmax t ts' in
        let off := match crpix with None => fsub fo ncrp dmin | Some c => fsub fo c ncrp end in
        let dmin := fadd fo dmin off in let dmax := fadd fo dmax off in
        let up := tr (fadd fo dmax half) in
        Some (match size with
        | None => {| a_lo := fsub fo (fzero fo) half; a_hi := fsub fo (fofZ fo up) half; a_size := up; a_offset := off |}
        | Some sz => {| a_lo := fsub fo (fofZ fo (Z.max 0 (tr (fadd fo dmin half)))) half; a_hi := fsub fo (fofZ fo (Z.min up sz)) half;
                        a_size := sz; a_offset := off |}
        end)
    end.
  (** wcs_from_sregions refuses images below two pixels (U lines 525-531); shape, both axes; None: ValueError *)
  Definition boxes (tx ty : list fo) (nx ny : fo) (crpix : option (fo * fo)) (shape : option (Z * Z)) : option (axis * axis) :=
    do ax <- box_axis tx nx (option_map fst crpix) (option_map snd shape);
    do ay <- box_axis ty ny (option_map snd crpix) (option_map fst shape);
    if (a_size ay <? 2)%Z || (a_size ax <? 2)%Z then None else Some (ax, ay).
  (** wcs_bbox_from_shape (U lines 594-609), shape (ny, nx) *)
  Definition bbox_of_shape (ny nx : Z) : (fo * fo) * (fo * fo) :=
    let m := fsub fo (fzero fo) half in ((m, fsub fo (fofZ fo nx) half), (m, fsub fo (fofZ fo ny) half)).
End Box.

(** ** fiducials (U lines 35-63, 198-275) *)
Section Fid.
  Variable fo : FOps.
  Variables (cs sn : fo -> fo) (atan2 : fo -> fo -> fo) (rad deg : fo -> fo) (mod360 : fo -> fo).
  (** (max + min) / 2 of one coordinate (U lines 58-60) *)
  Definition mid (l : list fo) : option fo :=
    match l with [] => None | x :: r => Some (fdiv fo (fadd fo (lmax fo x r) (lmin fo x r)) (fofZ fo 2)) end.
  (** _calculate_fiducial_from_spatial_footprint (U lines 35-63) *)
  Definition fiducial (fp : list (fo * fo)) : option (fo * fo) :=
    let x := map (fun p => fmul fo (cs (rad (snd p))) (cs (rad (fst p)))) fp in
    let y := map (fun p => fmul fo (cs (rad (snd p))) (sn (rad (fst p)))) fp in
    let z := map (fun p => sn (rad (snd p))) fp in
    do xm <- mid x; do ym <- mid y; do zm <- mid z;
    Some (mod360 (deg (atan2 ym xm)), deg (atan2 zm (fsqrt fo (fadd fo (fmul fo xm xm) (fmul fo ym ym))))).
  (** _compute_fiducial_from_footprints (U lines 243-275): all vertices together; crval wins (U lines 89-91) *)
  Definition calculate_fiducial (fps : list (list (fo * fo))) (crval : option (fo * fo)) : option (fo * fo) :=
    match crval with Some c => Some c | None => fiducial (concat fps) end.
  (** compute_fiducial for an imaging WCS (U lines 198-240): [empty] is what np.empty holds; .any(): some coordinate is non-zero *)
  Definition compute_fiducial (empty : fo * fo) (fps : list (list (fo * fo))) : option (fo * fo) :=
    if existsb (fun p => negb (feq fo (fst p) (fzero fo)) || negb (feq fo (snd p) (fzero fo))) (concat fps) then fiducial (concat fps) else Some empty.
End Fid.

(** ** scale (U lines 131-195), after the WCS calls: [sx], [sy] are the separations *)
Section Scale.
  Variable fo : FOps.
  (** None: ValueError (spectral without disp_axis) *)
  Definition scale (spectral : bool) (disp_axis : option Z) (ratio : option fo) (sx sy : fo) : option fo :=
    let f x := match ratio with Some r => fmul fo (fabs fo x) r | None => fabs fo x end in
    if spectral then match disp_axis with None => None | Some d => Some (if Z.eqb d 1 then f sy else f sx) end
    else Some (fsqrt fo (fmul fo (f sx) (f sy))).
End Scale.

(** ** polygon simplification (R lines 173-224) *)
Section Simplify.
  Variable fo : FOps.
  Variables (atn : fo -> fo) (point_thresh angle_thresh eps : fo).
  (** R lines 204-221 for one vertex p1 with neighbours p0, p2 *)
  Definition drop (p0 p1 p2 : fo * fo) : bool :=
    let v1x := fsub fo (fst p1) (fst p0) in let v1y := fsub fo (snd p1) (snd p0) in
    let v2x := fsub fo (fst p2) (fst p1) in let v2y := fsub fo (snd p2) (snd p1) in
    let close := flt fo (fabs fo v1x) point_thresh && flt fo (fabs fo v1y) point_thresh in
    let m1 := fdiv fo v1y (fadd fo v1x eps) in let m2 := fdiv fo v2y (fadd fo v2x eps) in
    close || flt fo (fabs fo (atn (fdiv fo (fsub fo m2 m1) (fadd fo (fone fo) (fmul fo m1 m2))))) angle_thresh.
  (** R lines 199-224; [d]: never read default *)
  Definition simplify (d : fo * fo) (l : list (fo * fo)) : list (fo * fo) :=
    let n := length l in
    flat_map (fun i => let p0 := nth ((i + n - 1) mod n) l d in let p1 := nth i l d in let p2 := nth ((i + 1) mod n) l d in
                       if drop p0 p1 p2 then [] else [p1]) (seq 0 n).
End Simplify.

(** ** S_REGION strings.  A number is what "{:.9f}" prints: NaN, an infinity, or a sign and a count of 1e-9 units *)
Inductive num := NNan | NInf (neg : bool) | NFin (neg : bool) (k : N).
(** decimal digits (U line 625, R line 96) *)
Definition digit (k : N) : ascii := ascii_of_N (48 + k).
(** w digits with leading zeros (U line 625) *)
Fixpoint fixed (w : nat) (k : N) : list ascii := match w with O => [] | S w => fixed w (k / 10) ++ [digit (k mod 10)] end.
(** drops leading zeros but keeps one digit (U line 625) *)
Fixpoint unpad (l : list ascii) : list ascii :=
  match l with [] => l | c :: r => match r with [] => l | _ :: _ => if Ascii.eqb c "0" then unpad r else l end end.
(** the integer part (U line 625) *)
Definition integer (k : N) : list ascii := unpad (fixed (S (N.size_nat k)) k).
(** Python's "{:.9f}" (U line 625, R line 96) *)
Definition fmt (x : num) : list ascii :=
  match x with
  | NNan => ["n"; "a"; "n"]%char
  | NInf s => (if s then ["-"%char] else []) ++ ["i"; "n"; "f"]%char
  | NFin s k => (if s then ["-"%char] else []) ++ integer (k / 10 ^ 9) ++ "."%char :: fixed 9 (k mod 10 ^ 9)
  end.
(** " ".join (R line 96) and the blanks of the format string (U line 625) *)
Fixpoint joined (l : list (list ascii)) : list ascii :=
  match l with [] => [] | [t] => t | t :: r => t ++ " "%char :: joined r end.
(** "POLYGON ICRS  " (U line 625, R line 97) *)
Definition prefix : list ascii := ["P"; "O"; "L"; "Y"; "G"; "O"; "N"; " "; "I"; "C"; "R"; "S"; " "; " "]%char.
(** footprint.flatten() (U line 626) *)
Definition flatten (fp : list (num * num)) : list num := flat_map (fun p => [fst p; snd p]) fp.
(** "nan" in s (U line 628): only a NaN prints those letters (the prefix holds none) *)
Definition is_nan (x : num) : bool := match x with NNan => true | _ => false end.
(** compute_s_region_keyword (U lines 612-633): eight fields, further values are ignored; [Some None]: the value None; [None]: IndexError *)
Definition s_region_keyword (fp : list (num * num)) : option (option (list ascii)) :=
  let v := flatten fp in
  if (length v <? 8)%nat then None
  else let v := firstn 8 v in if existsb is_nan v then Some None else Some (Some (prefix ++ joined (map fmt v))).
(** whitespace of str.strip and str.split (R line 98, U line 337) *)
Definition blank (c : ascii) : bool := let n := N_of_ascii c in ((n =? 32) || ((9 <=? n) && (n <=? 13)) || ((28 <=? n) && (n <=? 31)))%N.
(** str.strip (R line 98) *)
Fixpoint lstrip (s : list ascii) : list ascii := match s with c :: r => if blank c then lstrip r else s | [] => [] end.
(** R line 98 *)
Definition strip (s : list ascii) : list ascii := rev (lstrip (rev (lstrip s))).
(** _polygons_to_sregion (R lines 79-98) *)
Definition polygons_to_sregion (polys : list (list (num * num))) : list ascii :=
  strip (flat_map (fun p => prefix ++ joined (map fmt (flatten p)) ++ [" "; " "]%char) polys).

(** re.sub("[a-zA-Z]", "", s) (U line 336) *)
Definition letter (c : ascii) : bool := let n := N_of_ascii c in (((65 <=? n) && (n <=? 90)) || ((97 <=? n) && (n <=? 122)))%N.
(** U line 336 *)
Definition no_letters (s : list ascii) : list ascii := filter (fun c => negb (letter c)) s.
(** str.split() (U line 337); [cur]: the token being read *)
Fixpoint split_from (cur : list ascii) (s : list ascii) : list (list ascii) :=
  match s with
  | [] => match cur with [] => [] | _ => [cur] end
  | c :: r => if blank c then match cur with [] => split_from [] r | _ => cur :: split_from [] r end else split_from (cur ++ [c]) r
  end.
(** U line 337 *)
Definition split (s : list ascii) : list (list ascii) := split_from [] s.
(** the value of a digit (U line 337) *)
Definition dval (c : ascii) : option N := let n := N_of_ascii c in if ((48 <=? n) && (n <=? 57))%N then Some (n - 48)%N else None.
(** a run of digits, most significant first (U line 337) *)
Definition digits (l : list ascii) : option N := foldM (fun a c => do d <- dval c; Some (10 * a + d)%N) l 0%N.
(** float() on [-]digits.digits (U line 337): sign, mantissa and number of decimals.  Exponents, underscores, a leading +,
    "inf", "nan" and missing digits are not modelled ([None]); rounding the decimal to a double is not modelled *)
Fixpoint upto (l : list ascii) : option (list ascii * list ascii) :=
  match l with [] => None | c :: r => if Ascii.eqb c "." then Some ([], r) else do (a, b) <- upto r; Some (c :: a, b) end.
(** U line 337 *)
Definition parse_num (l : list ascii) : option (bool * N * nat) :=
  let '(s, l) := match l with c :: r => if Ascii.eqb c "-" then (true, r) else (false, l) | [] => (false, []) end in
  do (a, b) <- upto l;
  match a, b with
  | _ :: _, _ :: _ => do i <- digits a; do f <- digits b; Some (s, (i * 10 ^ N.of_nat (length b) + f)%N, length b)
  | _, _ => None
  end.
(** reshape(-1, 2): an odd count raises (U line 337) *)
Fixpoint pairs {A} (l : list A) : option (list (A * A)) :=
  match l with [] => Some [] | a :: b :: r => do p <- pairs r; Some ((a, b) :: p) | _ => None end.
(** all or nothing: np.array raises if one conversion does (U line 337) *)
Fixpoint all_some {A} (l : list (option A)) : option (list A) :=
  match l with [] => Some [] | x :: r => do a <- x; do b <- all_some r; Some (a :: b) end.
(** sregion_to_footprint (U lines 322-337) *)
Definition sregion_to_footprint (s : list ascii) : option (list ((bool * N * nat) * (bool * N * nat))) :=
  do v <- all_some (map parse_num (split (no_letters s))); pairs v.
