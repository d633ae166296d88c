(** Model of src/stcal/resample/utils.py (line numbers).  WCS evaluation, spline interpolation and astropy's reading of
    good_bits strings are parameters. *)
From Verif Require Import Base.
From Coq Require Import String.
Local Open Scope Z_scope.

Section Util.
  Variable fo : FOps.
  (** ** drizzle weights (lines 242-340, 615-643), one pixel.  The final conversion to float32 is not modelled: one number type *)
  (** bitfield_to_boolean_mask with good_mask_value=1 as called in lines 305-311: [None] ignores every flag *)
  Definition dq_mask (dq : N) (good_bits : option N) : fo :=
    match good_bits with None => fone fo | Some g => if N.eqb (N.ldiff dq g) 0 then fone fo else fzero fo end.
  (** _get_inverse_variance (lines 632-643): None when the array is missing or misshaped *)
  Definition inverse_variance (v : option fo) : fo :=
    match v with Some v => let inv := fdiv fo (fone fo) v in if fisfinite fo inv then inv else fzero fo | None => fone fo end.
  (** build_driz_weight (lines 313-340); [rn], [sky]: the pixel of var_rnoise, var_sky; [t]: get_tmeasure, np.float32(None) is NaN; None: ValueError *)
  Definition driz_weight (wt : option string) (dq : N) (good_bits : option N) (rn sky t : option fo) : option fo :=
    let m := dq_mask dq good_bits in
    match wt with
    | None => Some m
    | Some w =>
        if String.eqb w "ivm" then Some (fmul fo (inverse_variance rn) m)
        else if String.eqb w "ivm-sky" then Some (fmul fo (inverse_variance sky) m)
        else if String.eqb w "exptime" then Some (fmul fo (match t with Some t => t | None => fnan fo end) m)
        else None
    end.
  (** the weight types Resample accepts (resample.py lines 287-290) *)
  Definition type_accepted (w : string) : bool := prefix "ivm" w || String.eqb w "exptime".

  (** ** resample_range (lines 220-239), one axis of length n; [tr] is int() *)
  Variable tr : fo -> Z.
  Definition half : fo := fdiv fo (fone fo) (fofZ fo 2).
  Definition range1 (n : Z) (bbox : option (fo * fo)) : Z * Z :=
    match bbox with
    | None => (0, Z.max (n - 1) 0)
    | Some (x1, x2) => let lo := Z.max 0 (tr (fadd fo x1 half)) in (lo, Z.max lo (Z.min (n - 1) (tr (fadd fo x2 half))))
    end.

  (** ** _get_boundary_points (lines 480-591) with shrink = 0.  int(np.ceil(n / d)) is computed exactly *)
  Definition cdiv (a b : Z) : Z := - ((- a) / b).
  Definition segments (n d : Z) : nat := let d := if d <=? 0 then n else d in Z.to_nat (Z.max 1 (cdiv n d)).
  (** np.linspace(a, b, k, False) *)
  Definition linspace (a b : Z) (k : nat) : list fo :=
    map (fun i => fadd fo (fmul fo (fofZ fo (Z.of_nat i)) (fdiv fo (fofZ fo (b - a)) (fofZ fo (Z.of_nat k)))) (fofZ fo a)) (seq 0 k).
  Record rect := { xmin : Z; xmax : Z; ymin : Z; ymax : Z }.
  (** the four slices bottom, right, top, left; None: ValueError *)
  Definition boundary (r : rect) (dx dy : Z) : option (list (list (fo * fo))) :=
    let nx := xmax r - xmin r + 1 in let ny := ymax r - ymin r + 1 in
    if (nx <? 1) || (ny <? 1) then None else
    let sx := segments nx dx in let sy := segments ny dy in
    Some [map (fun x => (x, fofZ fo (ymin r))) (linspace (xmin r) (xmax r) sx);
          map (fun y => (fofZ fo (xmax r), y)) (linspace (ymin r) (ymax r) sy);
          map (fun x => (x, fofZ fo (ymax r))) (linspace (xmax r) (xmin r) sx);
          map (fun y => (fofZ fo (xmin r), y)) (linspace (ymax r) (ymin r) sy)].
  Definition area (r : rect) : Z := (xmax r - xmin r) * (ymax r - ymin r).

  (** ** compute_mean_pixel_area, the search (lines 420-459); [ok]: both world coordinates of a point are finite *)
  Variable ok : fo * fo -> bool.
  (** the starting rectangle (lines 407-418): shape, bounding box; int(xmax - 0.5) *)
  Definition start1 (n : Z) (bbox : option (fo * fo)) : Z * Z :=
    let '(a, b) := match bbox with Some ab => ab | None => (fsub fo (fzero fo) half, fsub fo (fofZ fo n) half) end in
    let '(a, b) := if fgt fo a b then (b, a) else (a, b) in
    (Z.max 0 (tr (fadd fo a half)), Z.min (n - 1) (tr (fsub fo b half))).
  (** move edge k inwards (lines 424, 446) *)
  Definition shrink (r : rect) (k : nat) : rect :=
    match k with
    | 0%nat => {| xmin := xmin r; xmax := xmax r; ymin := ymin r + 1; ymax := ymax r |}
    | 1%nat => {| xmin := xmin r; xmax := xmax r - 1; ymin := ymin r; ymax := ymax r |}
    | 2%nat => {| xmin := xmin r; xmax := xmax r; ymin := ymin r; ymax := ymax r - 1 |}
    | _ => {| xmin := xmin r + 1; xmax := xmax r; ymin := ymin r; ymax := ymax r |}
    end.
  Definition next (k : nat) : nat := Nat.modulo (k + 1) 4.
  (** the for loop (lines 443-453): the first edge, from k on, with a bad point *)
  Fixpoint bad_edge (edges : list (list (fo * fo))) (k fuel : nat) : option nat :=
    match fuel with
    | 0%nat => None
    | S fuel => if negb (forallb ok (nth k edges [])) then Some k else bad_edge edges (next k) fuel
    end.
  Inductive outcome := Found (r : rect) (edges : list (list (fo * fo))) | NotFound | NoFuel.
  Fixpoint search (fuel : nat) (r : rect) (k : nat) : outcome :=
    match fuel with
    | 0%nat => NoFuel
    | S fuel =>
        if (xmin r <? xmax r) && (ymin r <? ymax r) then
          match boundary r (Z.min ((xmax r - xmin r) / 4) 15) (Z.min ((ymax r - ymin r) / 4) 15) with
          | None => NotFound
          | Some edges => match bad_edge edges k 4 with None => Found r edges | Some j => search fuel (shrink r j) (next j) end
          end
        else NotFound
    end.
  (** the while loop with enough fuel (C48_terminates) *)
  Definition rounds (r : rect) : nat := S (Z.to_nat (xmax r - xmin r) + Z.to_nat (ymax r - ymin r)).
  Definition find_rect (r : rect) : outcome := search (rounds r) r 0.
  (** lines 463-477: sky area over image area; [sky] is the area SphericalPolygon reports, [two_pi] the float 2*pi *)
  Definition pixel_area (two_pi : fo) (sky : list (fo * fo) -> fo) (r : rect) : option fo :=
    match find_rect r with
    | Found r edges =>
        let s := sky (List.concat edges) in
        let s := if fgt fo s two_pi then fsub fo (fmul fo (fofZ fo 2) two_pi) s else s in
        if area r =? 0 then None else Some (fdiv fo s (fofZ fo (area r)))
    | _ => None
    end.
End Util.

(** ** calc_pixmap (lines 27-217).  [pm bf bt x y]: wcs_to.world_to_pixel(wcs_from.pixel_to_world(x, y)) with the bounding
    boxes of wcs_from, wcs_to enabled or not; [spline order ys xs values]: RectBivariateSpline.  Bounding boxes are given
    by their integer pixel range (lines 148-151).  shape has been determined *)
Section Pixmap.
  Variable fo : FOps.
  Variable pm : bool -> bool -> fo -> fo -> fo * fo.
  Variable spline : Z -> list fo -> list fo -> list (list fo) -> fo -> fo -> fo.
  Inductive disable := DTo | DFrom | DBoth | DNone.
  Definition dfrom (d : disable) : bool := match d with DFrom | DBoth => true | _ => false end.
  Definition dto (d : disable) : bool := match d with DTo | DBoth => true | _ => false end.
  (** the pixel range of one axis (lines 143-151); [bb]: ceil and floor of the limits of the bounding box *)
  Definition grid_range (n : Z) (bb : option (Z * Z)) : Z * Z := match bb with None => (0, n - 1) | Some (a, b) => (Z.max 0 a, Z.min (n - 1) b) end.
  (** number of coarse points (lines 175-176) *)
  Definition npts (w step : Z) : Z := Z.max (cdiv w step) (Z.min 10 w).
  (** np.linspace(a, b, n) (lines 178-179) *)
  Definition coarse (a b n : Z) : list fo :=
    map (fun i => if Z.of_nat i =? n - 1 then fofZ fo b else fadd fo (fmul fo (fofZ fo (Z.of_nat i)) (fdiv fo (fofZ fo (b - a)) (fofZ fo (n - 1)))) (fofZ fo a)) (seq 0 (Z.to_nat n)).
  Inductive pixout := PixMap (f : Z -> Z -> fo * fo) | BadOrder.
  (** the map at column x, row y; the second component: the bounding boxes after the call, true: as before *)
  Definition pixmap (nx ny : Z) (bbx bby : option (Z * Z)) (hasto : bool) (d : disable) (step order : Z) : pixout * (bool * bool) :=
    let hasfrom := match bbx with Some _ => true | None => false end in
    (* lines 137-140: what is left enabled *)
    let bf := hasfrom && negb (dfrom d) in let bt := hasto && negb (dto d) in
    let '(x0, x1) := grid_range nx bbx in let '(y0, y1) := grid_range ny bby in
    let w := x1 - x0 + 1 in let h := y1 - y0 + 1 in
    let full := fun x y => pm bf bt (fofZ fo x) (fofZ fo y) in
    let out :=
      if (step =? 1) || (Z.max w h <=? 10) then PixMap full
      else if negb ((order =? 1) || (order =? 3)) then BadOrder
      else
        let xs := coarse x0 x1 (npts w step) in let ys := coarse y0 y1 (npts h step) in
        let g := map (fun y => map (fun x => pm bf bt x y) xs) ys in
        if forallb (forallb (fun q => fisfinite fo (fst q) && fisfinite fo (snd q))) g then
          let fx := spline order ys xs (map (map fst) g) in let fy := spline order ys xs (map (map snd) g) in
          PixMap (fun x y => if (x0 <=? x) && (x <=? x1) && (y0 <=? y) && (y <=? y1) then (fx (fofZ fo y) (fofZ fo x), fy (fofZ fo y) (fofZ fo x)) else (fnan fo, fnan fo))
        else PixMap full in
    (* finally (lines 210-214) *)
    (out, (bf || hasfrom, bt || hasto)).
End Pixmap.
