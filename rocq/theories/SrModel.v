(** Model of combine_sregions, combine_footprints, _intersect_with_bbox and _convert_to_array in
    src/stcal/alignment/resample_utils.py (R below) and compute_s_region_imaging in src/stcal/alignment/util.py (U below).
    Shapely and the WCS transforms are parameters; transforms act on each point. *)
From Verif Require Import Base AlModel.
From Coq Require Import Ascii.

(** what the calls raise: an S_REGION that cannot be parsed; footprints of different lengths (np.array, R line 42); a polygon shapely
    refuses (R lines 135, 162, 165); iterating something that is not a list of polygons (R line 142); [.exterior] of something
    that is not a polygon (R line 115); the documented ValueError (R line 63) *)
Inductive sr_err := EParse | ERagged | EPolygon | ENotPolygons | ENoExterior | ENoOverlap.
(** result of a call *)
Inductive sr_res (A : Type) := SOk (a : A) | SErr (e : sr_err).
Arguments SOk {A} a. Arguments SErr {A} e.
(** sequencing: the first exception leaves the function *)
Definition sbind {A B} (x : sr_res A) (f : A -> sr_res B) : sr_res B := match x with SOk a => f a | SErr e => SErr e end.
(** a list comprehension or loop with append (R lines 42-47, 135, 141-143, 164-168) *)
Fixpoint smapM {A B} (f : A -> sr_res B) (l : list A) : sr_res (list B) :=
  match l with [] => SOk [] | x :: r => sbind (f x) (fun y => sbind (smapM f r) (fun ys => SOk (y :: ys))) end.

Section Combine.
  Variable fo : FOps.
  Notation pt := (fo * fo)%type.
  (** a shapely Polygon *)
  Variable G : Type.
  (** the kinds of geometry shapely.unary_union and shapely.intersection return: nothing, a Polygon, a MultiPolygon, anything
      else that is not empty (point, line, collection) *)
  Inductive geom := GEmpty | GPoly (g : G) | GMulti (gs : list G) | GOther.
  (** shapely.geometry.Polygon(vertices), None: ValueError (R lines 135, 162, 165) *)
  Variable mkpoly : list pt -> option G.
  (** polygon.exterior.coords (R line 115): closed, the last point repeats the first *)
  Variable exterior : G -> list pt.
  (** shapely.unary_union (R line 136), shapely.intersection (R line 166) *)
  Variable union : list G -> geom.
  Variable inter : G -> G -> geom.
  (** _simplify_by_angle with the default thresholds (R lines 118, 173-224; AlModel.simplify) *)
  Variable simp : list pt -> list pt.

  (** _convert_to_array (R lines 115-118) *)
  Definition to_array (g : G) : list pt := simp (removelast (exterior g)).
  (** shapely.geometry.Polygon *)
  Definition polygon (v : list pt) : sr_res G := match mkpoly v with Some g => SOk g | None => SErr EPolygon end.
  (** combine_footprints (R lines 135-144).  An empty geometry is an empty collection, or POLYGON EMPTY, whose exterior has
      no coordinates: [GEmpty] stands for the former; the latter is a [GPoly] with empty exterior *)
  Definition combine_footprints (fps : list (list pt)) : sr_res (list (list pt)) :=
    sbind (smapM polygon fps) (fun ps =>
      match union ps with
      | GPoly g => SOk [to_array g]
      | GMulti gs => SOk (map to_array gs)
      | GEmpty | GOther => SErr ENotPolygons
      end).
  (** the body of the loop of _intersect_with_bbox (R lines 165-168) *)
  Definition clip_one (box : G) (v : list pt) : sr_res (list (list pt)) :=
    sbind (polygon v) (fun p =>
      match inter p box with
      | GEmpty => SOk []
      | GPoly g => SOk [to_array g]
      | GMulti _ | GOther => SErr ENoExterior
      end).
  (** _intersect_with_bbox (R lines 162-170) *)
  Definition intersect_with_bbox (polys : list (list pt)) (bbox : list pt) : sr_res (list (list pt)) :=
    sbind (polygon bbox) (fun box => sbind (smapM (clip_one box) polys) (fun l => SOk (concat l))).

  (** the WCS and its inverse, point by point (R lines 50-53, 59, 71) *)
  Variables (w2d d2w : pt -> pt).
  (** float(): the double nearest to a printed decimal (U line 337) *)
  Variable dec : bool * N * nat -> fo.
  (** what "{:.9f}" prints for a number (R line 96) *)
  Variable shown : fo -> num.
  (** one element of the list: a string or an array (R lines 44-45) *)
  Definition read_footprint (s : list ascii + list pt) : sr_res (list pt) :=
    match s with
    | inl str => match sregion_to_footprint str with Some fp => SOk (map (fun q => (dec (fst q), dec (snd q))) fp) | None => SErr EParse end
    | inr fp => SOk fp
    end.
  (** np.array of the footprints: they must have the same number of vertices (R line 42, numpy >= 1.24) *)
  Definition same_length {A} (l : list (list A)) : bool := match l with [] => true | x :: r => forallb (fun y => Nat.eqb (length y) (length x)) r end.
  (** reshape of the flat vertices to rows of n (R line 53) *)
  Fixpoint rows_of {A} (n k : nat) (l : list A) : list (list A) := match k with O => [] | S k => firstn n l :: rows_of n k (skipn n l) end.
  (** R lines 50-53: flatten, transform, give back the shape *)
  Definition to_pixels (fps : list (list pt)) : list (list pt) :=
    rows_of (match fps with [] => 0 | x :: _ => length x end) (length fps) (map w2d (concat fps)).
  (** R lines 66-75 *)
  Definition to_string (polys : list (list pt)) : list ascii :=
    polygons_to_sregion (map (fun p => map (fun q => (shown (fst q), shown (snd q))) (map d2w p)) polys).
  (** combine_sregions (R lines 42-76) *)
  Definition combine_sregions (l : list (list ascii + list pt)) (bbox : option (list pt)) : sr_res (list ascii) :=
    sbind (smapM read_footprint l) (fun fps =>
      if negb (same_length fps) then SErr ERagged
      else sbind (combine_footprints (to_pixels fps)) (fun polys =>
        sbind match bbox with
              | None => SOk polys
              | Some b => sbind (intersect_with_bbox polys (map w2d b)) (fun l => match l with [] => SErr ENoOverlap | _ => SOk l end)
              end (fun final => SOk (to_string final)))).
End Combine.
Arguments GEmpty {G}. Arguments GPoly {G} g. Arguments GMulti {G} gs. Arguments GOther {G}.

(** ** compute_s_region_imaging *)
Section Imaging.
  Variable fo : FOps.
  Notation box := ((fo * fo) * (fo * fo))%type.
  (** wcs.footprint(bbox, center, "spatial") (U line 582): the four corners on the sky *)
  Variable footprint : box -> bool -> list (fo * fo).
  (** np.mod(ra, 360) (U line 587) *)
  Variable mod360 : fo -> fo.
  (** what "{:.9f}" prints (U line 625) *)
  Variable shown : fo -> num.
  (** compute_s_region_imaging (U lines 569-591): None: ValueError, or too few corners (IndexError); the result is the bounding
      box the WCS ends up with and the keyword.  Only the last two axes of the shape, here (ny, nx), are read *)
  Definition s_region_imaging (wbox : option box) (shape : option (Z * Z)) (center : bool) : option (option box * option (list ascii)) :=
    do b <- match wbox, shape with Some b, _ => Some b | None, Some s => Some (bbox_of_shape fo (fst s) (snd s)) | None, None => None end;
    do k <- s_region_keyword (map (fun q => (shown (mod360 (fst q)), shown (snd q))) (footprint b center));
    Some (Some b, k).
End Imaging.
