(** Model of src/stcal/tweakreg: _s3_catalog.py (S3 below), astrometric_utils.py (AU), tweakreg.py (TW). *)
From Verif Require Import Base.
From Coq Require Import String Ascii.
Local Open Scope N_scope.

(** ** The HEALPix lookup (S3 lines 86-109).  A cell is (depth, nested index); int64 overflow of the shifts is not modelled *)
(** S3 lines 95-105: the (d, i) pairs of partition_info.csv *)
Definition cell := (nat * N)%type.
(** S3 line 104: membership test of such pairs *)
Definition cell_eqb (a b : cell) : bool := Nat.eqb (fst a) (fst b) && N.eqb (snd a) (snd b).
(** S3 lines 86-88: one row of _generate_depth_29_ranges; depths above 29 (negative shifts) are not modelled *)
Definition range29 (depth : nat) (i : N) : N * N :=
  (N.shiftl i (2 * N.of_nat (29 - depth)), N.shiftl (i + 1) (2 * N.of_nat (29 - depth))).
(** S3 lines 102-108: the while loop for one search cell; [fuel] = number of depths left, depth = min_depth + fuel - 1 *)
Fixpoint walk (cat : list cell) (mind : nat) (fuel : nat) (i : N) : option cell :=
  match fuel with
  | O => None
  | S f => let depth := (mind + f)%nat in
           if existsb (cell_eqb (depth, i)) cat then Some (depth, i) else walk cat mind f (N.shiftr i 2)
  end.
(** a Python set as a list without repetitions (insertion order; the real order is unspecified) *)
Definition set_add (l : list cell) (c : cell) : list cell := if existsb (cell_eqb c) l then l else l ++ [c].
(** S3 line 92; None: ValueError (min of an empty array) *)
Definition min_depth (cat : list cell) : option nat :=
  match cat with [] => None | c :: r => Some (fold_left Nat.min (map fst r) (fst c)) end.
(** S3 line 157 *)
Definition max_depth (cat : list cell) : option nat :=
  match cat with [] => None | c :: r => Some (fold_left Nat.max (map fst r) (fst c)) end.
(** S3 lines 91-109; None: ValueError *)
Definition find_cells (cat : list cell) (search : list N) (depth : nat) : option (list cell) :=
  do mind <- min_depth cat;
  if (depth <? mind)%nat then None
  else Some (fold_left (fun acc i => match walk cat mind (S depth - mind) i with Some c => set_add acc c | None => acc end) search []).

(** S3 lines 112-118: the directory of a cell, int(number / 10000) * 10000; [tr] is int() of a float *)
Definition directory (fo : FOps) (tr : fo -> Z) (number : Z) : Z :=
  (tr (fdiv fo (fofZ fo number) (fofZ fo 10000)) * 10000)%Z.

(** ** Reading and filtering (S3 lines 121-178).  [Row]: a catalogue row, [idx]: its _healpix_29 value, [file c]: the rows
    stored in the parquet file of cell c, [cone depth]: astropy-healpix's cone search, [near]: the cosine test of _filter_table.
    What pq.ParquetDataset does with an empty list of paths is not modelled: [None] covers that case *)
Section Read.
  Context {Row : Type} (idx : Row -> N) (file : cell -> list Row) (cone : nat -> list N) (near : Row -> bool).
  (** S3 lines 121-131: a row passes if some range holds its index (pyarrow's reading of a list of conjunctions) *)
  Definition pass (ranges : list (N * N)) (r : Row) : bool :=
    existsb (fun lh => (fst lh <=? idx r) && (idx r <? snd lh)) ranges.
  (** S3 lines 154-178 *)
  Definition hats_sources (cat : list cell) : option (list Row) :=
    do d <- max_depth cat;
    let ipix := cone d in
    do cells <- find_cells cat ipix d;
    match cells with
    | [] => None
    | _ => Some (filter near (filter (pass (map (range29 d) ipix)) (flat_map file cells)))
    end.
End Read.

(** S3 lines 139-151: the test of _filter_table; [cs sn]: cos and sin of an angle in degrees (np.radians included) *)
Definition near_test (fo : FOps) (cs sn : fo -> fo) (ra dec ra0 dec0 radius : fo) : bool :=
  let ca := fadd fo (fmul fo (sn dec) (sn dec0)) (fmul fo (fmul fo (cs dec) (cs dec0)) (cs (fsub fo ra ra0))) in
  let one := fone fo in let mone := fofZ fo (-1) in
  let clip := if flt fo ca mone then mone else if flt fo one ca then one else ca in
  fge fo clip (cs radius).

(** ** Trimming by brightness (AU lines 100-109).  Table.sort("mag", reverse=True): [sorted] is its result *)
Local Open Scope Z_scope.
(** a slice bound of Python (AU line 109) *)
Definition py_idx (n : nat) (k : Z) : nat := Z.to_nat (if k <? 0 then Z.max 0 (Z.of_nat n + k) else Z.min k (Z.of_nat n)).
(** AU line 109: l[:k] *)
Definition py_take {A} (k : Z) (l : list A) : list A := firstn (py_idx (List.length l) k) l.
(** AU line 109: l[k:] *)
Definition py_drop {A} (k : Z) (l : list A) : list A := skipn (py_idx (List.length l) k) l.
(** AU lines 107-109 *)
Definition trim {A} (num : option Z) (sorted : list A) : list A :=
  match num with
  | None => sorted
  | Some n => let indx := -1 * n in if n <? 0 then py_take indx sorted else py_drop indx sorted
  end.

(** ** Proper motion (S3 lines 40-68), the selection of rows: [None] is a masked value *)
Record pmrow (fo : FOps) := { p_ra : fo; p_dec : fo; p_plx : option fo; p_pmra : option fo; p_pmdec : option fo; p_epoch : fo }.
Section Pm.
  Variable fo : FOps.
  (** 3-vectors and numpy's arithmetic on them (S3 lines 48-58) *)
  Definition vec := (fo * fo * fo)%type.
  (** S3 lines 55-58 *)
  Definition vadd (a b : vec) : vec := let '(a1, a2, a3) := a in let '(b1, b2, b3) := b in (fadd fo a1 b1, fadd fo a2 b2, fadd fo a3 b3).
  (** S3 lines 55-58 *)
  Definition vsub (a b : vec) : vec := let '(a1, a2, a3) := a in let '(b1, b2, b3) := b in (fsub fo a1 b1, fsub fo a2 b2, fsub fo a3 b3).
  (** S3 lines 55-58 *)
  Definition vscale (k : fo) (a : vec) : vec := let '(a1, a2, a3) := a in (fmul fo a1 k, fmul fo a2 k, fmul fo a3 k).
  (** S3 lines 55-58 *)
  Definition vdot (a b : vec) : fo := let '(a1, a2, a3) := a in let '(b1, b2, b3) := b in
    fadd fo (fadd fo (fmul fo a1 b1) (fmul fo a2 b2)) (fmul fo a3 b3).
  (** [cs sn]: cos, sin of degrees; [lonlat]: astropy's cartesian to (lon, lat) in degrees; [earth epoch]: barycentric earth, AU;
      [rpm]: radians per milliarcsecond *)
  Variables (cs sn : fo -> fo) (lonlat : vec -> fo * fo) (earth : fo -> vec) (rpm : fo).
  (** UnitSphericalRepresentation.to_cartesian and unit_vectors (astropy) *)
  Definition xyz (ra dec : fo) : vec := (fmul fo (cs dec) (cs ra), fmul fo (cs dec) (sn ra), sn dec).
  (** S3 line 50 *)
  Definition rahat (ra dec : fo) : vec := (fsub fo (fzero fo) (sn ra), cs ra, fzero fo).
  (** S3 line 51 *)
  Definition dechat (ra dec : fo) : vec :=
    (fsub fo (fzero fo) (fmul fo (sn dec) (cs ra)), fsub fo (fzero fo) (fmul fo (sn dec) (sn ra)), cs dec).
  (** S3 lines 43-59 *)
  Definition moved (epoch ra dec plx pmra pmdec ref : fo) : vec :=
    let dt := fsub fo epoch ref in let e := rahat ra dec in let d := dechat ra dec in
    let v := vadd (vadd (xyz ra dec) (vscale pmra (vscale rpm (vscale dt e)))) (vscale pmdec (vscale rpm (vscale dt d))) in
    vsub v (vadd (vscale rpm (vscale plx (vscale (vdot (earth epoch) e) e))) (vscale rpm (vscale plx (vscale (vdot (earth epoch) d) d)))).
  (** S3 lines 40-68 *)
  Definition correct_pm (epoch : fo) (cat : list (pmrow fo)) : list (pmrow fo) :=
    flat_map (fun r => match p_plx fo r, p_pmra fo r, p_pmdec fo r with
      | Some x, Some a, Some d =>
          let '(lon, lat) := lonlat (moved epoch (p_ra fo r) (p_dec fo r) x a d (p_epoch fo r)) in
          [{| p_ra := lon; p_dec := lat; p_plx := Some x; p_pmra := Some a; p_pmdec := Some d; p_epoch := p_epoch fo r |}]
      | _, _, _ => [] end) cat.
  (** S3 lines 227-228: [if epoch:] — no epoch and epoch 0.0 both skip the correction *)
  Definition s3_epoch (epoch : option fo) (cat : list (pmrow fo)) : list (pmrow fo) :=
    match epoch with Some e => if feq fo e (fzero fo) then cat else correct_pm e cat | None => cat end.
End Pm.

(** ** tweakreg.py *)
Section Tw.
  Variable fo : FOps.
  (** filter_catalog_by_bounding_box (TW lines 370-380); a row is its (x, y) and anything else *)
  Definition in_bbox {A} (xy : A -> fo * fo) (bbox : option ((fo * fo) * (fo * fo))) (cat : list A) : list A :=
    match bbox with
    | None => cat
    | Some ((xmin, xmax), (ymin, ymax)) =>
        filter (fun r => let '(x, y) := xy r in fgt fo x xmin && flt fo x xmax && fgt fo y ymin && flt fo y ymax) cat
    end.
  (** _is_wcs_correction_small (TW lines 344-362): for every corrector the separations of the footprint vertices, arcsec *)
  Definition max_corr (use2dhist : bool) (searchrad tolerance xoffset yoffset : fo) : fo :=
    let two := fofZ fo 2 in
    if use2dhist then fmul fo two (fadd fo searchrad tolerance)
    else let a := fabs fo xoffset in let b := fabs fo yoffset in
         fmul fo two (fadd fo (if flt fo a b then b else a) tolerance).
  (** TW lines 352-362 *)
  Definition small (lim : fo) (seps : list (list fo)) : bool := forallb (forallb (fun s => flt fo s lim)) seps.

  (** What align_wcs does: its new state or the exception it raises (TW lines 70-100) *)
  Inductive exc := Tweakreg | Value (msg : string) | Runtime (msg : string) | Other.
  (** the outcome of a call (TW lines 70, 139, 186) *)
  Inductive res (A : Type) := Ok (a : A) | Err (e : exc).
  Arguments Ok {A}. Arguments Err {A}.
  (** TW lines 87, 201 *)
  Definition too_few : string := "Too few input images (or groups of images) with non-empty catalogs.".
  (** TW lines 94, 212 *)
  Definition overflow : string := "Number of output coordinates exceeded allocation".
  (** TW lines 85-100, 199-222: which exceptions of align_wcs become TweakregError *)
  Definition translate (e : exc) : exc :=
    match e with
    | Value m => if String.eqb m too_few then Tweakreg else e
    | Runtime m => if String.prefix overflow m then Tweakreg else e
    | _ => e
    end.
  Variable sqrt2 : fo.
  (** relative_align (TW lines 38-109).  [align]: align_wcs on the correctors' state, [seps]: what _is_wcs_correction_small
      measures on a state *)
  Context {St : Type}.
  Definition relative_align (align : St -> res St) (seps : St -> list (list fo)) (use2dhist : bool)
    (searchrad separation tolerance xoffset yoffset : fo) (s : St) : res St :=
    if fle fo separation (fmul fo sqrt2 tolerance) then Err Tweakreg else
    match align s with
    | Err e => Err (translate e)
    | Ok s' => if small (max_corr use2dhist searchrad tolerance xoffset yoffset) (seps s') then Ok s' else Err Tweakreg
    end.
  (** a corrector's meta: group_id and, if fit_info is there, its status (TW lines 180-183) *)
  Record meta := { group : Z; fit_status : option string }.
  (** Python's [pat in s] (TW line 182) *)
  Fixpoint contains (pat s : string) : bool :=
    String.prefix pat s || match s with EmptyString => false | String _ r => contains pat r end.
  (** TW lines 180-183 *)
  Definition regroup (m : meta) : meta :=
    {| group := 987654; fit_status := match fit_status m with Some st => if contains "REFERENCE" st then None else Some st | None => None end |}.
  (** absolute_align (TW lines 112-224).  [refcat]: _parse_refcat, [align]: align_wcs with that catalogue; a corrector is its
      meta and the rest of its state *)
  Definition absolute_align {Ref : Type} (refcat : res (list Ref)) (align : list Ref -> list (meta * St) -> res (list (meta * St)))
    (minobj : Z) (separation tolerance : fo) (cs : list (meta * St)) : res (list (meta * St)) :=
    if fle fo separation (fmul fo sqrt2 tolerance) then Err Tweakreg else
    match refcat with
    | Err e => Err e
    | Ok cat =>
        if Z.of_nat (List.length cat) <? minobj then Err Tweakreg else
        match align cat (map (fun c => (regroup (fst c), snd c)) cs) with
        | Err e => Err (translate e)
        | Ok cs' => Ok cs'
        end
    end.
End Tw.
Arguments Ok {A}. Arguments Err {A}.

(** ** _parse_refcat (TW lines 227-282): where the reference catalogue comes from.  [is_file]: Path.is_file *)
(** str.upper (TW lines 252, 294) *)
Definition up_char (c : ascii) : ascii :=
  let n := N_of_ascii c in if ((97 <=? n) && (n <=? 122))%N then ascii_of_N (n - 32) else c.
(** AU line 12, S3 lines 18-21 *)
Definition known_catalogs : list string := ["GAIAREFCAT"; "GAIADR3"; "GAIADR2"; "GAIADR1"; "GAIADR3_S3"]%string.
(** str.strip() on ASCII: drops leading and trailing whitespace (TW line 245) *)
Definition is_space (c : ascii) : bool := let n := N_of_ascii c in ((n =? 32) || ((9 <=? n) && (n <=? 13)) || ((28 <=? n) && (n <=? 31)))%N.
(** TW line 245 *)
Fixpoint lstrip (s : list ascii) : list ascii := match s with c :: r => if is_space c then lstrip r else s | [] => [] end.
(** TW line 245 *)
Definition strip (s : list ascii) : list ascii := rev (lstrip (rev (lstrip s))).
(** the outcomes of TW lines 245-282 *)
Inductive source := Web (name : list ascii) | Disk (name : list ascii) | Unknown.
(** TW lines 245-282; None of the inputs is touched; Unknown: ValueError *)
Definition parse_refcat (is_file : list ascii -> bool) (name : list ascii) : source :=
  let name := strip name in
  let up := map up_char name in
  if existsb (fun k => if list_eq_dec ascii_dec up (list_ascii_of_string k) then true else false) known_catalogs then Web up
  else if is_file name then Disk name else Unknown.

(** ** _parse_sky_centroid (TW lines 285-341).  A table is its columns in order, names distinct (astropy's tables).  [C]: the
    contents of a column; [ra_of], [dec_of]: the columns of sky_centroid.to_table() *)
(** str.lower (TW line 296) *)
Definition low_char (c : ascii) : ascii :=
  let n := N_of_ascii c in if ((65 <=? n) && (n <=? 90))%N then ascii_of_N (n + 32) else c.
(** character by character (TW lines 294-296) *)
Fixpoint smap (f : ascii -> ascii) (s : string) : string :=
  match s with EmptyString => EmptyString | String c r => String (f c) (smap f r) end.
(** str.upper(), str.lower() on ASCII names *)
Definition upper := smap up_char. Definition lower := smap low_char.
Section Centroid.
  Context {C : Type} (ra_of dec_of : C -> C).
  (** a table's columns (TW line 285) *)
  Definition table := list (string * C).
  (** catalog[n] (TW line 336) *)
  Definition lookup (n : string) (t : table) : option C := option_map snd (find (fun c => String.eqb (fst c) n) t).
  (** Table.rename_column: nothing for an unchanged name, KeyError if the new name exists (TW lines 295-297) *)
  Definition rename (t : table) (old new : string) : option table :=
    if String.eqb old new then Some t
    else if existsb (fun c => String.eqb (fst c) new) t then None
    else Some (map (fun c => if String.eqb (fst c) old then (new, snd c) else c) t).
  (** TW lines 293-297 *)
  Definition rename_step (t : table) (col : string) : option table :=
    if String.eqb (upper col) "RA" || String.eqb (upper col) "DEC" then rename t col (upper col)
    else if String.eqb (lower col) "sky_centroid" then rename t col "sky_centroid" else Some t.
  (** catalog[n] = v (TW lines 337-338) *)
  Definition set_col (t : table) (n : string) (v : C) : table :=
    if existsb (fun c => String.eqb (fst c) n) t then map (fun c => if String.eqb (fst c) n then (n, v) else c) t else t ++ [(n, v)].
  (** remove_column (TW lines 315, 339) *)
  Definition remove (t : table) (n : string) : table := filter (fun c => negb (String.eqb (fst c) n)) t.
  (** Counter(colnames)[n] (TW lines 299-301) *)
  Definition occurrences (t : table) (n : string) : nat := List.length (filter (fun c => String.eqb (fst c) n) t).
  (** TW lines 285-341; None: KeyError *)
  Definition parse_centroid (t : table) : option table :=
    do t <- foldM rename_step (map fst t) t;
    let nra := occurrences t "RA" in let ndec := occurrences t "DEC" in let nc := occurrences t "sky_centroid" in
    if ((1 <? nra) || (1 <? ndec))%nat then None
    else if Nat.eqb nra 1 && Nat.eqb ndec 1 then Some (if (0 <? nc)%nat then remove t "sky_centroid" else t)
    else if (1 <? nc)%nat then None
    else match lookup "sky_centroid" t with
         | None => None
         | Some sc => Some (remove (set_col (set_col t "RA" (ra_of sc)) "DEC" (dec_of sc)) "sky_centroid")
         end.
End Centroid.
