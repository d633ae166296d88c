(** Model of sky matching: src/stcal/skymatch/skymatch.py (line numbers without a file name) and skyimage.py (cited as
    "skyimage").  Spherical geometry, the inverse WCS, polygon filling, the sky statistic and the pseudo-inverse are
    parameters.  The images of the input list (and of its groups) are taken to be distinct objects. *)
From Verif Require Import Base.

(** a SkyImage (skyimage lines 167-190): pixels and mask flattened, sky and is_sky_valid; [g_id] identifies the object *)
Record simg {fo : FOps} := { g_id : nat; g_px : list fo; g_mask : list bool; g_sky : fo; g_valid : bool }.
Arguments simg : clear implicits.
(** an element of [images]: a SkyImage or a SkyGroup with its own _sky (skyimage lines 325-355) *)
Inductive item {fo : FOps} := Single (im : simg fo) | Group (ims : list (simg fo)) (gsky : fo).
Arguments item : clear implicits.
Definition members {fo} (t : item fo) : list (simg fo) := match t with Single im => [im] | Group ims _ => ims end.

Section Sky.
  Variable fo : FOps.
  (** area of the intersection of the footprints of two images, the pixels of the first inside it, footprint area *)
  Variable area : nat -> nat -> fo.
  Variable fill : nat -> nat -> list bool.
  Variable own_area : nat -> fo.
  (** the image's skystat; None: it raised ValueError *)
  Variable stat : nat -> list fo -> option (fo * nat).

  (** image[mask] *)
  Definition select (m : list bool) (l : list fo) : list fo := map snd (filter fst (combine m l)).
  Definition ored (a b : list bool) : list bool := map (fun xy => fst xy || snd xy) (combine a b).
  Definition anded (a b : list bool) : list bool := map (fun xy => fst xy && snd xy) (combine a b).
  Definition isz (x : fo) : bool := feq fo x (fzero fo).
  (** SkyImage.calc_sky (skyimage lines 268-322); [ov]: the overlapping image, or the members of the overlapping group *)
  Definition overlap_pixels (im : simg fo) (ov : option (list nat)) : option (list fo * fo) :=
    match ov with
    | None => Some (select (g_mask im) (g_px im), own_area (g_id im))
    | Some ids =>
        let used := filter (fun o => negb (isz (area (g_id im) o))) ids in
        let polyarea := fold_left (fun s o => fadd fo s (area (g_id im) o)) used (fzero fo) in
        if isz polyarea then None
        else
          let mask := fold_left (fun m o => ored m (fill (g_id im) o)) used (map (fun _ => false) (g_px im)) in
          let data := select (anded mask (g_mask im)) (g_px im) in
          match data with [] => None | _ => Some (data, polyarea) end
    end.
  Definition no_sky : option fo * nat * fo := (None, 0, fzero fo).
  Definition calc_image (im : simg fo) (ov : option (list nat)) (delta : bool) : option fo * nat * fo :=
    match overlap_pixels im ov with
    | None => no_sky
    | Some (data, a) =>
        match stat (g_id im) data with
        | None => no_sky
        | Some (v, npix) => if fisfinite fo v then (Some (if delta then fsub fo v (g_sky im) else v), npix, a) else no_sky
        end
    end.
  (** SkyGroup.calc_sky (skyimage lines 393-441) *)
  Definition group_min (l : list (simg fo)) (delta : bool) : option fo * nat * fo :=
    fold_left (fun acc im => let '(w, _, _) := acc in
      match calc_image im None delta with
      | (None, _, _) => acc
      | (Some s, n, a) => match w with None => (Some s, n, a) | Some w => if fgt fo w s then (Some s, n, a) else acc end
      end) l (None, 0, fzero fo).
  Definition group_mean (l : list (simg fo)) (ov : list nat) (delta : bool) : option fo * nat * fo :=
    let '(wsky, wght, a) := fold_left (fun acc im => let '(wsky, wght, a) := acc in
      match calc_image im (Some ov) delta with
      | (Some s, n, a1) => if Nat.ltb 0 n then (fadd fo wsky (fmul fo s (fofZ fo (Z.of_nat n))), wght + n, fadd fo a a1) else (wsky, wght, fadd fo a a1)
      | (None, _, a1) => (wsky, wght, fadd fo a a1)
      end) l (fzero fo, 0, fzero fo) in
    if Nat.eqb wght 0 || isz a then (None, wght, a) else (Some (fdiv fo wsky (fofZ fo (Z.of_nat wght))), wght, a).
  Definition calc_sky (t : item fo) (ov : option (item fo)) (delta : bool) : option fo * nat * fo :=
    let ids := option_map (fun o => map g_id (members o)) ov in
    match t with
    | Single im => calc_image im ids delta
    | Group l _ => match ids with None => group_min l delta | Some i => group_mean l i delta end
    end.

  (** _overlap_matrix (lines 396-415): sky and weight of i in j and of j in i, for i < j *)
  Definition pair_sky (items : list (item fo)) (apply_sky : bool) (i j : nat) : option (fo * fo * fo * fo) :=
    match nth_error items i, nth_error items j with
    | Some a, Some b =>
        match calc_sky a (Some b) apply_sky, calc_sky b (Some a) apply_sky with
        | (Some s1, w1, a1), (Some s2, w2, a2) => if isz a1 || isz a2 then None else Some (s1, fofZ fo (Z.of_nat w1), s2, fofZ fo (Z.of_nat w2))
        | _, _ => None
        end
    | _, _ => None
    end.
  (** _find_optimum_sky_deltas (lines 418-473).  An equation (i, j, w, f) is the row w x_i - w x_j = f *)
  Definition equation := (nat * nat * fo * fo)%type.
  Definition pairs (ns : nat) : list (nat * nat) := flat_map (fun i => map (fun j => (i, j)) (seq (S i) (ns - S i))) (seq 0 ns).
  Definition equations (items : list (item fo)) (apply_sky : bool) : list equation :=
    flat_map (fun ij => let '(i, j) := ij in
      match pair_sky items apply_sky i j with
      | Some (s1, w1, s2, w2) =>
          if fgt fo w2 (fzero fo) && fgt fo w1 (fzero fo) then
            let wm := fmul fo (fdiv fo (fone fo) (fofZ fo 2)) (fadd fo w2 w1) in [(i, j, wm, fmul fo wm (fsub fo s1 s2))]
          else []
      | None => []
      end) (pairs (length items)).
  Definition mentioned (eqs : list equation) (k : nat) : bool := existsb (fun e => let '(i, j, _, _) := e in Nat.eqb i k || Nat.eqb j k) eqs.
  (** [solve ns rows]: the pseudo-inverse applied to the right-hand side; None: matrix_rank raised LinAlgError *)
  Variable solve : nat -> list equation -> option (list fo).
  (** one entry per input; None stands for a value that is not finite *)
  Definition deltas (items : list (item fo)) (apply_sky : bool) : list (option fo) :=
    let eqs := equations items apply_sky in
    match solve (length items) eqs with
    | None => map (fun _ => None) items
    | Some xs => map (fun k => let x := nth k xs (fzero fo) in if mentioned eqs k && fisfinite fo x then Some x else None) (seq 0 (length items))
    end.
  (** lines 270-281 *)
  Definition finite_ones (l : list (option fo)) : list fo := flat_map (fun o => match o with Some x => [x] | None => [] end) l.
  Definition refsky (down : bool) (l : list fo) : option fo :=
    match l with [] => None | x :: l => Some (fold_left (fun m y => if (if down then flt fo y m else flt fo m y) then y else m) l x) end.
  Definition anchored (down : bool) (l : list (option fo)) : list (option fo) :=
    match refsky down (finite_ones l) with
    | None => l
    | Some r => map (fun o => match o with Some x => let y := fsub fo x r in if fisfinite fo y then Some y else None | None => None end) l
    end.

  (** _apply_sky (lines 332-393) *)
  Definition shift_px (sub : bool) (s : fo) (l : list fo) : list fo := if sub then map (fun p => fsub fo p s) l else l.
  Definition apply_one (do_global sub : bool) (t : item fo) (sky : option fo) : item fo :=
    let s := match sky with Some s => s | None => fzero fo end in
    let was := match members t with im :: _ => g_valid im | [] => false end in
    let valid := match sky with Some _ => true | None => if do_global then was else false end in
    match t with
    | Single im => Single {| g_id := g_id im; g_px := shift_px sub s (g_px im); g_mask := g_mask im; g_sky := fadd fo (g_sky im) s; g_valid := valid |}
    | Group l gs =>
        let new := fadd fo gs s in let d := fsub fo new gs in
        Group (map (fun im => {| g_id := g_id im; g_px := shift_px sub s (g_px im); g_mask := g_mask im; g_sky := fadd fo (g_sky im) d; g_valid := valid |}) l) new
    end.
  Definition apply_sky (do_global sub : bool) (items : list (item fo)) (skies : list (option fo)) : list (item fo) :=
    map (fun ts => apply_one do_global sub (fst ts) (snd ts)) (combine items skies).
  (** lines 304-316; None: comparing None with a number raised TypeError *)
  Definition measured (sub : bool) (items : list (item fo)) : list (option fo) := map (fun t => fst (fst (calc_sky t None (negb sub)))) items.
  Definition global_min (skies : list (option fo)) : option (option fo) :=
    foldM (fun m s => match m with
      | None => Some s
      | Some a => match s with None => None | Some b => Some (if flt fo b a then Some b else m) end
      end) skies None.
  (** skymatch (lines 222-329); the method is given by its two flags: local (false, false), global (false, true),
      match (true, false), global+match (true, true) *)
  Definition skymatch (do_match do_global down sub : bool) (items : list (item fo)) : option (list (item fo)) :=
    if Nat.eqb (length (flat_map members items)) 0 then None else
    let items := if do_match then apply_sky false sub items (anchored down (deltas items (negb sub))) else items in
    if do_global || negb do_match then
      let skies := measured sub items in
      do skies <- (if do_global then do m <- global_min skies; Some (map (fun _ => m) skies) else Some skies);
      Some (apply_sky do_global sub items skies)
    else Some items.
End Sky.

(** ** _calc_bounding_polygon (skyimage lines 48-95): the border in pixel coordinates, exact arithmetic in units of 1/1;
    [ceil_div] is int(ceil((n + 1.0) / stepsize)) *)
Section Border.
  Variable fo : FOps.
  Variable ceil_div : nat -> fo -> nat.
  Definition half : fo := fdiv fo (fone fo) (fofZ fo 2).
  Definition linspace (a b : fo) (n : nat) : list fo :=
    map (fun i => if Nat.eqb (S i) n then b else fadd fo a (fmul fo (fofZ fo (Z.of_nat i)) (fdiv fo (fsub fo b a) (fofZ fo (Z.of_nat (n - 1)))))) (seq 0 n).
  Definition nints (n : nat) (step : option fo) : nat := match step with None => 2 | Some s => Nat.max 2 (ceil_div n s) end.
  Definition border (nx ny : nat) (step : option fo) : list (fo * fo) :=
    let lo := fsub fo (fzero fo) half in
    let hx := fsub fo (fofZ fo (Z.of_nat nx)) half in let hy := fsub fo (fofZ fo (Z.of_nat ny)) half in
    let xs := linspace lo hx (nints nx step) in let ys := removelast (tl (linspace lo hy (nints ny step))) in
    let pts := map (fun x => (x, lo)) xs ++ map (fun y => (hx, y)) ys ++ map (fun x => (x, hy)) (rev xs) ++ map (fun y => (lo, y)) (rev ys) in
    pts ++ match pts with p :: _ => [p] | [] => [] end.
End Border.
