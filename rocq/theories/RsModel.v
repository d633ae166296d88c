(** Pixel scales, sky levels and shapes in src/stcal/resample/resample.py, and the weight threshold and blotting of
    src/stcal/outlier_detection/utils.py.  Line numbers refer to the file named in each heading. *)
From Verif Require Import Base ResModel.

Section Numbers.
  Variable fo : FOps.
  Declare Scope rs_scope.
  Notation "x + y" := (fadd fo x y) : rs_scope. Notation "x * y" := (fmul fo x y) : rs_scope.
  Notation "x - y" := (fsub fo x y) : rs_scope. Notation "x / y" := (fdiv fo x y) : rs_scope.
  Local Open Scope rs_scope.
  (** np.rad2deg: external *)
  Variable r2d : fo -> fo.

  (** ** resample.py: pixel areas and scales *)
  (** [area is None or area <= 0] *)
  Definition no_area (a : option fo) : bool := match a with None => true | Some a => fle fo a (fzero fo) end.
  (** get_input_model_pixel_area (lines 337-389); [mean]: compute_mean_pixel_area (ResUtilModel.pixel_area), [nominal]: the
      model's pixelarea_steradians.  With prefer_mean a failure only logs that the nominal area is used (lines 371-378) *)
  Definition input_area (prefer_mean : bool) (mean nominal : option fo) : option fo :=
    if prefer_mean then mean else if no_area nominal then mean else nominal.
  (** arcseconds from an area in steradians (lines 309-311, 619) *)
  Definition arcsec (a : fo) : fo := fofZ fo 3600 * r2d (fsqrt fo a).
  (** _output_pixel_scale (lines 302-314); [area]: get_output_model_pixel_area (lines 391-413); None: TypeError or math.sqrt's
      ValueError *)
  Definition output_scale (given area : option fo) : option fo :=
    match given with
    | Some p => Some p
    | None => match area with None => None | Some a => if flt fo a (fzero fo) then None else Some (arcsec a) end
    end.
  (** the areas in the output model (lines 477, 493-494): steradians, square arcseconds; None: the assertion of line 475 *)
  Definition output_areas (p : fo) : option (fo * fo) :=
    if feq fo p (fzero fo) then None else
    let q := p * p in let d := r2d (fofZ fo 3600) in Some (q / (d * d), q).
  (** _compute_pixel_scale_ratio (lines 608-626), what one model gives when no ratio is known; [imaging]: is_imaging_wcs
      (utils.py lines 362-365) *)
  Definition model_ratio (scale : fo) (imaging : bool) (mean nominal : option fo) : option fo :=
    if imaging then
      let a := input_area false mean nominal in
      if no_area a then None else match a with Some a => Some (scale / arcsec a) | None => None end
    else None.
  (** is_imaging_wcs: every axis is spatial; [true] is "SPATIAL" *)
  Definition is_imaging (axes : list bool) : bool := forallb (fun b => b) axes.

  (** _get_intensity_scale (lines 568-606); [spectral]: "SPECTRAL" among the axes, [flux]: is_flux_density(bunit); the ratio is
      the one known after this model.  None: the TypeError of 1.0 / None.  Division by a zero ratio is not distinguished *)
  Definition truthy (a : option fo) : bool := match a with None => false | Some a => negb (feq fo a (fzero fo)) end.
  Definition intensity_scale (nominal : option fo) (spectral flux : bool) (ratio : option fo) : option fo :=
    if truthy nominal && spectral && flux then match ratio with Some r => Some (fone fo / r) | None => None end else Some (fone fo).

  (** the image handed to drizzle (lines 816-818) *)
  Definition drizzled (subtracted : bool) (level : option fo) (data : img fo) : img fo :=
    match level with Some b => if subtracted then data else fun r c => data r c - b | None => data end.

  (** check_output_wcs, the estimated shape on one axis (lines 449-456): [tr] is int(), [eps] sys.float_info.epsilon, [x2] the upper
      limit of the bounding box *)
  Variable tr : fo -> Z.
  Variable eps : fo.
  Definition estimated (x2 : fo) : Z := tr (x2 + (fone fo / fofZ fo 2 + eps)).
  (** calc_pixmap's own estimate (resample/utils.py line 131); [ce] is math.ceil *)
  Variable ce : fo -> Z.
  Definition pixmap_shape (x2 : fo) : Z := ce (x2 + fone fo / fofZ fo 2).

  (** ** outlier_detection/utils.py: compute_weight_threshold (lines 54-86) *)
  (** numpy's sum of a list (pairwise in numpy), mean and standard deviation *)
  Definition lsum (l : list fo) : fo := fold_right (fadd fo) (fzero fo) l.
  Definition lmean (l : list fo) : fo := lsum l / fofZ fo (Z.of_nat (length l)).
  Definition lstd (l : list fo) : fo := let m := lmean l in fsqrt fo (lmean (map (fun x => (x - m) * (x - m)) l)).
  (** median: external *)
  Variable med : list fo -> fo.
  (** astropy.stats.sigma_clip(sigma=3, maxiters=5, masked=False): repeat until nothing is removed, at most five times *)
  Definition clip1 (l : list fo) : list fo :=
    let c := med l in let d := fofZ fo 3 * lstd l in
    filter (fun x => fge fo x (c - d) && fle fo x (c + d)) l.
  Fixpoint clip (n : nat) (l : list fo) : list fo :=
    match n with
    | O => l
    | S n => let l' := clip1 l in if Nat.eqb (length l') (length l) then l' else clip n l'
    end.
  (** line 77: the weights that count *)
  Definition covered (weight : list fo) : list fo := filter (fun w => fisfinite fo w && negb (feq fo w (fzero fo))) weight.
  Definition weight_threshold (weight : list fo) (maskpt : fo) : fo := lmean (clip 5 (covered weight)) * maskpt.

  (** ** outlier_detection/utils.py: gwcs_blot (lines 220-297) *)
  (** line 286: NaN coordinates become -1 *)
  Definition no_nan (v : fo) : fo := if fisnan fo v then fsub fo (fzero fo) (fone fo) else v.
  (** drizzle's blot_image at one position: external *)
  Variable blot : fo * fo -> fo.
  Definition blotted (pixmap : img (fo * fo)) : img fo := fun r c => blot (no_nan (fst (pixmap r c)), no_nan (snd (pixmap r c))).
End Numbers.
