(** Examples for C99.  C100: pixel areas and scales of resampled products.  C101: the estimated output shape.
    C102: recorded sky levels.  C103: blotting.  Exact arithmetic unless a theorem says otherwise. *)
From Verif Require Import Base RBase RNBase ResModel ResSpec ResUtilModel ResVar RsModel Cas22Fit ResUtilProps RsProps.
From Coq Require Import Reals Lra List Permutation Sorted SpecFloat.
Local Open Scope R_scope.

(** ** a median for the examples: the middle of the sorted list *)
Fixpoint ins (x : R) (l : list R) : list R := match l with [] => [x] | y :: l' => if Rle_dec x y then x :: l else y :: ins x l' end.
Definition isort (l : list R) : list R := fold_right ins [] l.
Definition mid (l : list R) : R := nth (length l / 2) (isort l) 0.
Lemma ins_perm x l : Permutation (x :: l) (ins x l).
Proof. induction l as [|y l IH]; [reflexivity|]. cbn [ins]. destruct (Rle_dec x y); [reflexivity|]. rewrite perm_swap, IH. reflexivity. Qed.
Lemma isort_perm l : Permutation l (isort l).
Proof. induction l as [|x l IH]; [reflexivity|]. cbn [isort fold_right]. rewrite <- ins_perm, <- IH. reflexivity. Qed.
Lemma ins_sorted x l : StronglySorted Rle l -> StronglySorted Rle (ins x l).
Proof.
  intro H. induction H as [|y l S IH F]; [repeat constructor|]. cbn [ins]. destruct (Rle_dec x y) as [L|L].
  - constructor; [constructor; assumption|]. constructor; [exact L|]. eapply Forall_impl; [|exact F]. cbn. intros; lra.
  - constructor; [exact IH|]. apply Forall_forall. intros z Z. apply (Permutation_in z (Permutation_sym (ins_perm x l))) in Z. destruct Z as [<-|Z]; [lra|]. rewrite Forall_forall in F. apply F, Z.
Qed.
Lemma isort_sorted l : StronglySorted Rle (isort l). Proof. induction l; [constructor|]. apply ins_sorted. assumption. Qed.
Lemma sorted_counts l k : StronglySorted Rle l -> (k < length l)%nat ->
  (count_if (fun x => Rltb x (nth k l 0%R)) l <= k /\ count_if (fun x => Rltb (nth k l 0%R) x) l <= length l - 1 - k)%nat.
Proof.
  intro S. revert k. induction S as [|a l S IH F]; intros k K; [cbn in K; lia|]. rewrite Forall_forall in F. destruct k as [|k]; unfold count_if; cbn [nth filter length] in *.
  - replace (Rltb a a) with false by (symmetry; apply Rltb_f; lra). split.
    + replace (filter (fun x => Rltb x a) l) with (@nil R); [cbn; lia|]. symmetry. clear - F. induction l as [|y l IH]; [reflexivity|]. cbn [filter]. rewrite (proj2 (Rltb_f y a)); [apply IH; intros z Z; apply F; right; exact Z|]. apply F. left. reflexivity.
    + assert (length (filter (fun x => Rltb a x) l) <= length l)%nat by (clear; induction l as [|y l IH]; [cbn; lia|]; cbn [filter]; destruct (Rltb a y); cbn [length]; lia). lia.
  - destruct (IH k) as [A B]; [lia|]. unfold count_if in A, B. assert (L : a <= nth k l 0) by (apply F, nth_In; lia). rewrite (proj2 (Rltb_f (nth k l 0) a)) by exact L. split; [destruct (Rltb a (nth k l 0)); cbn [length]; lia|lia].
Qed.
Lemma count_perm p l l' : Permutation l l' -> count_if p l = count_if p l'.
Proof. intro P. unfold count_if. induction P; cbn [filter]; try reflexivity; try (destruct (p x); cbn [length]; congruence). - destruct (p x), (p y); reflexivity. - congruence. Qed.
Lemma mid_median l : l <> [] -> is_median (mid l) l.
Proof.
  intro N. pose proof (isort_perm l) as P. pose proof (Permutation_length P) as E. unfold is_median, mid. rewrite !(count_perm _ _ _ P).
  destruct (sorted_counts (isort l) (length l / 2) (isort_sorted l)) as [A B].
  { rewrite <- E. apply Nat.div_lt; [destruct l; [congruence|cbn; lia]|lia]. }
  pose proof (Nat.div_mod (length l) 2 ltac:(lia)). pose proof (Nat.mod_upper_bound (length l) 2 ltac:(lia)). split; lia.
Qed.
(** 20 pixels of weight 5, one of weight 500, a corner without coverage: at 70 percent the threshold is 3.5 *)
Example C99_outlier_example : weight_threshold RF mid (repeat 5 12 ++ 500 :: repeat 5 8) (7 / 10) = 5 * (7 / 10).
Proof. apply C99_outlier; [exact mid_median|lra|lia]. Qed.
Example C99_between_example : 2 * (7 / 10) <= weight_threshold RF mid [0; 2; 3; 0; 9] (7 / 10) <= 9 * (7 / 10).
Proof. apply C99_between; [exact mid_median|lra|exists 2; split; [right; left; reflexivity|lra]|]. intros x [<-|[<-|[<-|[<-|[<-|[]]]]]] H; lra. Qed.
Example C99_even_coverage_example : weight_threshold RF mid [0; 4; 4; 0; 4] (1 / 2) = 4 * (1 / 2).
Proof. apply (C99_even_coverage mid); [exact mid_median|lra|lra|right; left; reflexivity|]. intros x [<-|[<-|[<-|[<-|[<-|[]]]]]]; lra. Qed.
Lemma ins_scal k x l : 0 < k -> ins (k * x) (map (Rmult k) l) = map (Rmult k) (ins x l).
Proof. intro K. induction l as [|y l IH]; [reflexivity|]. cbn [map ins]. destruct (Rle_dec x y) as [L|L], (Rle_dec (k * x) (k * y)) as [L'|L']; cbn [map]; try reflexivity; try (rewrite IH; reflexivity); exfalso; nra. Qed.
Example C99_scaling_example : forall w, weight_threshold RF mid (map (Rmult 3) w) (7 / 10) = 3 * weight_threshold RF mid w (7 / 10).
Proof.
  intro w. apply C99_scaling; [lra|]. intro l. unfold mid. rewrite map_length.
  assert (E : isort (map (Rmult 3) l) = map (Rmult 3) (isort l)) by (induction l as [|x l IH]; [reflexivity|]; cbn [map isort fold_right]; unfold isort in IH; rewrite IH; apply ins_scal; lra).
  rewrite E. transitivity (nth (length l / 2) (map (Rmult 3) (isort l)) (3 * 0)); [f_equal; ring|]. apply (map_nth (Rmult 3)).
Qed.

(** ** C100 *)
Definition deg (x : R) : R := x * 180 / PI.
(** arcseconds in a radian *)
Definition arcsec_per_rad : R := 3600 * 180 / PI.
Lemma apr_pos : 0 < arcsec_per_rad. Proof. unfold arcsec_per_rad. apply Rmult_lt_0_compat; [lra|]. apply Rinv_0_lt_compat, PI_RGT_0. Qed.
Lemma arcsec_R (a : R) : (arcsec RF deg a : R) = arcsec_per_rad * sqrt a.
Proof. unfold arcsec, deg, arcsec_per_rad. cbn [fmul fofZ fsqrt RF F]. toR. field. apply PI_neq0. Qed.
(** without a given scale the stored areas are the WCS's mean pixel area *)
Theorem C100_output_area : forall a, 0 < a -> exists p, output_scale RF deg None (Some a) = Some p /\ output_areas RF deg p = Some (a, (arcsec_per_rad * arcsec_per_rad) * a).
Proof.
  intros a A. exists (arcsec RF deg a). assert (Ar : (arcsec RF deg a : R) = arcsec_per_rad * sqrt a) by apply arcsec_R. pose proof apr_pos as P. pose proof (sqrt_lt_R0 a A) as Q. split.
  - cbn [output_scale flt RF fzero F]. rewrite (proj2 (Rltb_f a 0)) by lra. reflexivity.
  - unfold output_areas. cbn [feq fmul fdiv fofZ fzero RF F]. rewrite Ar. destruct (Reqb (arcsec_per_rad * sqrt a) 0) eqn:E; [apply Reqb_spec in E; nra|].
    assert (D : deg 3600 = arcsec_per_rad) by (unfold deg, arcsec_per_rad; reflexivity). rewrite D.
    assert (S : arcsec_per_rad * sqrt a * (arcsec_per_rad * sqrt a) = arcsec_per_rad * arcsec_per_rad * a) by (rewrite <- (sqrt_sqrt a) at 3 by lra; ring).
    rewrite S. f_equal. f_equal. field. lra.
Qed.
(** a given scale is used as it is *)
Theorem C100_given_scale : forall p area, 0 < p -> output_scale RF deg (Some p) area = Some p /\ output_areas RF deg p = Some ((p / arcsec_per_rad) * (p / arcsec_per_rad), p * p).
Proof.
  intros p area P. split; [reflexivity|]. unfold output_areas. cbn [feq fmul fdiv fofZ fzero RF F]. destruct (Reqb p 0) eqn:E; [apply Reqb_spec in E; lra|].
  assert (D : deg 3600 = arcsec_per_rad) by (unfold deg, arcsec_per_rad; reflexivity). rewrite D. f_equal. f_equal. pose proof apr_pos. field. lra.
Qed.
(** the ratio a model gives: its square is the output area over the input area *)
Lemma ratio_value p (a : R) : 0 < a -> (p / (arcsec_per_rad * sqrt a)) * (p / (arcsec_per_rad * sqrt a)) * a = (p / arcsec_per_rad) * (p / arcsec_per_rad).
Proof. intro A. pose proof apr_pos. pose proof (sqrt_lt_R0 a A). rewrite <- (sqrt_sqrt a) at 3 by lra. field. lra. Qed.
Theorem C100_ratio : forall p mean nominal a, 0 < p -> input_area RF false mean nominal = Some a -> 0 < a ->
  exists r, model_ratio RF deg p true mean nominal = Some r /\ 0 < r /\ r * r * a = (p / arcsec_per_rad) * (p / arcsec_per_rad).
Proof.
  intros p mean nominal a P E A. unfold model_ratio. rewrite E. unfold no_area. cbn [fle fzero RF F]. destruct (Rleb a 0) eqn:L; [apply Rleb_spec in L; lra|].
  eexists. split; [reflexivity|]. cbn [fdiv RF F]. assert (Ar : (arcsec RF deg a : R) = arcsec_per_rad * sqrt a) by apply arcsec_R. rewrite Ar. pose proof apr_pos. pose proof (sqrt_lt_R0 a A). split; [|apply ratio_value, A].
  apply Rmult_lt_0_compat; [exact P|]. apply Rinv_0_lt_compat. apply Rmult_lt_0_compat; assumption.
Qed.
(** which area counts for the ratio: the nominal one, the WCS's mean when it is missing or not positive *)
Theorem C100_input_area : forall mean nominal, input_area RF false mean nominal = match nominal with Some a => if Rle_dec a 0 then mean else Some a | None => mean end.
Proof. intros mean [a|]; [|reflexivity]. unfold input_area, no_area. cbn [fle fzero RF F]. unfold Rleb. destruct (Rle_dec a 0); reflexivity. Qed.
(** a product's ratio, from the first imaging model with a usable area; a spectral one gives none *)
Theorem C100_product_ratio : forall (D : Type) dadd dinit (c : rcfg RF) p info l s, c_ratio _ c = None -> 0 < p ->
  (forall m, In m l -> m_ratio _ m = model_ratio RF deg p (fst (fst (info m))) (snd (fst (info m))) (snd (info m))) ->
  add_all RF D dadd c (create RF D dinit c) l = (s, None) ->
  match s_ratio _ _ s with
  | None => forall m, In m l -> fst (fst (info m)) = true -> forall a, input_area RF false (snd (fst (info m))) (snd (info m)) = Some a -> a <= 0
  | Some r => exists l1 m l2 a, l = l1 ++ m :: l2 /\ fst (fst (info m)) = true /\ input_area RF false (snd (fst (info m))) (snd (info m)) = Some a /\ 0 < a /\
                r * r * a = (p / arcsec_per_rad) * (p / arcsec_per_rad) /\ (forall m', In m' l1 -> m_ratio _ m' = None)
  end.
Proof.
  intros D dadd dinit c p info l s C P I E. rewrite (C82_ratio RF D dadd dinit c l s E), C. clear E C. induction l as [|m l IH].
  - cbn. intros m [].
  - cbn [first_some]. pose proof (I m (or_introl eq_refl)) as Im. specialize (IH (fun y Y => I y (or_intror Y))). destruct (m_ratio _ m) as [r|] eqn:Rm.
    + unfold model_ratio in Im. destruct (info m) as [[im me] no] eqn:Ei. cbn [fst snd] in *. destruct im; [|discriminate]. destruct (no_area RF (input_area RF false me no)) eqn:Na; [discriminate|]. destruct (input_area RF false me no) as [a|] eqn:Ea; [|discriminate].
      cbn [no_area fle fzero RF F] in Na. assert (A : 0 < a) by (destruct (Rlt_dec 0 a); [assumption|]; assert (T : Rleb a 0 = true) by (apply Rleb_spec; lra); congruence).
      exists [], m, l, a. rewrite Ei. cbn [fst snd]. repeat (split; [first [reflexivity|assumption]|]). split; [|intros ? []]. injection Im as ->. assert (Ar : 3600 * deg (sqrt a) = arcsec_per_rad * sqrt a) by apply (arcsec_R a). rewrite Ar. apply ratio_value, A.
    + destruct (first_some (m_ratio RF) l) as [r|] eqn:Fs.
      * destruct IH as (l1 & m1 & l2 & a & -> & H1 & H2 & H3 & H4 & H5). exists (m :: l1), m1, l2, a. repeat (split; [first [reflexivity|assumption]|]). intros m' [<-|M']; [exact Rm|apply H5, M'].
      * intros m' [<-|M'] Hm a Ha; [|apply (IH m' M' Hm a Ha)]. unfold model_ratio in Im. rewrite Hm, Ha in Im. cbn [no_area fle fzero RF F] in Im. destruct (Rleb a 0) eqn:L; [apply Rleb_spec in L; exact L|discriminate].
Qed.
(** "prefer_mean ... will fall back to the value of the pixelarea_steradians keyword": it does not *)
Theorem C100_fallback_refuted : exists mean nominal, no_area B64 nominal = false /\ no_area B64 (input_area B64 true mean nominal) = true.
Proof. exists None, (Some (fone B64)). split; vm_compute; reflexivity. Qed.
(** intensities: only spectral data in flux-density units are rescaled *)
Theorem C100_intensity : forall (fo : FOps) nominal spectral flux ratio,
  (spectral = false \/ flux = false \/ nominal = None -> intensity_scale fo nominal spectral flux ratio = Some (fone fo)) /\
  (forall a r, feq fo a (fzero fo) = false -> intensity_scale fo (Some a) true true (Some r) = Some (fdiv fo (fone fo) r)).
Proof.
  intros fo nominal spectral flux ratio. split.
  - intros [->|[->| ->]]; unfold intensity_scale; [rewrite andb_false_r|rewrite andb_false_r|]; reflexivity.
  - intros a r A. unfold intensity_scale, truthy. rewrite A. reflexivity.
Qed.
(** spectral flux-density data without a given ratio raise: no spectral model ever sets one *)
Theorem C100_spectral_refuted : exists axes nominal, forall (mean : option B64) scale, is_imaging axes = false /\
  intensity_scale B64 nominal true true (model_ratio B64 (fun x => x) scale (is_imaging axes) mean nominal) = None.
Proof. exists [true; true; false], (Some (fone B64)). intros mean scale. assert (I : is_imaging [true; true; false] = false) by reflexivity. rewrite I. split; [reflexivity|]. unfold intensity_scale. replace (truthy B64 (Some (fone B64))) with true by (vm_compute; reflexivity). reflexivity. Qed.
Print Assumptions C100_output_area. Print Assumptions C100_given_scale. Print Assumptions C100_ratio. Print Assumptions C100_input_area. Print Assumptions C100_product_ratio.
Print Assumptions C100_fallback_refuted. Print Assumptions C100_intensity. Print Assumptions C100_spectral_refuted.
(** output pixels of half the input scale: the ratio is 1/2 *)
Example C100_ratio_example : exists r, model_ratio RF deg (arcsec_per_rad * 1) true None (Some 4) = Some r /\ 0 < r /\ r * r * 4 = 1.
Proof. pose proof apr_pos. destruct (C100_ratio (arcsec_per_rad * 1) None (Some 4) 4) as (r & E & P & Q); [lra| |lra|]. - rewrite C100_input_area. destruct (Rle_dec 4 0); [lra|reflexivity]. - exists r. split; [exact E|]. split; [exact P|]. rewrite Q. field. lra. Qed.

(** ** C101 *)
Definition Rceil (x : R) : Z := (- Int_part (- x))%Z.
Lemma Rceil_spec x : x <= IZR (Rceil x) < x + 1.
Proof. unfold Rceil. destruct (base_Int_part (- x)) as [A B]. rewrite opp_IZR. lra. Qed.
(** a pixel is in the estimated image exactly when its far edge is in the box *)
Theorem C101_far_edge : forall eps x2 k, 0 <= eps -> - (1 / 2) <= x2 -> (0 <= k)%Z -> ((k < estimated RF Rtrunc eps x2)%Z <-> IZR k + 1 / 2 <= x2 + eps).
Proof.
  intros eps x2 k E X K. unfold estimated. cbn [fadd fdiv fone fofZ RF F]. destruct (trunc_nonneg (x2 + (1 / 2 + eps)) ltac:(lra)) as [_ [A B]]. split; intro H.
  - apply Zlt_le_succ, IZR_le in H. unfold Z.succ in H. rewrite plus_IZR in H. lra.
  - apply lt_IZR. lra.
Qed.
(** a box ending on a pixel edge gives the same shape as the pixel map *)
Theorem C101_pixel_edges : forall eps n, 0 <= eps < 1 -> (1 <= n)%Z -> estimated RF Rtrunc eps (IZR n - 1 / 2) = n /\ pixmap_shape RF Rceil (IZR n - 1 / 2) = n.
Proof.
  intros eps n E N. apply IZR_le in N. split.
  - unfold estimated. cbn [fadd fdiv fone fofZ RF F]. destruct (trunc_nonneg (IZR n - 1 / 2 + (1 / 2 + eps)) ltac:(lra)) as [_ [A B]].
    assert (IZR (Rtrunc (IZR n - 1 / 2 + (1 / 2 + eps))) < IZR (n + 1)) by (rewrite plus_IZR; lra). assert (IZR n < IZR (Rtrunc (IZR n - 1 / 2 + (1 / 2 + eps)) + 1)) by (rewrite plus_IZR; lra). apply lt_IZR in H, H0. lia.
  - unfold pixmap_shape. cbn [fadd fdiv fone fofZ RF F]. destruct (Rceil_spec (IZR n - 1 / 2 + 1 / 2)) as [A B].
    assert (IZR (Rceil (IZR n - 1 / 2 + 1 / 2)) < IZR (n + 1)) by (rewrite plus_IZR; lra). assert (IZR (n - 1) < IZR (Rceil (IZR n - 1 / 2 + 1 / 2))) by (rewrite minus_IZR; lra). apply lt_IZR in H, H0. lia.
Qed.
(** the pixel map's estimate holds every pixel whose centre, or any of whose area, is in the box *)
Theorem C101_pixmap : forall x2 k, ((k < pixmap_shape RF Rceil x2)%Z <-> IZR k - 1 / 2 < x2).
Proof.
  intros x2 k. unfold pixmap_shape. cbn [fadd fdiv fone fofZ RF F]. destruct (Rceil_spec (x2 + 1 / 2)) as [A B]. split; intro H.
  - apply Zlt_le_succ, IZR_le in H. unfold Z.succ in H. rewrite plus_IZR in H. lra.
  - apply lt_IZR. lra.
Qed.
(** double precision: a box ending at the centre of pixel 9 gives an image without that pixel, and 10 pixels for the pixel map *)
Definition sf_ceil (x : spec_float) : Z := match x with S754_finite s m e => let z := if s then Zneg m else Zpos m in if (0 <=? e)%Z then (z * 2 ^ e)%Z else (- (- z / 2 ^ (- e)))%Z | _ => 0%Z end.
Definition eps64 : B64 := fdiv B64 (fone B64) (fofZ B64 (2 ^ 52)).
Theorem C101_centre_refuted : exists x2, estimated B64 sf_trunc eps64 x2 = 9%Z /\ fle B64 (fofZ B64 9) x2 = true /\ pixmap_shape B64 sf_ceil x2 = 10%Z.
Proof. exists (fofZ B64 9). vm_compute. repeat split; reflexivity. Qed.
Print Assumptions C101_far_edge. Print Assumptions C101_pixel_edges. Print Assumptions C101_pixmap. Print Assumptions C101_centre_refuted.
Example C101_example : estimated B64 sf_trunc eps64 (fdiv B64 (fofZ B64 4095) (fofZ B64 2)) = 2048%Z /\ estimated RF Rtrunc (1 / 1000) (IZR 2048 - 1 / 2) = 2048%Z.
Proof. split; [vm_compute; reflexivity|apply C101_pixel_edges; [lra|lia]]. Qed.

(** ** C102 *)
(** a recorded level that has not been subtracted is taken off; the product is that of the sky-free image *)
Theorem C102_level : forall level (data : img R) r c, drizzled RF false (Some level) (fun r c => data r c + level) r c = data r c.
Proof. intros level data r c. cbn [drizzled fsub RF F]. toR. ring. Qed.
Theorem C102_exact : forall (fo : FOps) level data r c, drizzled fo false (Some level) data r c = fsub fo (data r c) level.
Proof. reflexivity. Qed.
(** once subtracted, or without a level, nothing is taken off *)
Theorem C102_once : forall (fo : FOps) subtracted level data, subtracted = true \/ level = None -> drizzled fo subtracted level data = data.
Proof. intros fo s [l|] data [->|H]; try reflexivity; discriminate. Qed.
Print Assumptions C102_level. Print Assumptions C102_exact. Print Assumptions C102_once.
Example C102_example : drizzled RF false (Some 3) (fun r c => INR r + 3) 5%nat 7%nat = INR 5.
Proof. apply (C102_level 3 (fun r _ => INR r)). Qed.

(** ** C103: blotting *)
(** positions that exist are handed on as they are; a pixel without one gets the fill value if blotting fills in whatever lies
    left of or below the image *)
Theorem C103_positions : forall (fo : FOps) blot pixmap r c x y, pixmap r c = (x, y) -> fisnan fo x = false -> fisnan fo y = false -> blotted fo blot pixmap r c = blot (x, y).
Proof. intros fo blot p r c x y E X Y. unfold blotted, no_nan. rewrite E. cbn [fst snd]. rewrite X, Y. reflexivity. Qed.
Theorem C103_missing : forall (blot : B64 * B64 -> B64) fill pixmap r c, (forall x y, flt B64 x (fdiv B64 (fofZ B64 (-1)) (fofZ B64 2)) = true \/ flt B64 y (fdiv B64 (fofZ B64 (-1)) (fofZ B64 2)) = true -> blot (x, y) = fill) ->
  fisnan B64 (fst (pixmap r c)) = true \/ fisnan B64 (snd (pixmap r c)) = true -> blotted B64 blot pixmap r c = fill.
Proof.
  intros blot fill p r c H N. unfold blotted, no_nan. destruct (p r c) as [x y]. cbn [fst snd] in *. apply H. destruct N as [N|N]; rewrite N; [left|right]; vm_compute; reflexivity.
Qed.
Print Assumptions C103_positions. Print Assumptions C103_missing.
Example C103_example : let blot (q : B64 * B64) := if flt B64 (fst q) (fdiv B64 (fofZ B64 (-1)) (fofZ B64 2)) || flt B64 (snd q) (fdiv B64 (fofZ B64 (-1)) (fofZ B64 2)) then fofZ B64 77 else fst q in
  blotted B64 blot (fun r c => (fofZ B64 (Z.of_nat c), if Nat.eqb r 0%nat then fnan B64 else fone B64)) 0%nat 4%nat = fofZ B64 77 /\
  blotted B64 blot (fun r c => (fofZ B64 (Z.of_nat c), if Nat.eqb r 0%nat then fnan B64 else fone B64)) 1%nat 4%nat = fofZ B64 4.
Proof. split; [apply C103_missing; [|right; reflexivity]|vm_compute; reflexivity]. intros x y [H|H]; cbn [fst snd]; rewrite H; [|rewrite orb_true_r]; reflexivity. Qed.
