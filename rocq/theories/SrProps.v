(** C113: combining sky regions.  C114: the S_REGION of an image. *)
From Verif Require Import Base BaseLemmas RBase AlModel AlProps2 SrModel.
From Coq Require Import Ascii Lia Reals Lra.

(** ** Specification: what shapely is assumed to compute, in terms of the points enclosed *)
Section Spec.
  Variable fo : FOps.
  Notation pt := (fo * fo)%type.
  Variable G : Type.
  Variables (mkpoly : list pt -> option G) (exterior : G -> list pt) (union : list G -> geom G) (inter : G -> G -> geom G).
  (** a point is enclosed by the ring through the vertices / belongs to the polygon *)
  Variables (inside : list pt -> pt -> Prop) (area : G -> pt -> Prop).
  (** the polygons a geometry consists of *)
  Definition pieces (g : geom G) : list G := match g with GPoly g => [g] | GMulti gs => gs | _ => [] end.
  (** areas are those of the vertices; a polygon lies within its exterior ring; union and intersection of point sets (a union or an
      intersection that is no polygon encloses nothing) *)
  Record shapely_ok : Prop := {
    ok_mk : forall v g, mkpoly v = Some g -> forall q, area g q <-> inside v q;
    ok_ext : forall g q, area g q -> inside (removelast (exterior g)) q;
    ok_union : forall gs q, (exists g, In g (pieces (union gs)) /\ area g q) <-> (exists g, In g gs /\ area g q);
    ok_inter : forall a b q, (exists g, In g (pieces (inter a b)) /\ area g q) <-> area a q /\ area b q }.
  (** a polygon without a hole *)
  Definition solid (g : G) : Prop := forall q, inside (removelast (exterior g)) q -> area g q.
End Spec.

(** ** Lists with exceptions *)
Lemma smapM_ok {A B} (f : A -> sr_res B) l out : smapM f l = SOk out <-> Forall2 (fun x y => f x = SOk y) l out.
Proof.
  split.
  - revert out. induction l as [|x l IH]; intros out H; cbn in H; [injection H as <-; constructor|]. destruct (f x) eqn:E; [|discriminate]. cbn in H. destruct (smapM f l); [|discriminate]. cbn in H. injection H as <-. constructor; [assumption|apply IH; reflexivity].
  - induction 1 as [|x y l out H _ IH]; [reflexivity|]. cbn. rewrite H, IH. reflexivity.
Qed.
Lemma Forall2_in_l {A B} (P : A -> B -> Prop) l m x : Forall2 P l m -> In x l -> exists y, In y m /\ P x y.
Proof. induction 1 as [|a b l m H _ IH]; [intros []|]. intros [<-|I]; [exists b; split; [left; reflexivity|assumption]|]. destruct (IH I) as (y & I' & Q). exists y. split; [right; assumption|assumption]. Qed.
Lemma Forall2_in_r {A B} (P : A -> B -> Prop) l m y : Forall2 P l m -> In y m -> exists x, In x l /\ P x y.
Proof. induction 1 as [|a b l m H _ IH]; [intros []|]. intros [<-|I]; [exists a; split; [left; reflexivity|assumption]|]. destruct (IH I) as (x & I' & Q). exists x. split; [right; assumption|assumption]. Qed.
Lemma rows_of_concat {A B} (f : A -> B) (l : list (list A)) n : (forall x, In x l -> length x = n) -> rows_of n (length l) (map f (concat l)) = map (map f) l.
Proof.
  induction l as [|x l IH]; intro H; [reflexivity|]. cbn [length concat rows_of map]. rewrite map_app. pose proof (H x (or_introl eq_refl)) as E.
  rewrite firstn_app, skipn_app, map_length, E, Nat.sub_diag, firstn_O, app_nil_r. cbn [skipn]. rewrite firstn_all2, skipn_all2 by (rewrite map_length; lia). cbn [app]. rewrite IH by (intros; apply H; right; assumption). reflexivity.
Qed.
Lemma to_pixels_map (fo : FOps) (w2d : fo * fo -> fo * fo) fps : same_length fps = true -> to_pixels fo w2d fps = map (map w2d) fps.
Proof.
  intro H. unfold to_pixels. destruct fps as [|x l]; [reflexivity|]. apply rows_of_concat. cbn in H. rewrite forallb_forall in H. intros y [<-|I]; [reflexivity|]. apply Nat.eqb_eq, H, I.
Qed.

Section Region.
  Variable fo : FOps.
  Notation pt := (fo * fo)%type.
  Variable G : Type.
  Variables (mkpoly : list pt -> option G) (exterior : G -> list pt) (union : list G -> geom G) (inter : G -> G -> geom G) (simp : list pt -> list pt).
  Variables (inside : list pt -> pt -> Prop) (area : G -> pt -> Prop).
  Hypothesis OK : shapely_ok fo G mkpoly exterior union inter inside area.
  (** leaving out nearly collinear and nearly equal vertices does not change what a ring encloses *)
  Hypothesis simp_ok : forall g q, inside (simp (removelast (exterior g))) q <-> inside (removelast (exterior g)) q.
  Notation arr := (to_array fo G exterior simp).
  Notation combined := (combine_footprints fo G mkpoly exterior union simp).
  Notation clipped := (intersect_with_bbox fo G mkpoly exterior inter simp).
  Definition covered (l : list (list pt)) (q : pt) : Prop := exists v, In v l /\ inside v q.
  Lemma arr_area g q : (area g q -> inside (arr g) q) /\ (solid fo G exterior inside area g -> inside (arr g) q -> area g q).
  Proof. unfold to_array. split; [intro H; apply simp_ok, (ok_ext _ _ _ _ _ _ _ _ OK), H|intros S H; apply S, simp_ok, H]. Qed.
  Lemma polygon_ok v g : polygon fo G mkpoly v = SOk g -> forall q, area g q <-> inside v q.
  Proof. unfold polygon. destruct (mkpoly v) eqn:E; [|discriminate]. intro H. injection H as <-. apply (ok_mk _ _ _ _ _ _ _ _ OK), E. Qed.
  Lemma polygons_ok l gs : smapM (polygon fo G mkpoly) l = SOk gs -> forall q, (exists g, In g gs /\ area g q) <-> covered l q.
  Proof.
    intros H q. apply smapM_ok in H. split.
    - intros (g & I & A). destruct (Forall2_in_r _ _ _ _ H I) as (v & J & E). exists v. split; [assumption|]. apply (polygon_ok v g E), A.
    - intros (v & I & A). destruct (Forall2_in_l _ _ _ _ H I) as (g & J & E). exists g. split; [assumption|]. apply (polygon_ok v g E), A.
  Qed.
  (** the union: all of the footprints, and nothing else unless a hole is filled *)
  Theorem union_region fps out : combined fps = SOk out ->
    (forall q, covered fps q -> covered out q) /\
    ((forall gs g, In g (pieces G (union gs)) -> solid fo G exterior inside area g) -> forall q, covered out q -> covered fps q).
  Proof.
    unfold combine_footprints. destruct (smapM _ fps) as [gs|] eqn:E; [|discriminate]. cbn [sbind]. intro H.
    assert (O : out = map arr (pieces G (union gs))) by (destruct (union gs); try discriminate; injection H as <-; reflexivity). clear H. subst out. pose proof (polygons_ok fps gs E) as P. clear E. split.
    - intros q C. apply P in C. apply (ok_union _ _ _ _ _ _ _ _ OK) in C. destruct C as (g & I & A). exists (arr g). split; [apply in_map, I|apply arr_area, A].
    - intros S q (v & I & A). apply in_map_iff in I. destruct I as (g & <- & I). apply P, (ok_union _ _ _ _ _ _ _ _ OK). exists g. split; [assumption|]. apply arr_area; [eapply S, I|assumption].
  Qed.
  (** the intersection *)
  Theorem clip_region polys bbox out : clipped polys bbox = SOk out ->
    (forall q, covered polys q -> inside bbox q -> covered out q) /\
    ((forall a b g, In g (pieces G (inter a b)) -> solid fo G exterior inside area g) -> forall q, covered out q -> covered polys q /\ inside bbox q).
  Proof.
    unfold intersect_with_bbox. destruct (polygon fo G mkpoly bbox) as [b|] eqn:B; [|discriminate]. cbn [sbind]. destruct (smapM _ polys) as [l|] eqn:E; [|discriminate]. cbn [sbind]. intro H. injection H as <-.
    apply smapM_ok in E. pose proof (polygon_ok bbox b B) as PB.
    assert (ONE : forall v x, clip_one fo G mkpoly exterior inter simp b v = SOk x -> exists p, polygon fo G mkpoly v = SOk p /\ x = map arr (pieces G (inter p b))).
    { unfold clip_one. intros v x. destruct (polygon fo G mkpoly v) as [p|]; [|discriminate]. cbn [sbind]. intro H. exists p. split; [reflexivity|]. destruct (inter p b); try discriminate; injection H as <-; reflexivity. }
    split.
    - intros q (v & I & A) Q. destruct (Forall2_in_l _ _ _ _ E I) as (x & J & X). destruct (ONE v x X) as (p & PV & ->).
      assert (C : area p q /\ area b q) by (split; [apply (polygon_ok v p PV), A|apply PB, Q]). apply (ok_inter _ _ _ _ _ _ _ _ OK) in C. destruct C as (g & Ig & Ag).
      exists (arr g). split; [apply in_concat; eexists; split; [exact J|apply in_map, Ig]|apply arr_area, Ag].
    - intros S q (w & I & A). apply in_concat in I. destruct I as (x & J & K). destruct (Forall2_in_r _ _ _ _ E J) as (v & I & X). destruct (ONE v x X) as (p & PV & ->).
      apply in_map_iff in K. destruct K as (g & <- & Ig). assert (Ag : area g q) by (apply arr_area; [eapply S, Ig|assumption]).
      destruct (proj1 (ok_inter _ _ _ _ _ _ _ _ OK p b q) (ex_intro _ g (conj Ig Ag))) as [C D]. split; [exists v; split; [assumption|apply (polygon_ok v p PV), C]|apply PB, D].
  Qed.
End Region.

(** ** The whole call *)
Definition cut {P} (inside : list P -> P -> Prop) (bbox : option (list P)) (q : P) : Prop := match bbox with Some b => inside b q | None => True end.
Theorem C113_region : forall fo G mkpoly exterior union inter simp inside area, shapely_ok fo G mkpoly exterior union inter inside area ->
  (forall g q, inside (simp (removelast (exterior g))) q <-> inside (removelast (exterior g)) q) ->
  forall w2d d2w dec shown l bbox s, combine_sregions fo G mkpoly exterior union inter simp w2d d2w dec shown l bbox = SOk s ->
  exists fps final, Forall2 (fun x y => read_footprint fo dec x = SOk y) l fps /\
    s = polygons_to_sregion (map (map (fun q => let w := d2w q in (shown (fst w), shown (snd w)))) final) /\
    let inputs := map (map w2d) fps in let box := option_map (map w2d) bbox in
    (forall q, covered fo inside inputs q -> cut inside box q -> covered fo inside final q) /\
    ((forall gs g, In g (pieces G (union gs)) -> solid fo G exterior inside area g) -> (forall a b g, In g (pieces G (inter a b)) -> solid fo G exterior inside area g) ->
     forall q, covered fo inside final q -> covered fo inside inputs q /\ cut inside box q).
Proof.
  intros fo G mkpoly exterior union inter simp inside area OK SO w2d d2w dec shown l bbox s. unfold combine_sregions.
  destruct (smapM _ l) as [fps|] eqn:R; [|discriminate]. cbn [sbind]. apply smapM_ok in R. destruct (same_length fps) eqn:SL; [|discriminate]. cbn [negb].
  rewrite (to_pixels_map fo w2d fps SL). destruct (combine_footprints _ _ _ _ _ _ _) as [polys|] eqn:C; [|discriminate]. cbn [sbind].
  destruct (union_region fo G mkpoly exterior union inter simp inside area OK SO _ _ C) as [U1 U2].
  set (fin := match bbox with None => _ | Some b => _ end). destruct fin as [final|] eqn:F; [|discriminate]. cbn [sbind]. intro H. injection H as <-. exists fps, final. split; [exact R|]. split.
  { unfold to_string. f_equal. apply map_ext. intro p. rewrite map_map. reflexivity. }
  cbv zeta. unfold fin in F. clear fin. destruct bbox as [b|]; cbn [option_map cut].
  - destruct (intersect_with_bbox _ _ _ _ _ _ _ _) as [c|] eqn:I; [|discriminate]. cbn [sbind] in F. assert (c = final) as -> by (destruct c; [discriminate|injection F as <-; reflexivity]).
    destruct (clip_region fo G mkpoly exterior union inter simp inside area OK SO _ _ _ I) as [I1 I2]. split.
    + intros q Q B. apply I1; [apply U1, Q|exact B].
    + intros S1 S2 q Q. destruct (I2 S2 q Q) as [A B]. split; [exact (U2 S1 q A)|exact B].
  - injection F as <-. split; [intros q Q _; apply U1, Q|]. intros S1 _ q Q. split; [exact (U2 S1 q Q)|exact I].
Qed.
Print Assumptions C113_region.

(** the documented error: none of the combined regions meets the footprint *)
Theorem C113_no_overlap : forall fo G mkpoly exterior union inter simp w2d d2w dec shown l b fps polys box,
  Forall2 (fun x y => read_footprint fo dec x = SOk y) l fps -> same_length fps = true ->
  combine_footprints fo G mkpoly exterior union simp (map (map w2d) fps) = SOk polys -> mkpoly (map w2d b) = Some box ->
  (combine_sregions fo G mkpoly exterior union inter simp w2d d2w dec shown l (Some b) = SErr ENoOverlap <->
   Forall (fun v => exists p, mkpoly v = Some p /\ inter p box = GEmpty) polys).
Proof.
  intros fo G mkpoly exterior union inter simp w2d d2w dec shown l b fps polys box R SL C B. unfold combine_sregions. rewrite (proj2 (smapM_ok _ _ _) R). cbn [sbind]. rewrite SL. cbn [negb].
  rewrite (to_pixels_map fo w2d fps SL), C. cbn [sbind]. unfold intersect_with_bbox, polygon at 1. rewrite B. cbn [sbind]. clear R SL C B fps. split.
  - induction polys as [|v polys IH]; [constructor|]. cbn [smapM]. unfold clip_one at 1, polygon at 1. destruct (mkpoly v) as [p|] eqn:V; [|discriminate]. cbn [sbind]. intro H.
    destruct (inter p box) eqn:I; try discriminate; cbn [sbind] in H.
    + constructor; [exists p; split; assumption|]. apply IH. destruct (smapM _ polys) as [x|]; [|exact H]. cbn [sbind concat app] in *. exact H.
    + destruct (smapM _ polys) as [x|] eqn:X; cbn [sbind concat app] in H; [discriminate|]. clear IH. exfalso.
      assert (N : forall l0 e, smapM (clip_one fo G mkpoly exterior inter simp box) l0 = SErr e -> e <> ENoOverlap).
      { clear. induction l0 as [|v l0 IH]; [discriminate|]. cbn [smapM]. intro e. unfold clip_one at 1, polygon at 1. destruct (mkpoly v) as [p|]; [|cbn; congruence]. cbn [sbind].
        destruct (inter p box); cbn [sbind]; try congruence; destruct (smapM _ l0); cbn [sbind]; try discriminate; intro H; injection H as <-; apply IH; reflexivity. }
      injection H as ->. exact (N _ _ X eq_refl).
  - intro H. assert (Z : exists k, smapM (clip_one fo G mkpoly exterior inter simp box) polys = SOk (repeat [] k)).
    { induction H as [|v polys (p & V & I) _ (k & IH)]; [exists 0; reflexivity|]. exists (S k). cbn [smapM]. unfold clip_one at 1, polygon at 1. rewrite V. cbn [sbind]. rewrite I, IH. reflexivity. }
    destruct Z as (k & ->). cbn [sbind]. replace (concat (repeat [] k)) with (@nil (list (fo * fo))) by (induction k; [reflexivity|assumption]). reflexivity.
Qed.
Print Assumptions C113_no_overlap.

(** ** Where the description fails, whatever shapely computes *)
(** regions with different numbers of vertices cannot be combined *)
Theorem C113_ragged_refuted : exists a b : list (R * R), forall G mkpoly exterior union inter simp w2d d2w dec shown bbox,
  combine_sregions RF G mkpoly exterior union inter simp w2d d2w dec shown [inr a; inr b] bbox = SErr ERagged.
Proof. exists [(0, 0); (1, 0); (0, 1)]%R, [(0, 0); (1, 0); (1, 1); (0, 1)]%R. reflexivity. Qed.
Print Assumptions C113_ragged_refuted.
(** a combined region that the footprint cuts into several pieces, or only touches, raises AttributeError *)
Theorem C113_cut_raises : forall fo G mkpoly exterior union inter simp w2d d2w dec shown l b fps v rest box p,
  Forall2 (fun x y => read_footprint fo dec x = SOk y) l fps -> same_length fps = true ->
  combine_footprints fo G mkpoly exterior union simp (map (map w2d) fps) = SOk (v :: rest) -> mkpoly (map w2d b) = Some box -> mkpoly v = Some p ->
  (inter p box = GOther \/ exists gs, inter p box = GMulti gs) ->
  combine_sregions fo G mkpoly exterior union inter simp w2d d2w dec shown l (Some b) = SErr ENoExterior.
Proof.
  intros fo G mkpoly exterior union inter simp w2d d2w dec shown l b fps v rest box p R SL C B V I. unfold combine_sregions. rewrite (proj2 (smapM_ok _ _ _) R). cbn [sbind]. rewrite SL. cbn [negb].
  rewrite (to_pixels_map fo w2d fps SL), C. cbn [sbind]. unfold intersect_with_bbox, polygon at 1. rewrite B. cbn [sbind smapM]. unfold clip_one at 1, polygon. rewrite V. cbn [sbind].
  destruct I as [->|(gs & ->)]; reflexivity.
Qed.
Print Assumptions C113_cut_raises.
(** an empty list raises (the union of nothing is an empty collection) *)
Theorem C113_empty_raises : forall fo G mkpoly exterior union inter simp w2d d2w dec shown bbox, union [] = @GEmpty G ->
  combine_sregions fo G mkpoly exterior union inter simp w2d d2w dec shown [] bbox = SErr ENotPolygons.
Proof. intros. unfold combine_sregions, to_pixels, combine_footprints. cbn. rewrite H. reflexivity. Qed.
Print Assumptions C113_empty_raises.
(** a region of several polygons, such as this function writes, is read as one polygon through all the vertices *)
Theorem C113_several_polygons_refuted : exists a b : list (AlModel.num * AlModel.num), length a = 4%nat /\ length b = 4%nat /\
  forall (dec : bool * N * nat -> R), exists fp, read_footprint RF dec (inl (polygons_to_sregion [a; b])) = SOk fp /\ length fp = 8%nat.
Proof.
  set (n := fun k => NFin false (k * 10 ^ 9)%N). exists [(n 0, n 0); (n 1, n 0); (n 1, n 1); (n 0, n 1)]%N, [(n 5, n 0); (n 6, n 0); (n 6, n 1); (n 5, n 1)]%N. split; [reflexivity|]. split; [reflexivity|].
  intro dec. assert (E : exists fp, sregion_to_footprint (polygons_to_sregion [[(n 0, n 0); (n 1, n 0); (n 1, n 1); (n 0, n 1)]; [(n 5, n 0); (n 6, n 0); (n 6, n 1); (n 5, n 1)]]%N) = Some fp /\ length fp = 8%nat) by (vm_compute; eexists; split; reflexivity).
  destruct E as (fp & E & L). eexists. unfold read_footprint. rewrite E. split; [reflexivity|]. rewrite map_length. exact L.
Qed.
Print Assumptions C113_several_polygons_refuted.

(** ** C114 *)
Section Imaging.
  Variable fo : FOps.
  Variables (footprint : (fo * fo) * (fo * fo) -> bool -> list (fo * fo)) (mod360 : fo -> fo) (shown : fo -> AlModel.num).
  Notation call := (s_region_imaging fo footprint mod360 shown).
  (** an existing bounding box is used and kept, whatever the shape; without one the shape's is used and stored; neither: an error *)
  Theorem C114_box : forall wbox shape center r, call wbox shape center = Some r ->
    fst r = match wbox, shape with Some b, _ => Some b | None, Some (ny, nx) => Some (bbox_of_shape fo ny nx) | None, None => None end /\ fst r <> None.
  Proof.
    intros wbox shape center r. unfold s_region_imaging. destruct wbox as [b|]; [|destruct shape as [[ny nx]|]; [|discriminate]]; cbn [bind fst snd]; destruct (s_region_keyword _); try discriminate; cbn [bind]; intro H; injection H as <-; (split; [reflexivity|discriminate]).
  Qed.
  Theorem C114_neither : forall center, call None None center = None.
  Proof. reflexivity. Qed.
End Imaging.
Print Assumptions C114_box.
Print Assumptions C114_neither.
(** np.mod over the reals: the representative in [0, 360) *)
Local Open Scope R_scope.
Definition mod_ok (mod360 : R -> R) : Prop := forall x, 0 <= mod360 x < 360 /\ exists k : Z, x - mod360 x = IZR k * 360.
Lemma abs_le x b : Rabs x <= b -> - b <= x <= b.
Proof. unfold Rabs. destruct (Rcase_abs x); lra. Qed.
(** printed right ascensions lie between 0 and 360 degrees, 360 included *)
Theorem C114_ra_range : forall mod360 shown, mod_ok mod360 -> (forall x, prints x (shown x)) ->
  forall (q : R * R) s k, shown (mod360 (fst q)) = NFin s k -> (k <= 360 * 10 ^ 9)%N /\ (s = true -> k = 0%N).
Proof.
  intros mod360 shown M P q s k E. destruct (M (fst q)) as [[A B] _]. destruct (P (mod360 (fst q))) as (s' & k' & E' & Q). rewrite E in E'. injection E' as <- <-. apply abs_le in Q.
  set (x := mod360 (fst q)) in *. split.
  - destruct s.
    + assert (IZR (Z.of_N k) < 1) by lra. apply lt_IZR in H. lia.
    + assert (IZR (Z.of_N k) < IZR (360 * 10 ^ 9 + 1)) by (rewrite plus_IZR; change (IZR (360 * 10 ^ 9)) with 360000000000; lra). apply lt_IZR in H. lia.
  - intros ->. assert (IZR (Z.of_N k) < 1) by lra. apply lt_IZR in H. lia.
Qed.
Print Assumptions C114_ra_range.
(** the printed right ascension can be 360 *)
Theorem C114_ra_360_refuted : exists x : R, 0 <= x < 360 /\ forall shown, (forall y, prints y (shown y)) -> shown x = NFin false (360 * 10 ^ 9)%N.
Proof.
  exists (360 - 1 / 10 ^ 10). split; [cbn [pow]; lra|]. intros shown P. destruct (P (360 - 1 / 10 ^ 10)) as (s & k & E & Q). rewrite E. apply abs_le in Q. cbn [pow] in Q. destruct s.
  - exfalso. assert (0 <= IZR (Z.of_N k)) by (apply IZR_le; lia). lra.
  - assert (IZR (Z.of_N k) < IZR (360 * 10 ^ 9 + 1)) by (rewrite plus_IZR; change (IZR (360 * 10 ^ 9)) with 360000000000; lra).
    assert (IZR (360 * 10 ^ 9 - 1) < IZR (Z.of_N k)) by (rewrite minus_IZR; change (IZR (360 * 10 ^ 9)) with 360000000000; lra). apply lt_IZR in H, H0. do 2 f_equal. lia.
Qed.
Print Assumptions C114_ra_360_refuted.

(** ** Examples *)
Local Close Scope R_scope.
(** a strip [a, b] x [0, 1]; [ex_mkpoly] reads its edges from the first two of four vertices *)
Definition ex_ring (g : R * R) : list (R * R) := [(fst g, 0); (snd g, 0); (snd g, 1); (fst g, 1); (fst g, 0)]%R.
Definition ex_area (g q : R * R) : Prop := (fst g <= fst q <= snd g)%R /\ (0 <= snd q <= 1)%R.
Definition ex_mkpoly (v : list (R * R)) : option (R * R) := match v with [p1; p2; _; _] => Some (fst p1, fst p2) | _ => None end.
Definition ex_inside (v : list (R * R)) (q : R * R) : Prop := match v with [p1; p2; _; _] => ex_area (fst p1, fst p2) q | _ => False end.
Definition ex_inter (a b : R * R) : geom (R * R) := GPoly (Rmax (fst a) (fst b), Rmin (snd a) (snd b)).
Example C113_region_example : shapely_ok RF (R * R) ex_mkpoly ex_ring (fun gs => GMulti gs) ex_inter ex_inside ex_area /\ (forall g, solid RF (R * R) ex_ring ex_inside ex_area g) /\
  exists s, combine_sregions RF (R * R) ex_mkpoly ex_ring (fun gs => GMulti gs) ex_inter (fun v => v) (fun q => q) (fun q => q) (fun _ => 0%R) (fun _ => NFin false 0)
    [inr [(0, 0); (3, 0); (3, 1); (0, 1)]; inr [(5, 0); (7, 0); (7, 1); (5, 1)]]%R (Some [(1, 0); (6, 0); (6, 1); (1, 1)]%R) = SOk s.
Proof.
  split; [constructor|split; [|eexists; reflexivity]].
  - intros v g H q. destruct v as [|p1 [|p2 [|p3 [|p4 [|p5 v]]]]]; try discriminate. injection H as <-. reflexivity.
  - intros [a b] q A. exact A.
  - reflexivity.
  - intros a b q. unfold ex_area, ex_inter. cbn [pieces]. split.
    + intros (g & [<-|[]] & [A B] & C). cbn [fst snd] in *. pose proof (Rmax_l (fst a) (fst b)). pose proof (Rmax_r (fst a) (fst b)). pose proof (Rmin_l (snd a) (snd b)). pose proof (Rmin_r (snd a) (snd b)). lra.
    + intros [[A B] [C D]]. eexists. split; [left; reflexivity|]. cbn [fst snd]. split; [|exact B]. split; [apply Rmax_lub; lra|apply Rmin_glb; lra].
  - intros [a b] q A. exact A.
Qed.
(** a concrete run: two squares given as arrays, cut by a box; and a box that cuts the union in two *)
Definition ex_mk (v : list (R * R)) : option nat := match v with [_; _; _; _] => Some 0%nat | _ => None end.
Definition ex_run (i : geom nat) (l : list (list ascii + list (R * R))) := combine_sregions RF nat ex_mk (fun _ => [(0, 0); (1, 0); (1, 1); (0, 1); (0, 0)]%R) (fun _ => GPoly 1%nat) (fun _ _ => i) (fun v => v)
  (fun q => q) (fun q => q) (fun _ => 0%R) (fun _ => NFin false 0) l (Some [(0, 0); (9, 0); (9, 9); (0, 9)]%R).
Example C113_run_example : let sq := [(0, 0); (1, 0); (1, 1); (0, 1)]%R in
  (exists s, ex_run (GPoly 2%nat) [inr sq; inr sq] = SOk s) /\ ex_run GEmpty [inr sq; inr sq] = SErr ENoOverlap /\ ex_run (GMulti [2; 3]%nat) [inr sq; inr sq] = SErr ENoExterior /\ ex_run (GPoly 2%nat) [inr sq; inr (removelast sq)] = SErr ERagged.
Proof. intro sq. split; [eexists; reflexivity|]. repeat split. Qed.
Example C114_example : exists b k, s_region_imaging RF (fun _ _ => [(0, 0); (1, 0); (1, 1); (0, 1)]%R) (fun x => x) (fun _ => NFin false 5) None (Some (10, 20)%Z) true = Some (Some b, Some k) /\ snd (fst b) = (20 - 1 / 2)%R.
Proof. eexists. eexists. split; [reflexivity|]. reflexivity. Qed.
(** such a modulus exists *)
Example C114_mod_example : exists m, mod_ok m.
Proof.
  exists (fun x => x - IZR (up (x / 360) - 1) * 360)%R. intro x. destruct (archimed (x / 360)) as [A B]. split.
  - rewrite minus_IZR. assert (x = x / 360 * 360)%R by field. split; nra.
  - exists (up (x / 360) - 1)%Z. ring.
Qed.
