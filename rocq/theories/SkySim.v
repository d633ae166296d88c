(** Running with and without subtraction, exact arithmetic. *)
From Verif Require Import Base BaseLemmas FLaws RBase SkyModel SkySpec SkyProofs.
From Coq Require Import Reals Lra Lia.
Local Open Scope R_scope.

(** [b] is [a] with its sky subtracted from the pixels *)
Definition sim_img (a b : simg RF) : Prop :=
  g_id b = g_id a /\ g_mask b = g_mask a /\ g_sky b = g_sky a /\ g_valid b = g_valid a /\ g_px b = map (fun p : R => p - g_sky a) (g_px a).
Inductive sim : item RF -> item RF -> Prop :=
| sim_single a b : sim_img a b -> sim (Single a) (Single b)
| sim_group l m gs : Forall2 sim_img l m -> sim (Group l gs) (Group m gs).

Section Sim.
  Variables (area : nat -> nat -> R) (fill : nat -> nat -> list bool) (own : nat -> R) (stat : nat -> list R -> option (R * nat)).
  Hypothesis Sh : shifts stat.
  Lemma select_map (f : R -> R) m l : select RF m (map f l) = map f (select RF m l).
  Proof. unfold select. revert l. induction m as [|b m IH]; intros [|x l]; try reflexivity. cbn [combine map filter fst]. destruct b; cbn [map snd]; rewrite IH; reflexivity. Qed.
  Lemma overlap_sim a b ov : sim_img a b ->
    overlap_pixels RF area fill own b ov = match overlap_pixels RF area fill own a ov with Some (d, s) => Some (map (fun p : R => p - g_sky a) d, s) | None => None end.
  Proof.
    intros (Ei & Em & Es & Ev & Ep). unfold overlap_pixels. rewrite Ei, Em, Ep. destruct ov as [ids|].
    - destruct (isz RF _); [reflexivity|]. rewrite map_map.
      rewrite (select_map (fun p => p - g_sky a)). destruct (select RF _ (g_px a)) as [|x l]; reflexivity.
    - rewrite (select_map (fun p => p - g_sky a)). reflexivity.
  Qed.
  Lemma calc_sim a b ov : sim_img a b -> calc_image RF area fill own stat b ov false = calc_image RF area fill own stat a ov true.
  Proof.
    intro S. unfold calc_image. rewrite (overlap_sim a b ov S). destruct S as (Ei & _ & Es & _ & _). rewrite Ei.
    destruct (overlap_pixels RF area fill own a ov) as [[d s]|]; [|reflexivity].
    pose proof (Sh (g_id a) d (g_sky a)) as Q. change (F RF) with R. rewrite Q. destruct (stat (g_id a) d) as [[v n]|]; reflexivity.
  Qed.
  Lemma fold_sim {A} (f g : A -> simg RF -> A) l m : Forall2 sim_img l m -> (forall z a b, sim_img a b -> f z a = g z b) -> forall z, fold_left f l z = fold_left g m z.
  Proof. intros H E. induction H as [|a b l m S H IH]; intro z; [reflexivity|]. cbn [fold_left]. rewrite (E z a b S). apply IH. Qed.
  Lemma ids_sim t u : sim t u -> map g_id (members t) = map g_id (members u).
  Proof. intro S. destruct S as [a b [E _]|l m gs H]; cbn [members map]; [rewrite E; reflexivity|]. induction H as [|a b l m [E _] H IH]; [reflexivity|]. cbn [map]. rewrite E, IH. reflexivity. Qed.
  Lemma sky_sim t u ov ov' : sim t u -> option_map (fun o : item RF => map g_id (members o)) ov = option_map (fun o : item RF => map g_id (members o)) ov' ->
    calc_sky RF area fill own stat u ov' false = calc_sky RF area fill own stat t ov true.
  Proof.
    intros S O. unfold calc_sky. rewrite <- O. set (ids := option_map _ ov). destruct S as [a b S|l m gs H]; [apply calc_sim, S|].
    destruct ids as [i|].
    - unfold group_mean. erewrite (fold_sim _ _ l m H); [reflexivity|]. intros [[w n] s] a b S. rewrite (calc_sim a b _ S). reflexivity.
    - unfold group_min. symmetry. apply (fold_sim _ _ l m H). intros [[w n] s] a b S. rewrite (calc_sim a b _ S). reflexivity.
  Qed.
  Lemma nth_sim l m k : Forall2 sim l m -> match nth_error l k, nth_error m k with Some t, Some u => sim t u | None, None => True | _, _ => False end.
  Proof. intro H. revert k. induction H as [|t u l m S H IH]; intros [|k]; cbn; auto. apply IH. Qed.
  Lemma len_sim l m : Forall2 sim l m -> length l = length m.
  Proof. induction 1; cbn; congruence. Qed.
  Lemma equations_sim l m : Forall2 sim l m -> equations RF area fill own stat m false = equations RF area fill own stat l true.
  Proof.
    intro H. unfold equations. rewrite <- (len_sim l m H). apply flat_map_ext. intros [i j]. replace (pair_sky RF area fill own stat m false i j) with (pair_sky RF area fill own stat l true i j); [reflexivity|].
    unfold pair_sky. pose proof (nth_sim l m i H) as A. pose proof (nth_sim l m j H) as B.
    destruct (nth_error l i) as [a|], (nth_error m i) as [a'|]; try contradiction; [|reflexivity]. destruct (nth_error l j) as [b|], (nth_error m j) as [b'|]; try contradiction; [|reflexivity].
    rewrite (sky_sim a a' (Some b) (Some b') A), (sky_sim b b' (Some a) (Some a') B); [reflexivity| |]; cbn; f_equal; apply ids_sim; assumption.
  Qed.
  Variable solve : nat -> list (equation RF) -> option (list R).
  Lemma deltas_sim l m : Forall2 sim l m -> deltas RF area fill own stat solve m false = deltas RF area fill own stat solve l true.
  Proof.
    intro H. unfold deltas. rewrite (equations_sim l m H), <- (len_sim l m H). destruct (solve _ _); [reflexivity|].
    clear - H. induction H as [|t u l m S H IH]; [reflexivity|]. cbn [map]. rewrite IH. reflexivity.
  Qed.
  Lemma measured_sim l m : Forall2 sim l m -> measured RF area fill own stat true m = measured RF area fill own stat false l.
  Proof. intro H. unfold measured. induction H as [|t u l m S H IH]; [reflexivity|]. cbn [map]. cbn [negb] in *. rewrite IH, (sky_sim t u None None S eq_refl). reflexivity. Qed.
  Lemma apply_sim g t u o : sim t u -> sim (apply_one RF g false t o) (apply_one RF g true u o).
  Proof.
    intro S. destruct S as [a b S|l m gs H].
    - cbn [apply_one]. constructor. destruct S as (Ei & Em & Es & Ev & Ep). unfold sim_img. cbn [g_id g_mask g_sky g_valid g_px members]. rewrite Ei, Em, Es, Ep, Ev.
      repeat (split; [reflexivity|]). unfold shift_px. rewrite map_map. apply map_ext. intro p. cbn [fadd fsub RF]. eqS. ring.
    - cbn [apply_one members]. assert (W : match l with im :: _ => g_valid im | [] => false end = match m with im :: _ => g_valid im | [] => false end).
      { destruct H as [|a b l m (_ & _ & _ & E & _) _]; [reflexivity|]. symmetry. exact E. }
      rewrite <- W. constructor. clear W. generalize (match o with Some _ => true | None => if g then match l with [] => false | im :: _ => g_valid im end else false end). intro vv. induction H as [|a b l' m' S H IH]; [constructor|]. cbn [map]. constructor; [|exact IH].
      destruct S as (Ei & Em & Es & Ev & Ep). unfold sim_img. cbn [g_id g_mask g_sky g_valid g_px]. rewrite Ei, Em, Es, Ep.
      repeat (split; [reflexivity|]). unfold shift_px. rewrite map_map. apply map_ext. intro p. cbn [fadd fsub RF]. eqS. ring.
  Qed.
  Lemma apply_sim_all g l m skies : Forall2 sim l m -> Forall2 sim (apply_sky RF g false l skies) (apply_sky RF g true m skies).
  Proof.
    intro H. revert skies. unfold apply_sky. induction H as [|t u l m S H IH]; intros [|s skies]; cbn [combine map]; try constructor; [|apply IH].
    cbn [fst snd]. apply apply_sim, S.
  Qed.
  Lemma members_sim l m : Forall2 sim l m -> length (flat_map members m) = length (flat_map members l).
  Proof.
    induction 1 as [|t u l m S H IH]; [reflexivity|]. cbn [flat_map]. rewrite !app_length, IH. f_equal.
    destruct S as [a b _|l' m' gs F]; [reflexivity|]. cbn [members]. clear - F. induction F; cbn; congruence.
  Qed.
  Lemma skymatch_sim dm dg down l m : Forall2 sim l m ->
    match skymatch RF area fill own stat solve dm dg down false l, skymatch RF area fill own stat solve dm dg down true m with
    | Some a, Some b => Forall2 sim a b | None, None => True | _, _ => False end.
  Proof.
    intro H. unfold skymatch. rewrite (members_sim l m H). destruct (Nat.eqb _ 0); [exact I|]. cbn [negb].
    set (l1 := if dm then _ else l). set (m1 := if dm then _ else m).
    assert (H1 : Forall2 sim l1 m1).
    { unfold l1, m1. destruct dm; [|exact H]. rewrite (deltas_sim l m H). apply apply_sim_all, H. }
    clearbody l1 m1. destruct (dg || negb dm); [|exact H1]. rewrite (measured_sim l1 m1 H1).
    destruct dg.
    - destruct (global_min RF _) as [r|]; cbn [bind]; [|exact I]. apply apply_sim_all, H1.
    - cbn [bind]. apply apply_sim_all, H1.
  Qed.
End Sim.
Lemma fresh_sim items : fresh items -> Forall2 sim items items.
Proof.
  assert (I : forall m : simg RF, g_sky m = 0 -> sim_img m m).
  { intros m Z. unfold sim_img. repeat (split; [reflexivity|]). rewrite (map_ext _ (fun p : R => p)) by (intro p; rewrite Z; eqS; ring). symmetry. apply map_id. }
  intro H. induction H as [|t l Ht H IH]; [constructor|]. constructor; [|exact IH]. destruct t as [a|ims gs]; cbn [members] in Ht; constructor.
  - apply I. inversion Ht. assumption.
  - clear - Ht I. induction Ht; constructor; auto.
Qed.
(** without subtraction no pixel is touched, whatever the arithmetic *)
Lemma nosub_px {fo : FOps} g (items : list (item fo)) skies : length skies = length items ->
  map (fun t => map g_px (members t)) (apply_sky fo g false items skies) = map (fun t => map g_px (members t)) items.
Proof.
  unfold apply_sky. revert skies. induction items as [|t l IH]; intros [|s skies] H; cbn [combine map]; try reflexivity; [discriminate|].
  cbn [length] in H. rewrite IH by lia. f_equal. cbn [fst snd]. destruct t as [a|ims gs]; cbn [apply_one members map]; [reflexivity|]. rewrite map_map. reflexivity.
Qed.
