(** C129: sky matching and the unit of the images *)
From Coq Require Import Reals Lra.
From Verif Require Import Base BaseLemmas RBase RNBase SkyModel.

(** the image in another unit: every pixel and the recorded sky go through [h] *)
Definition unit_image {fo : FOps} (h : fo -> fo) (im : simg fo) : simg fo := {| g_id := g_id im; g_px := map h (g_px im); g_mask := g_mask im; g_sky := h (g_sky im); g_valid := g_valid im |}.
Definition unit_item {fo : FOps} (h : fo -> fo) (t : item fo) : item fo := match t with Single im => Single (unit_image h im) | Group l gs => Group (map (unit_image h) l) (h gs) end.

Section Unit.
  Variable fo : FOps.
  Variable h : fo -> fo.
  Hypothesis h0 : h (fzero fo) = fzero fo.
  Hypothesis h_add : forall a b, h (fadd fo a b) = fadd fo (h a) (h b).
  Hypothesis h_sub : forall a b, h (fsub fo a b) = fsub fo (h a) (h b).
  Hypothesis h_mulr : forall a b, h (fmul fo a b) = fmul fo (h a) b.
  Hypothesis h_mull : forall a b, h (fmul fo a b) = fmul fo a (h b).
  Hypothesis h_div : forall a b, h (fdiv fo a b) = fdiv fo (h a) b.
  Hypothesis h_lt : forall a b, flt fo (h a) (h b) = flt fo a b.
  Hypothesis h_fin : forall a, fisfinite fo (h a) = fisfinite fo a.
  Variables (area : nat -> nat -> fo) (fill : nat -> nat -> list bool) (own : nat -> fo) (stat : nat -> list fo -> option (fo * nat)).
  Variable solve : nat -> list (equation fo) -> option (list fo).
  (** the sky statistic and the least-squares solution follow the unit *)
  Hypothesis stat_h : forall i l, stat i (map h l) = option_map (fun vn => (h (fst vn), snd vn)) (stat i l).
  Hypothesis solve_h : forall n eqs, solve n (map (fun e => let '(i, j, w, f) := e in (i, j, w, h f)) eqs) = option_map (map h) (solve n eqs).
  Notation U := (unit_image h). Notation UI := (unit_item h).
  Definition tri (x : option fo * nat * fo) : option fo * nat * fo := (option_map h (fst (fst x)), snd (fst x), snd x).

  Lemma select_h m l : select fo m (map h l) = map h (select fo m l).
  Proof. unfold select. revert m. induction l as [|x l IH]; intros [|b m]; try reflexivity. cbn [map combine filter fst]. destruct b; cbn [map snd]; rewrite IH; reflexivity. Qed.
  Lemma overlap_h im ov : overlap_pixels fo area fill own (U im) ov = option_map (fun da => (map h (fst da), snd da)) (overlap_pixels fo area fill own im ov).
  Proof.
    unfold overlap_pixels. cbn [unit_image g_id g_px g_mask]. destruct ov as [ids|]; [|cbn [option_map fst snd]; rewrite select_h; reflexivity].
    destruct (isz fo _); [reflexivity|]. rewrite map_map, select_h. destruct (select fo _ (g_px im)); reflexivity.
  Qed.
  Lemma calc_image_h im ov d : calc_image fo area fill own stat (U im) ov d = tri (calc_image fo area fill own stat im ov d).
  Proof.
    unfold calc_image. rewrite overlap_h. destruct (overlap_pixels fo area fill own im ov) as [[data a]|]; [|reflexivity]. cbn [option_map fst snd unit_image g_id g_sky]. rewrite stat_h. destruct (stat (g_id im) data) as [[v n]|]; [|reflexivity].
    cbn [option_map fst snd]. rewrite h_fin. destruct (fisfinite fo v); [|reflexivity]. unfold tri. cbn [fst snd option_map]. destruct d; [rewrite h_sub|]; reflexivity.
  Qed.
  Lemma group_min_h l d : group_min fo area fill own stat (map U l) d = tri (group_min fo area fill own stat l d).
  Proof.
    unfold group_min. change (None, 0, fzero fo) with (tri (None, 0, fzero fo)) at 1. generalize (@None fo, 0, fzero fo). induction l as [|im l IH]; intro acc; [reflexivity|]. cbn [map fold_left].
    rewrite calc_image_h. rewrite <- IH. f_equal. destruct acc as [[w n0] a0]. destruct (calc_image fo area fill own stat im None d) as [[[s|] n] a]; [|reflexivity]. cbn [tri fst snd option_map]. destruct w as [w|]; [|reflexivity]. cbn [option_map]. unfold fgt. rewrite h_lt. destruct (flt fo s w); reflexivity.
  Qed.
  Lemma group_mean_h l ov d : group_mean fo area fill own stat (map U l) ov d = tri (group_mean fo area fill own stat l ov d).
  Proof.
    unfold group_mean. set (st := fun (acc : fo * nat * fo) (im : simg fo) => _).
    assert (G : forall l w n a, fold_left st (map U l) (h w, n, a) = (let '(w', n', a') := fold_left st l (w, n, a) in (h w', n', a'))).
    { clear l. induction l as [|im l IH]; intros w n a; [reflexivity|]. cbn [map fold_left]. unfold st at 2 4. rewrite calc_image_h. destruct (calc_image fo area fill own stat im (Some ov) d) as [[[s|] k] a1]; cbn [tri fst snd option_map]; [|apply IH].
      destruct (Nat.ltb 0 k); [|apply IH]. rewrite <- h_mulr, <- h_add. apply IH. }
    specialize (G l (fzero fo) 0 (fzero fo)). rewrite h0 in G. rewrite G. destruct (fold_left st l (fzero fo, 0, fzero fo)) as [[w n] a]. destruct (Nat.eqb n 0 || isz fo a); [reflexivity|]. unfold tri. cbn [fst snd option_map]. rewrite h_div. reflexivity.
  Qed.
  Lemma members_h t : members (UI t) = map U (members t). Proof. destruct t; reflexivity. Qed.
  Lemma ids_h t : map g_id (members (UI t)) = map g_id (members t).
  Proof. rewrite members_h, map_map. reflexivity. Qed.
  Lemma calc_sky_h t ov d : calc_sky fo area fill own stat (UI t) (option_map UI ov) d = tri (calc_sky fo area fill own stat t ov d).
  Proof.
    unfold calc_sky. replace (option_map (fun o => map g_id (members o)) (option_map UI ov)) with (option_map (fun o => map g_id (members o)) ov) by (destruct ov; cbn [option_map]; rewrite ?ids_h; reflexivity).
    destruct t as [im|l gs]; cbn [unit_item]; [apply calc_image_h|]. destruct (option_map _ ov); [apply group_mean_h|apply group_min_h].
  Qed.
  Definition quad (x : fo * fo * fo * fo) : fo * fo * fo * fo := let '(s1, w1, s2, w2) := x in (h s1, w1, h s2, w2).
  Lemma pair_h items d i j : pair_sky fo area fill own stat (map UI items) d i j = option_map quad (pair_sky fo area fill own stat items d i j).
  Proof.
    unfold pair_sky. rewrite !nth_error_map. destruct (nth_error items i) as [a|]; [|reflexivity]. destruct (nth_error items j) as [b|]; [|reflexivity]. cbn [option_map].
    change (Some (UI b)) with (option_map UI (Some b)). change (Some (UI a)) with (option_map UI (Some a)). rewrite !calc_sky_h.
    destruct (calc_sky fo area fill own stat a (Some b) d) as [[[s1|] w1] a1]; cbn [tri fst snd option_map]; [|reflexivity]. destruct (calc_sky fo area fill own stat b (Some a) d) as [[[s2|] w2] a2]; cbn [tri fst snd option_map]; [|reflexivity].
    destruct (isz fo a1 || isz fo a2); reflexivity.
  Qed.
  Notation row := (fun e : equation fo => let '(i, j, w, f) := e in (i, j, w, h f)).
  Lemma equations_h items d : equations fo area fill own stat (map UI items) d = map row (equations fo area fill own stat items d).
  Proof.
    unfold equations. rewrite map_length. induction (pairs (length items)) as [|[i j] l IH]; [reflexivity|]. cbn [flat_map]. rewrite map_app, IH. f_equal. rewrite pair_h.
    destruct (pair_sky fo area fill own stat items d i j) as [[[[s1 w1] s2] w2]|]; [|reflexivity]. cbn [option_map quad]. destruct (_ && _); [|reflexivity]. cbn [map]. rewrite h_mull, h_sub. reflexivity.
  Qed.
  Lemma mentioned_h eqs k : mentioned fo (map row eqs) k = mentioned fo eqs k.
  Proof. unfold mentioned. induction eqs as [|[[[i j] w] f] l IH]; [reflexivity|]. cbn [map existsb]. rewrite IH. reflexivity. Qed.
  Lemma deltas_h items d : deltas fo area fill own stat solve (map UI items) d = map (option_map h) (deltas fo area fill own stat solve items d).
  Proof.
    unfold deltas. rewrite equations_h, map_length, solve_h. destruct (solve (length items) _) as [xs|]; cbn [option_map]; [|rewrite !map_map; apply map_ext; reflexivity].
    rewrite map_map. apply map_ext. intro k. rewrite mentioned_h. replace (nth k (map h xs) (fzero fo)) with (h (nth k xs (fzero fo))) by (rewrite <- h0 at 2; symmetry; apply map_nth). rewrite h_fin. destruct (_ && _); reflexivity.
  Qed.
  Lemma finite_h l : finite_ones fo (map (option_map h) l) = map h (finite_ones fo l).
  Proof. unfold finite_ones. induction l as [|[x|] l IH]; [reflexivity| |exact IH]. cbn [map flat_map option_map app]. rewrite IH. reflexivity. Qed.
  Lemma refsky_h down l : refsky fo down (map h l) = option_map h (refsky fo down l).
  Proof.
    destruct l as [|x l]; [reflexivity|]. cbn [map refsky option_map]. f_equal. revert x. induction l as [|y l IH]; intro x; [reflexivity|]. cbn [map fold_left]. rewrite <- IH. f_equal. destruct down; rewrite h_lt; [destruct (flt fo y x)|destruct (flt fo x y)]; reflexivity.
  Qed.
  Lemma anchored_h down l : anchored fo down (map (option_map h) l) = map (option_map h) (anchored fo down l).
  Proof.
    unfold anchored. rewrite finite_h, refsky_h. destruct (refsky fo down (finite_ones fo l)) as [r|]; [|reflexivity]. cbn [option_map]. rewrite !map_map. apply map_ext. intros [x|]; [|reflexivity]. cbn [option_map]. rewrite <- h_sub, h_fin. destruct (fisfinite fo _); reflexivity.
  Qed.
  Lemma apply_one_h g sub t s : apply_one fo g sub (UI t) (option_map h s) = UI (apply_one fo g sub t s).
  Proof.
    unfold apply_one. set (s0 := match s with Some s => s | None => fzero fo end). replace (match option_map h s with Some s => s | None => fzero fo end) with (h s0) by (unfold s0; destruct s; [reflexivity|exact h0]).
    replace (match members (UI t) with im :: _ => g_valid im | [] => false end) with (match members t with im :: _ => g_valid im | [] => false end) by (rewrite members_h; destruct (members t); reflexivity).
    replace (match option_map h s with Some _ => true | None => if g then match members t with im :: _ => g_valid im | [] => false end else false end) with (match s with Some _ => true | None => if g then match members t with im :: _ => g_valid im | [] => false end else false end) by (destruct s; reflexivity).
    assert (P : forall l, shift_px fo sub (h s0) (map h l) = map h (shift_px fo sub s0 l)) by (intro l; unfold shift_px; destruct sub; [rewrite !map_map; apply map_ext; intro; symmetry; apply h_sub|reflexivity]).
    destruct t as [im|l gs]; cbn [unit_item unit_image g_id g_px g_mask g_sky].
    - unfold unit_image. cbn [g_id g_px g_mask g_sky g_valid]. rewrite P, h_add. reflexivity.
    - rewrite h_add. f_equal. rewrite !map_map. apply map_ext. intro im. unfold unit_image. cbn [g_id g_px g_mask g_sky g_valid]. rewrite P, h_add, h_sub, h_add. reflexivity.
  Qed.
  Lemma apply_h g sub items skies : apply_sky fo g sub (map UI items) (map (option_map h) skies) = map UI (apply_sky fo g sub items skies).
  Proof. unfold apply_sky. revert skies. induction items as [|t l IH]; intros [|s skies]; try reflexivity. cbn [map combine fst snd]. rewrite apply_one_h, IH. reflexivity. Qed.
  Lemma measured_h sub items : measured fo area fill own stat sub (map UI items) = map (option_map h) (measured fo area fill own stat sub items).
  Proof. unfold measured. rewrite !map_map. apply map_ext. intro t. change (@None (item fo)) with (option_map UI None). rewrite calc_sky_h. reflexivity. Qed.
  Lemma global_min_h l : global_min fo (map (option_map h) l) = option_map (option_map h) (global_min fo l).
  Proof.
    unfold global_min. set (st := fun (m s : option fo) => _).
    assert (G : forall l m, foldM st (map (option_map h) l) (option_map h m) = option_map (option_map h) (foldM st l m)); [|exact (G l None)].
    clear l. induction l as [|s l IH]; intro m; [reflexivity|]. cbn [map foldM]. unfold st at 1 3. destruct m as [a|]; cbn [option_map]; [|apply IH].
    destruct s as [b|]; cbn [option_map]; [|reflexivity]. rewrite h_lt. destruct (flt fo b a); [apply (IH (Some b))|apply (IH (Some a))].
  Qed.
  Lemma skymatch_h dm dg down sub items : skymatch fo area fill own stat solve dm dg down sub (map UI items) = option_map (map UI) (skymatch fo area fill own stat solve dm dg down sub items).
  Proof.
    unfold skymatch. replace (length (flat_map members (map UI items))) with (length (flat_map members items)).
    2:{ induction items as [|t l IH]; [reflexivity|]. cbn [map flat_map]. rewrite !app_length, IH, members_h, map_length. reflexivity. }
    destruct (Nat.eqb _ 0); [reflexivity|].
    set (it := if dm then apply_sky fo false sub items (anchored fo down (deltas fo area fill own stat solve items (negb sub))) else items).
    replace (if dm then apply_sky fo false sub (map UI items) (anchored fo down (deltas fo area fill own stat solve (map UI items) (negb sub))) else map UI items) with (map UI it) by (unfold it; destruct dm; [rewrite deltas_h, anchored_h, apply_h|]; reflexivity).
    destruct (dg || negb dm); [|reflexivity]. rewrite measured_h. destruct dg.
    - rewrite global_min_h. destruct (global_min fo (measured fo area fill own stat sub it)) as [m|]; [|reflexivity]. cbn [option_map bind]. f_equal. rewrite <- apply_h. f_equal. rewrite !map_map. reflexivity.
    - cbn [option_map bind]. rewrite apply_h. reflexivity.
  Qed.
End Unit.

(** ** The unit: all images multiplied by a positive factor *)
Local Open Scope R_scope.
Definition times_sky (u : R) (x : RN) : RN := option_map (Rmult u) (x : option R).
Definition follows_unit (u : R) (stat : nat -> list RN -> option (RN * nat)) : Prop := forall i l, stat i (map (times_sky u) l) = match stat i l with Some (v, n) => Some (times_sky u v, n) | None => None end.
Definition solution_follows_unit (u : R) (solve : nat -> list (nat * nat * RN * RN) -> option (list RN)) : Prop :=
  forall n eqs, solve n (map (fun e => (fst e, times_sky u (snd e))) eqs) = match solve n eqs with Some xs => Some (map (times_sky u) xs) | None => None end.
(** Whatever the method: in another unit the same images are valid, and pixels and skies are the former ones in that unit.  Missing pixels are allowed. *)
Theorem C129_unit : forall (u : R) area fill own stat solve dm dg down sub (items : list (item RN)), 0 < u -> follows_unit u stat -> solution_follows_unit u solve ->
  skymatch RN area fill own stat solve dm dg down sub (map (unit_item (times_sky u)) items) = option_map (map (unit_item (times_sky u))) (skymatch RN area fill own stat solve dm dg down sub items).
Proof.
  intros u area fill own stat solve dm dg down sub items U S V. apply skymatch_h.
  - cbn. f_equal. ring.
  - intros [a|] [b|]; try reflexivity. cbn. f_equal. ring.
  - intros [a|] [b|]; try reflexivity. cbn. f_equal. ring.
  - intros [a|] [b|]; try reflexivity. cbn. f_equal. ring.
  - intros [a|] [b|]; try reflexivity. cbn. f_equal. ring.
  - intros [a|] [b|]; try reflexivity. cbn. destruct (Reqb b 0); [reflexivity|]. cbn. f_equal. unfold Rdiv. ring.
  - intros [a|] [b|]; try reflexivity. cbn. apply eq_iff_eq_true. rewrite !Rltb_spec. split; nra.
  - intros [a|]; reflexivity.
  - intros i l. rewrite S. destruct (stat i l) as [[v n]|]; reflexivity.
  - intros n eqs. rewrite <- (map_ext (fun e : equation RN => (fst e, times_sky u (snd e)))) by (intros [[[i j] w] f]; reflexivity). rewrite V. destruct (solve n eqs); reflexivity.
Qed.
Print Assumptions C129_unit.
(** Two images of one pixel each, 5 and a missing value in the first, with the first pixel as the statistic: the local skies in units of 1/10 are ten times as large. *)
Example C129_ex : let stat := fun (_ : nat) (l : list RN) => match l with [] => None | v :: _ => Some (v, length l) end in let solve := fun (_ : nat) (_ : list (nat * nat * RN * RN)) => None in
  let im i p q : item RN := Single {| g_id := i; g_px := [p; q]; g_mask := [true; true]; g_sky := (Some 0 : RN); g_valid := false |} in let items := [im 0%nat (Some 5 : RN) (None : RN); im 1%nat (Some 7 : RN) (Some 8 : RN)] in
  follows_unit 10 stat /\ solution_follows_unit 10 solve /\
  exists out, skymatch RN (fun _ _ => Some 1 : RN) (fun _ _ => [true; true]) (fun _ => Some 1 : RN) stat solve false false true false items = Some out /\ map (fun t => map g_sky (members t)) out = [[Some 5 : RN]; [Some 7 : RN]].
Proof.
  intros stat solve im items. split; [intros i [|v l]; [reflexivity|cbn; rewrite map_length; reflexivity]|]. split; [intros n eqs; reflexivity|]. eexists. split; [reflexivity|]. cbn. repeat (f_equal; try lra).
Qed.

(** ** A constant added to the images of one input: the local method with subtraction gives the same pixels and a sky that is larger by it *)
Definition plus_sky (b : R) (x : RN) : RN := option_map (fun v => v + b) (x : option R).
Definition brighter_image (b : R) (im : simg RN) : simg RN := {| g_id := g_id im; g_px := map (plus_sky b) (g_px im); g_mask := g_mask im; g_sky := g_sky im; g_valid := g_valid im |}.
Definition brighter (b : R) (t : item RN) : item RN := match t with Single im => Single (brighter_image b im) | Group l gs => Group (map (brighter_image b) l) gs end.
Definition follows_shift (stat : nat -> list RN -> option (RN * nat)) : Prop := forall b i l, stat i (map (plus_sky b) l) = match stat i l with Some (v, n) => Some (plus_sky b v, n) | None => None end.
(** the images of [t'] hold the pixels of [t] and a sky larger by [b] *)
Definition same_but_sky (b : R) (t t' : item RN) : Prop := Forall2 (fun im im' => g_id im' = g_id im /\ g_px im' = g_px im /\ g_mask im' = g_mask im /\ g_sky im' = plus_sky b (g_sky im) /\ g_valid im = true /\ g_valid im' = true) (members t) (members t').
Definition unmeasured (t : item RN) : Prop := Forall (fun im => g_valid im = false) (members t).

Section Shift.
  Variables (area : nat -> nat -> RN) (fill : nat -> nat -> list bool) (own : nat -> RN) (stat : nat -> list RN -> option (RN * nat)).
  Hypothesis stat_b : follows_shift stat.
  Notation ci := (calc_image RN area fill own stat).
  Lemma plus_lt b (x y : RN) : flt RN (plus_sky b x) (plus_sky b y) = flt RN x y.
  Proof. destruct x as [x|], y as [y|]; try reflexivity. cbn. apply eq_iff_eq_true. rewrite !Rltb_spec. split; lra. Qed.
  Lemma select_b m (l : list RN) b : select RN m (map (plus_sky b) l) = map (plus_sky b) (select RN m l).
  Proof. unfold select. revert m. induction l as [|x l IH]; intros [|c m]; try reflexivity. cbn [map combine filter fst]. destruct c; cbn [map snd]; rewrite IH; reflexivity. Qed.
  Lemma image_b b im : ci (brighter_image b im) None false = (let '(s, n, a) := ci im None false in (option_map (plus_sky b) s, n, a)).
  Proof.
    unfold calc_image. cbn [overlap_pixels brighter_image g_id g_px g_mask]. rewrite select_b, stat_b. destruct (stat (g_id im) _) as [[v n]|]; [|reflexivity]. destruct v; reflexivity.
  Qed.
  Lemma local_b b t : fst (fst (calc_sky RN area fill own stat (brighter b t) None false)) = option_map (plus_sky b) (fst (fst (calc_sky RN area fill own stat t None false))).
  Proof.
    destruct t as [im|l gs]; cbn [brighter calc_sky option_map]; [rewrite image_b; destruct (ci im None false) as [[s n] a]; reflexivity|].
    unfold group_min. set (st := fun (acc : option RN * nat * RN) (im : simg RN) => _).
    assert (G : forall l w n a, fold_left st (map (brighter_image b) l) (option_map (plus_sky b) w, n, a) = (let '(w', n', a') := fold_left st l (w, n, a) in (option_map (plus_sky b) w', n', a'))).
    { clear l. induction l as [|im l IH]; intros w n a; [reflexivity|]. cbn [map fold_left]. unfold st at 2 4. rewrite image_b. destruct (ci im None false) as [[[s|] k] a1]; cbn [option_map]; [|apply IH].
      destruct w as [w|]; cbn [option_map]; [|apply (IH (Some s))]. unfold fgt. rewrite plus_lt. destruct (flt RN s w); [apply (IH (Some s))|apply (IH (Some w))]. }
    pose proof (G l None 0%nat (fzero RN)) as G0. cbn [option_map] in G0. rewrite G0. destruct (fold_left st l (None, 0%nat, fzero RN)) as [[w n] a]. reflexivity.
  Qed.
End Shift.
Lemma Forall2_maps {A B C} (P : B -> C -> Prop) (f : A -> B) (g : A -> C) l : (forall x, In x l -> P (f x) (g x)) -> Forall2 P (map f l) (map g l).
Proof. induction l as [|x l IH]; intro H; constructor; [apply H; left; reflexivity|apply IH; intros y I; apply H; right; exact I]. Qed.
Theorem C129_local : forall area fill own stat solve down (l : list (item RN * R)), follows_shift stat -> flat_map members (map fst l) <> [] -> Forall (fun tb : item RN * R => match fst tb with Group _ gs => gs <> (None : RN) | _ => True end) l ->
  exists out out', skymatch RN area fill own stat solve false false down true (map fst l) = Some out /\ skymatch RN area fill own stat solve false false down true (map (fun tb => brighter (snd tb) (fst tb)) l) = Some out' /\
    length out = length l /\ length out' = length l /\
    forall k t b, nth_error l k = Some (t, b) -> exists u u', nth_error out k = Some u /\ nth_error out' k = Some u' /\ (same_but_sky b u u' \/ (unmeasured u /\ unmeasured u')).
Proof.
  intros area fill own stat solve down l S NE GS. set (sky := fun t => fst (fst (calc_sky RN area fill own stat t None false))).
  exists (map (fun tb => apply_one RN false true (fst tb) (sky (fst tb))) l), (map (fun tb => apply_one RN false true (brighter (snd tb) (fst tb)) (sky (brighter (snd tb) (fst tb)))) l).
  assert (AP : forall its, apply_sky RN false true its (measured RN area fill own stat true its) = map (fun t => apply_one RN false true t (sky t)) its).
  { intro its. unfold apply_sky, measured. cbn [negb]. fold sky. induction its as [|t its IH]; [reflexivity|]. cbn [map combine fst snd]. rewrite IH. reflexivity. }
  assert (ME : forall b t, length (members (brighter b t)) = length (members t)) by (intros b [im|ims gs]; cbn [brighter members]; [reflexivity|apply map_length]).
  assert (LN : length (flat_map members (map (fun tb : item RN * R => brighter (snd tb) (fst tb)) l)) = length (flat_map members (map fst l))).
  { clear NE GS. induction l as [|[t b] l IH]; [reflexivity|]. cbn [map flat_map fst snd]. rewrite !app_length, IH, ME. reflexivity. }
  assert (L0 : length (flat_map members (map fst l)) <> 0%nat) by (destruct (flat_map members (map fst l)); [congruence|discriminate]).
  split; [|split; [|split; [apply map_length|split; [apply map_length|]]]].
  - unfold skymatch. rewrite (proj2 (Nat.eqb_neq _ _) L0). cbn [orb negb bind]. rewrite AP, map_map. reflexivity.
  - unfold skymatch. rewrite LN, (proj2 (Nat.eqb_neq _ _) L0). cbn [orb negb bind]. rewrite AP, map_map. reflexivity.
  - intros k t b K. rewrite !nth_error_map, K. cbn [option_map fst snd]. eexists _, _. split; [reflexivity|]. split; [reflexivity|]. unfold sky at 2 4. rewrite (local_b area fill own stat S b t). fold (sky t).
    rewrite Forall_forall in GS. specialize (GS _ (nth_error_In _ _ K)). cbn [fst] in GS.
    destruct (sky t) as [s|]; cbn [option_map].
    + left. unfold same_but_sky, apply_one. assert (PX : forall px, map (fun p => fsub RN p (plus_sky b s)) (map (plus_sky b) px) = map (fun p => fsub RN p s) px).
      { intro px. rewrite map_map. apply map_ext. intros [p|]; destruct s as [s|]; try reflexivity. cbn. f_equal. ring. }
      destruct t as [im|ims gs]; cbn [brighter members].
      * constructor; [|constructor]. cbn [g_id g_px g_mask g_sky g_valid brighter_image shift_px]. rewrite PX. repeat split. destruct (g_sky im : option R) as [v|], s as [s|]; try reflexivity. cbn. f_equal. ring.
      * rewrite map_map. apply Forall2_maps. intros im _. cbn [g_id g_px g_mask g_sky g_valid brighter_image shift_px]. rewrite PX. repeat split. change (F RN) with (option R) in *. destruct (g_sky im) as [v|], s as [s|], gs as [g|]; try reflexivity; try congruence. cbn. f_equal. ring.
    + right. unfold unmeasured, apply_one. destruct t as [im|ims gs]; cbn [brighter members]; split; try (constructor; [reflexivity|constructor]); apply Forall_forall; intros x I; apply in_map_iff in I; destruct I as (y & <- & _); reflexivity.
Qed.
Print Assumptions C129_local.
Example C129_local_ex : let stat := fun (_ : nat) (l : list RN) => match l with [] => None | v :: _ => Some (v, length l) end in follows_shift stat /\
  flat_map members (map fst [(Single {| g_id := 0; g_px := [Some 5 : RN; None : RN]; g_mask := [true; true]; g_sky := (Some 0 : RN); g_valid := false |}, 3)]) <> [].
Proof. intro stat. split; [|discriminate]. intros b i [|v l]; [reflexivity|]. cbn. rewrite map_length. reflexivity. Qed.
