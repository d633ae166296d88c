(** Theorems about sky matching (C41-C43, C77-C79). *)
From Verif Require Import Base BaseLemmas FLaws RBase SkyModel SkySpec SkyProofs SkySim.
From Coq Require Import Reals Lra Lia SpecFloat.
Local Open Scope R_scope.

(** ** C41 *)
(** For every geometry, statistic and solver: matching changes every input by one offset (all members of a group alike;
    the pixels too when subtracting), offsets are one-sided, at least one is exactly zero, and the inputs without a usable
    overlap (all of them when the solver gives up) get none and are marked invalid. *)
Theorem C41_match : forall area fill own stat solve down sub items out,
  skymatch RF area fill own stat solve true false down sub items = Some out ->
  exists off : list (option RF), length off = length items /\ length out = length items /\
  (forall k t o, nth_error items k = Some t -> nth_error off k = Some o -> exists t', nth_error out k = Some t' /\ item_changed sub o t t') /\
  (forall k x, nth_error off k = Some (Some x) -> if down then 0 <= x else x <= 0) /\
  ((exists k x, nth_error off k = Some (Some x)) -> exists k, nth_error off k = Some (Some 0)) /\
  (forall k, (k < length items)%nat ->
     (nth_error off k = Some None <-> solve (length items) (equations RF area fill own stat items (negb sub)) = None \/ ~ exists j, overlapping area fill own stat items (negb sub) k j)).
Proof.
  intros area fill own stat solve down sub items out H. unfold skymatch in H. destruct (Nat.eqb _ 0); [discriminate|]. cbn [orb negb] in H. injection H as <-.
  set (dl := deltas RF area fill own stat solve items (negb sub)). exists (anchored RF down dl).
  assert (Ld : length dl = length items) by apply deltas_length.
  split; [rewrite anchored_length; exact Ld|]. split; [apply apply_length; rewrite anchored_length; exact Ld|].
  split; [|split; [apply anchored_sign|split]].
  - intros k t o Ht Ho. exists (apply_one RF false sub t o). split; [rewrite apply_nth, Ht, Ho; reflexivity|apply apply_changed; auto].
  - intros [k [x Hx]]. destruct (anchored_nth down dl k) as [r [E _]]. rewrite E in Hx. destruct (@nth_error (option R) dl k) as [[y|]|] eqn:N; try discriminate. exact (anchored_zero down dl k y N).
  - intros k Hk. destruct (anchored_nth down dl k) as [r [E _]]. rewrite E. unfold dl. pose proof (deltas_nth area fill own stat solve items (negb sub) k Hk) as Dn. change (F RF) with R in *. rewrite Dn.
    destruct (solve _ _) as [xs|] eqn:Sv.
    + destruct (mentioned RF _ k) eqn:M; cbn [option_map].
      * apply mentioned_iff in M. split; [discriminate|]. intros [Q|Q]; [discriminate|contradiction].
      * split; [|reflexivity]. intros _. right. intro Q. apply (mentioned_iff area fill own stat) in Q. congruence.
    + cbn [option_map]. split; [auto|reflexivity].
Qed.
Print Assumptions C41_match.
(** three images 5, 3 and 4 pixels wide in one row: 0 and 1 overlap, 2 is alone *)
Definition exi (id : nat) (px : list R) (sky : R) : simg RF := @Build_simg RF id px (map (fun _ => true) px) sky false.
Definition ex_area (i j : nat) : R := if (Nat.ltb i 2 && Nat.ltb j 2)%bool then 1 else 0.
Definition ex_fill (i j : nat) : list bool := [false; true; true].
(** the statistic: the first pixel's value and the count *)
Definition ex_stat (id : nat) (l : list R) : option (R * nat) := match l with [] => None | x :: _ => Some (x, length l) end.
(** exact solution for the one equation w x_0 - w x_1 = f *)
Definition ex_solve (n : nat) (eqs : list (equation RF)) : option (list R) :=
  match eqs with [(_, _, w, f)] => Some [f / w / 2; - (f / w / 2); 0] | _ => None end.
Definition ex_items : list (item RF) := [Single (exi 0 [1; 7; 7] 0); Group [exi 1 [2; 3; 3] 0] 0; Single (exi 2 [9; 9; 9] 0)].
Lemma ex_equations d : equations RF ex_area ex_fill (fun _ => 1) ex_stat ex_items d = [(0%nat, 1%nat, 1 / 2 * (2 + 2), 1 / 2 * (2 + 2) * ((if d then 7 - 0 else 7) - ((0 + (if d then 3 - 0 else 3) * 2) / 2)))].
Proof.
  assert (P : fgt RF (fofZ RF 2) (fzero RF) = true) by (apply (pos_count 2); lia).
  unfold equations, pairs, ex_items. cbn [length seq flat_map map Nat.sub app]. unfold pair_sky, calc_sky, group_mean, calc_image, overlap_pixels, ex_area.
  repeat (cbn -[isz]; match goal with |- context[isz RF ?x] => first [rewrite (proj2 (isz_R x)) by (cbn; lra) | rewrite (proj2 (isz_false x)) by (cbn; lra)] end). 
  cbn -[isz]. change (Rltb 0 2) with (fgt RF (fofZ RF 2) (fzero RF)). rewrite P. reflexivity.
Qed.
Definition skies (out : list (item RF)) : list (list R) := map (fun t => map (fun m : simg RF => g_sky m) (members t)) out.
Definition valids (out : list (item RF)) : list (list bool) := map (fun t => map (fun m : simg RF => g_valid m) (members t)) out.
Lemma ex_deltas : anchored RF true (deltas RF ex_area ex_fill (fun _ => 1) ex_stat ex_solve ex_items true) = [Some 4; Some 0; None].
Proof.
  unfold deltas. rewrite ex_equations. unfold ex_solve. cbn [length ex_items seq map mentioned existsb Nat.eqb orb andb fisfinite RF nth].
  match goal with |- context[Some (1 / 2 * (2 + 2) * ?e / ?w / 2)] => replace (1 / 2 * (2 + 2) * e / w / 2) with 2 by (cbn [fzero RF]; field) end.
  unfold anchored, finite_ones, refsky. cbn [flat_map app fold_left flt RF]. rewrite (proj2 (Rltb_spec (- (2)) 2)) by lra. cbn [map fsub RF fisfinite].
  repeat f_equal; lra.
Qed.
Example C41_ex : exists out, skymatch RF ex_area ex_fill (fun _ => 1) ex_stat ex_solve true false true false ex_items = Some out /\ skies out = [[4]; [0]; [0]] /\ valids out = [[true]; [true]; [false]].
Proof.
  eexists. split; [reflexivity|]. cbn [negb]. rewrite ex_deltas. cbn. split; [|reflexivity]. repeat f_equal; lra.
Qed.

(** ** C42 *)
(** With fresh images (sky 0, as constructed) all of whose skies can be measured, 'global' gives every image the smallest
    measured value; with or without subtraction. *)
Theorem C42_global : forall area fill own stat solve down sub items,
  fresh items -> flat_map members items <> [] ->
  Forall (fun t => exists v, fst (fst (calc_sky RF area fill own stat t None (negb sub))) = Some v) items ->
  exists out m, skymatch RF area fill own stat solve false true down sub items = Some out /\
    In (Some m) (measured RF area fill own stat sub items) /\ (forall x, In (Some x) (measured RF area fill own stat sub items) -> m <= x) /\
    length out = length items /\
    forall t, In t out -> forall im, In im (members t) -> g_sky im = m /\ g_valid im = true.
Proof.
  intros area fill own stat solve down sub items Fr Ne All. unfold skymatch.
  destruct (Nat.eqb_spec (length (flat_map members items)) 0) as [Z|_]; [apply length_zero_iff_nil in Z; contradiction|]. cbn [orb negb].
  set (ms := measured RF area fill own stat sub items).
  assert (NN : ~ In None ms).
  { intro I. unfold ms, measured in I. apply in_map_iff in I. destruct I as [t [E I]]. rewrite Forall_forall in All. destruct (All t I) as [v V]. congruence. }
  assert (N : ms <> []) by (unfold ms, measured; destruct items; [cbn in Ne; congruence|discriminate]).
  destruct (global_min RF ms) as [r|] eqn:G.
  2:{ exfalso. unfold global_min in G. destruct ms as [|[a|] l]; [congruence| |apply NN; left; reflexivity]. cbn [foldM bind] in G.
      apply (proj1 (gm_some RF_laws l a)) in G. apply NN. right. exact G. }
  assert (M : exists m, r = Some m /\ In (Some m) ms /\ forall x : R, In (Some x) ms -> (m : R) <= x).
  { unfold global_min in G. destruct ms as [|[a|] l]; [congruence| |exfalso; apply NN; left; reflexivity]. cbn [foldM bind] in G.
    destruct (proj2 (gm_some RF_laws l a) r G) as [m [E [I B]]]. exists m. split; [exact E|]. split; [exact I|].
    intros x Hx. specialize (B x Hx eq_refl eq_refl). cbn [flt RF] in B. apply Rnot_lt_le. intro Q. apply (proj2 (Rltb_spec _ _)) in Q. congruence. }
  destruct M as [m [-> [I B]]]. cbn [bind]. eexists _, m. split; [reflexivity|]. split; [exact I|]. split; [exact B|].
  split; [apply apply_length; rewrite map_length; unfold ms, measured; apply map_length|].
  intros t Ht im Him. apply In_nth_error in Ht. destruct Ht as [k Hk]. rewrite apply_nth in Hk.
  destruct (nth_error items k) as [t0|] eqn:T0; [|discriminate]. rewrite nth_error_map in Hk. destruct (nth_error ms k) as [z|]; [|discriminate]. cbn [option_map] in Hk. injection Hk as <-.
  pose proof (apply_changed true sub t0 (Some m) ltac:(discriminate)) as Ch. unfold item_changed in Ch.
  unfold fresh in Fr. rewrite Forall_forall in Fr. specialize (Fr t0 (nth_error_In _ _ T0)).
  assert (GG : forall l l' : list (simg RF), Forall2 (image_changed sub true m) l l' -> Forall (fun m0 : simg RF => g_sky m0 = 0) l -> In im l' -> g_sky im = m /\ g_valid im = true); [|exact (GG _ _ Ch Fr Him)].
  clear. intros l l' Ch Fr Him.
  induction Ch as [|a b l l' C Ch IH]; [destruct Him|]. inversion Fr as [|? ? F1 F2]. destruct Him as [<-|Him]; [|apply IH; assumption].
  destruct C as (_ & _ & V & E & _). split; [rewrite E, F1; eqS; ring|exact V].
Qed.
Print Assumptions C42_global.
(** Any arithmetic: the call raises exactly when an input without measurable sky comes after one with. *)
Theorem C42_raises_iff : forall fo area fill own stat solve down sub items, FLaws fo -> flat_map members items <> [] ->
  let ms := measured fo area fill own stat sub items in
  skymatch fo area fill own stat solve false true down sub items = None <->
  exists i j v, (i < j)%nat /\ nth_error ms i = Some (Some v) /\ nth_error ms j = Some None.
Proof.
  intros fo area fill own stat solve down sub items L Ne ms. unfold skymatch.
  destruct (Nat.eqb_spec (length (flat_map members items)) 0) as [Z|_]; [apply length_zero_iff_nil in Z; contradiction|]. cbn [orb negb]. fold ms.
  assert (G : global_min fo ms = None <-> exists i j v, (i < j)%nat /\ nth_error ms i = Some (Some v) /\ nth_error ms j = Some None).
  { clear - L. unfold global_min. induction ms as [|[a|] l IH].
    - cbn. split; [discriminate|]. intros (i & j & v & _ & A & _). destruct i; discriminate.
    - cbn [foldM bind]. rewrite (proj1 (gm_some L l a)). split.
      + intro I. apply In_nth_error in I. destruct I as [k K]. exists 0%nat, (S k), a. split; [lia|]. split; [reflexivity|exact K].
      + intros (i & j & v & H & _ & B). destruct j as [|j]; [lia|]. eapply nth_error_In, B.
    - cbn [foldM bind]. rewrite IH. split.
      + intros (i & j & v & H & A & B). exists (S i), (S j), v. split; [lia|]. split; assumption.
      + intros (i & j & v & H & A & B). destruct i as [|i]; [discriminate|]. destruct j as [|j]; [lia|]. exists i, j, v. split; [lia|]. split; assumption. }
  rewrite <- G. destruct (global_min fo ms); cbn [bind]; split; intro Q; congruence || discriminate || reflexivity.
Qed.
Print Assumptions C42_raises_iff.
(** so the order of the inputs matters: an image without usable pixels is accepted before a good one, not after it *)
Definition b64img (id : nat) (ok : bool) (v : Z) : item B64 := Single (@Build_simg B64 id [fofZ B64 v] [ok] (fofZ B64 0) false).
Theorem C42_order_refuted : exists stat (a b : item B64),
  let run l := skymatch B64 (fun _ _ => fofZ B64 0) (fun _ _ => []) (fun _ => fofZ B64 1) stat (fun _ _ => None) false true true false l in
  (match run [a; b] with Some _ => true | None => false end) = true /\ (match run [b; a] with Some _ => true | None => false end) = false.
Proof.
  exists (fun _ l => match l with [] => None | x :: _ => Some (x, 1%nat) end), (b64img 0 false 5), (b64img 1 true 7). vm_compute. auto.
Qed.
Print Assumptions C42_order_refuted.
Example C42_ex : exists out, skymatch RF ex_area ex_fill (fun _ => 1) ex_stat ex_solve false true true true ex_items = Some out /\ length out = 3%nat /\ forall t, In t out -> forall im : simg RF, In im (members t) -> g_sky im = 1 /\ g_valid im = true.
Proof.
  destruct (C42_global ex_area ex_fill (fun _ => 1) ex_stat ex_solve true true ex_items) as (out & m & H & I & B & L & A).
  - repeat constructor.
  - discriminate.
  - repeat constructor; eexists; reflexivity.
  - exists out. split; [exact H|]. split; [exact L|]. cbn in I, B.
    assert (m = 1). { pose proof (B 1 (or_introl eq_refl)). destruct I as [E|[E|[E|[]]]]; injection E as E; lra. }
    subst m. exact A.
Qed.
