(** Which pixels a sky measurement uses (C80). *)
From Verif Require Import Base BaseLemmas FLaws RBase SkyModel SkySpec SkyProofs SkySim SkyProps.
From Coq Require Import Reals Lra Lia.
Local Open Scope R_scope.

Lemma ored_length a b : length a = length b -> length (ored a b) = length a.
Proof. intro H. unfold ored. rewrite map_length, combine_length. lia. Qed.
Lemma ored_nth a b k : length a = length b -> nth k (ored a b) false = nth k a false || nth k b false.
Proof. revert b k. unfold ored. induction a as [|x a IH]; intros [|y b] [|k] H; cbn in *; try discriminate; try reflexivity. apply IH. lia. Qed.
Lemma anded_nth a b k : length a = length b -> nth k (anded a b) false = nth k a false && nth k b false.
Proof. revert b k. unfold anded. induction a as [|x a IH]; intros [|y b] [|k] H; cbn in *; try discriminate; try reflexivity. apply IH. lia. Qed.
Lemma anded_length a b : length a = length b -> length (anded a b) = length a.
Proof. intro H. unfold anded. rewrite map_length, combine_length. lia. Qed.
Lemma filter_ext_seq (f g : nat -> bool) a n : (forall k, f k = g k) -> filter f (seq a n) = filter g (seq a n).
Proof. intro H. apply filter_ext. exact H. Qed.
Lemma select_pos m (l : list R) : length m = length l -> select RF m l = pick l (filter (fun k => nth k m false) (seq 0 (length l))).
Proof.
  revert m. induction l as [|x l IH]; intros [|b m] H; try discriminate; [reflexivity|]. cbn [length] in *. change (seq 0 (S (length l))) with (0%nat :: seq 1 (length l)).
  rewrite <- seq_shift. unfold select in *. cbn [combine filter fst]. specialize (IH m ltac:(lia)).
  assert (E : pick (x :: l) (filter (fun k => nth k (b :: m) false) (map S (seq 0 (length l)))) = pick l (filter (fun k => nth k m false) (seq 0 (length l)))).
  { generalize (seq 0 (length l)). intro ks. induction ks as [|k ks IK]; [reflexivity|]. cbn [map filter nth]. destruct (nth k m false); [|exact IK]. unfold pick in *. cbn [map nth]. f_equal. exact IK. }
  cbn [filter nth]. destruct b; cbn [map snd]; [unfold pick at 1; cbn [map nth]; f_equal|]; rewrite IH, <- E; reflexivity.
Qed.
Section Px.
  Variables (area : nat -> nat -> R) (fill : nat -> nat -> list bool) (own : nat -> R) (stat : nat -> list R -> option (R * nat)).
  Variable im : simg RF.
  Let n := length (g_px im).
  Hypothesis Lm : length (g_mask im) = n.
  Lemma ored_all ids : (forall o, In o ids -> length (fill (g_id im) o) = n) -> forall m, length m = n ->
    let r := fold_left (fun m o => ored m (fill (g_id im) o)) ids m in
    length r = n /\ forall k, nth k r false = nth k m false || existsb (fun r => nth k r false) (map (fill (g_id im)) ids).
  Proof.
    induction ids as [|o ids IH]; intros H m Hm; cbn [fold_left map existsb].
    - split; [exact Hm|]. intro k. rewrite orb_false_r. reflexivity.
    - assert (E : length m = length (fill (g_id im) o)) by (rewrite H by (left; reflexivity); exact Hm).
      destruct (IH ltac:(intros; apply H; right; assumption) (ored m (fill (g_id im) o))) as [A B]; [rewrite ored_length; assumption|].
      split; [exact A|]. intro k. rewrite B, ored_nth by exact E. rewrite orb_assoc. reflexivity.
  Qed.
  Lemma area_sum l (a : R) : fold_left (fun s o => fadd RF s (area (g_id im) o)) l a = a + Rsum (map (area (g_id im)) l).
  Proof. revert a. induction l as [|o l IH]; intro a; cbn [fold_left map Rsum fold_right]; [lra|]. rewrite IH. cbn [fadd RF]. change (fold_right Rplus 0) with Rsum. lra. Qed.
  Definition near (ids : list nat) : list nat := filter (fun o => negb (Reqb (area (g_id im) o) 0)) ids.
  Lemma near_sum ids : Rsum (map (area (g_id im)) (near ids)) = Rsum (map (area (g_id im)) ids).
  Proof.
    unfold near. induction ids as [|o l IH]; [reflexivity|]. cbn [filter map Rsum fold_right]. change (fold_right Rplus 0) with Rsum. rewrite <- IH.
    destruct (Reqb (area (g_id im) o) 0) eqn:E; cbn [negb]; [apply Reqb_spec in E; rewrite E; lra|reflexivity].
  Qed.
  Lemma near_zero ids : (forall o, In o ids -> 0 <= area (g_id im) o) -> Rsum (map (area (g_id im)) (near ids)) = 0 -> near ids = [].
  Proof.
    unfold near. induction ids as [|o l IH]; intros P H; [reflexivity|]. cbn [filter] in *.
    assert (P' : forall o, In o l -> 0 <= area (g_id im) o) by (intros; apply P; right; assumption).
    destruct (Reqb (area (g_id im) o) 0) eqn:E; cbn [negb] in *; [apply IH; assumption|]. exfalso.
    cbn [map Rsum fold_right] in H. change (fold_right Rplus 0) with Rsum in H.
    assert (N : 0 <= Rsum (map (area (g_id im)) (filter (fun o => negb (Reqb (area (g_id im) o) 0)) l))).
    { clear - P'. induction l as [|x l IH]; cbn [filter]; [cbn; lra|]. destruct (negb _); [|apply IH; intros; apply P'; right; assumption]. cbn [map Rsum fold_right]. change (fold_right Rplus 0) with Rsum.
      pose proof (P' x (or_introl eq_refl)). assert (0 <= Rsum (map (area (g_id im)) (filter (fun o => negb (Reqb (area (g_id im) o) 0)) l))) by (apply IH; intros; apply P'; right; assumption). lra. }
    pose proof (P o (or_introl eq_refl)). assert (Z : area (g_id im) o = 0) by lra. apply Reqb_spec in Z. congruence.
  Qed.
End Px.
(** The sky of an image in its overlap with another input: the statistic of exactly the unmasked pixels inside the
    intersection with at least one overlapping member; with [d], relative to the sky already recorded.  None without such
    pixels or when the statistic fails. *)
Theorem C80_image : forall area fill own stat (im : simg RF) (t : item RF) d,
  length (g_mask im) = length (g_px im) ->
  (forall m, In m (members t) -> length (fill (g_id im) (g_id m)) = length (g_px im)) ->
  (forall m, In m (members t) -> 0 <= area (g_id im) (g_id m)) ->
  let crossing := filter (fun o => negb (Reqb (area (g_id im) o) 0)) (map g_id (members t)) in
  let ks := inside (length (g_px im)) (g_mask im) (map (fill (g_id im)) crossing) in
  calc_sky RF area fill own stat (Single im) (Some t) d =
  match ks, stat (g_id im) (pick (g_px im) ks) with
  | _ :: _, Some (v, n) => (Some (if d then v - g_sky im else v), n, Rsum (map (fun m => area (g_id im) (g_id m)) (members t)))
  | _, _ => (None, 0%nat, 0)
  end.
Proof.
  intros area fill own stat im t d Lm Lf Pa crossing ks. unfold calc_sky, calc_image, overlap_pixels. cbn [option_map].
  set (ids := map g_id (members t)) in *.
  assert (Lf' : forall o, In o ids -> length (fill (g_id im) o) = length (g_px im)) by (intros o O; apply in_map_iff in O; destruct O as [m [<- O]]; auto).
  assert (Pa' : forall o, In o ids -> 0 <= area (g_id im) o) by (intros o O; apply in_map_iff in O; destruct O as [m [<- O]]; auto).
  change (filter (fun o => negb (isz RF (area (g_id im) o))) ids) with crossing. rewrite (area_sum area im crossing (fzero RF)).
  assert (Sm : fzero RF + Rsum (map (area (g_id im)) crossing) = Rsum (map (fun m => area (g_id im) (g_id m)) (members t))).
  { cbn [fzero RF]. unfold crossing. fold (near area im ids). rewrite near_sum. unfold ids. rewrite map_map. lra. }
  destruct (isz RF (fzero RF + Rsum (map (area (g_id im)) crossing))) eqn:Z.
  - apply isz_R in Z. cbn [fzero RF] in Z. assert (C : crossing = []) by (apply (near_zero area im ids Pa'); unfold near; fold crossing; lra).
    assert (K : ks = []). { unfold ks, inside. rewrite C. cbn [map existsb]. clear. generalize (seq 0 (length (g_px im))). induction l as [|k l IH]; [reflexivity|]. cbn [filter]. rewrite andb_false_r. exact IH. }
    rewrite K. reflexivity.
  - destruct (ored_all fill im crossing ltac:(intros o O; apply Lf'; apply filter_In in O; tauto) (map (fun _ => false) (g_px im)) ltac:(apply map_length)) as [Lr Nr].
    set (mask := fold_left _ crossing _) in *.
    assert (Lx : length mask = length (g_mask im)) by (etransitivity; [exact Lr|symmetry; exact Lm]).
    rewrite select_pos by (rewrite anded_length; [exact Lr|exact Lx]).
    assert (K : filter (fun k => nth k (anded mask (g_mask im)) false) (seq 0 (length (g_px im))) = ks).
    { unfold ks, inside. apply filter_ext_seq. intro k. rewrite anded_nth by exact Lx. rewrite Nr.
      assert (Fl : nth k (map (fun _ : R => false) (g_px im)) false = false).
      { clear. generalize (g_px im) as l. intro l. revert k. induction l as [|x l IH]; intros [|k]; try reflexivity. apply IH. }
      change (F RF) with R. rewrite Fl. cbn [orb]. apply andb_comm. }
    change (F RF) with R in *. rewrite K. destruct ks as [|k0 ks']; [reflexivity|]. cbn [pick map]. fold (pick (g_px im) ks').
    assert (St : forall x : option (R * nat), match x with None => no_sky RF | Some (v, npix) => if fisfinite RF v then (Some (if d then fsub RF v (g_sky im) else v), npix, fzero RF + Rsum (map (area (g_id im)) crossing)) else no_sky RF end =
      match x with Some (v, n) => (Some (if d then v - g_sky im else v), n, Rsum (map (fun m => area (g_id im) (g_id m)) (members t))) | None => (None, 0%nat, 0) end).
    { intros [[v n]|]; [|reflexivity]. cbn [fisfinite RF]. rewrite Sm. reflexivity. }
    exact (St _).
Qed.
Print Assumptions C80_image.
(** On its own: the statistic of the unmasked pixels. *)
Theorem C80_own : forall area fill own stat (im : simg RF) d, length (g_mask im) = length (g_px im) ->
  calc_sky RF area fill own stat (Single im) None d =
  match stat (g_id im) (pick (g_px im) (unmasked (length (g_px im)) (g_mask im))) with
  | Some (v, n) => (Some (if d then v - g_sky im else v), n, own (g_id im))
  | None => (None, 0%nat, 0)
  end.
Proof.
  intros area fill own stat im d Lm. unfold calc_sky, calc_image, overlap_pixels. cbn [option_map]. rewrite select_pos by exact Lm. fold (unmasked (length (g_px im)) (g_mask im)). change (F RF) with R.
  destruct (stat (g_id im) _) as [[v n]|]; reflexivity.
Qed.
Print Assumptions C80_own.
(** A group's sky in an overlap: the mean of its members' skies weighted by their pixel counts. *)
Theorem C80_group : forall area fill own stat (l : list (simg RF)) gs (t : item RF) d,
  let one m := calc_sky RF area fill own stat (Single m) (Some t) d in
  let sky m := match fst (fst (one m)) with Some s => s | None => 0 end in
  let num m := match fst (fst (one m)) with Some _ => snd (fst (one m)) | None => 0%nat end in
  let n := fold_right (fun m k => (num m + k)%nat) 0%nat l in
  let a := Rsum (map (fun m => snd (one m)) l) in
  calc_sky RF area fill own stat (Group l gs) (Some t) d =
  (if Nat.eqb n 0 || Reqb a 0 then None else Some (Rsum (map (fun m => sky m * INR (num m)) l) / INR n), n, a).
Proof.
  intros area fill own stat l gs t d one sky num n a.
  change (calc_sky RF area fill own stat (Group l gs) (Some t) d) with (group_mean RF area fill own stat l (map g_id (members t)) d). unfold group_mean.
  match goal with |- (let '(_, _) := fold_left ?f l ?z in _) = _ => set (g := f) end.
  assert (G : forall l (w : R) k (b : R), fold_left g l (w, k, b) = (w + Rsum (map (fun m => sky m * INR (num m)) l), (k + fold_right (fun m k => (num m + k)%nat) 0%nat l)%nat, b + Rsum (map (fun m => snd (one m)) l))).
  { clear n a. clear l. intro l. induction l as [|m l IH]; intros w k b; cbn [fold_left map Rsum fold_right]; [apply (f_equal2 pair); [apply (f_equal2 pair); [lra|lia]|lra]|].
    change (fold_right Rplus 0) with Rsum. unfold g at 2. unfold sky, num, one in *. change (calc_image RF area fill own stat m (Some (map g_id (members t))) d) with (calc_sky RF area fill own stat (Single m) (Some t) d).
    destruct (calc_sky RF area fill own stat (Single m) (Some t) d) as [[[s|] n1] a1]; cbn [fst snd].
    - destruct (Nat.ltb_spec 0 n1) as [L|L].
      + rewrite IH. cbn [fadd fmul fofZ RF]. rewrite <- INR_IZR_INZ. apply (f_equal2 pair); [apply (f_equal2 pair); [eqS; cbn [INR]; ring|lia]|eqS; ring].
      + assert (n1 = 0%nat) as -> by lia. rewrite IH. cbn [fadd RF INR]. apply (f_equal2 pair); [apply (f_equal2 pair); [eqS; cbn [INR]; ring|lia]|eqS; ring].
    - rewrite IH. cbn [fadd RF INR]. apply (f_equal2 pair); [apply (f_equal2 pair); [eqS; cbn [INR]; ring|lia]|eqS; ring]. }
  cbn [fzero RF]. rewrite G. fold n. fold a. rewrite Nat.add_0_l, !Rplus_0_l. unfold isz. cbn [feq fzero RF fdiv fofZ]. rewrite <- INR_IZR_INZ. destruct (Nat.eqb n 0 || Reqb a 0); reflexivity.
Qed.
Print Assumptions C80_group.
(** A group's own sky is the smallest of its members'. *)
Theorem C80_group_own : forall area fill own stat (l : list (simg RF)) gs d,
  let one m := fst (fst (calc_sky RF area fill own stat (Single m) None d)) in
  match fst (fst (calc_sky RF area fill own stat (Group l gs) None d)) with
  | None => forall m, In m l -> one m = None
  | Some v => (exists m, In m l /\ one m = Some v) /\ forall m x, In m l -> one m = Some x -> v <= x
  end.
Proof.
  intros area fill own stat l gs d one. change (calc_sky RF area fill own stat (Group l gs) None d) with (group_min RF area fill own stat l d). unfold group_min.
  match goal with |- context[fold_left ?f l ?z] => set (g := f); set (z0 := z) end.
  assert (G : forall l z, match fst (fst (fold_left g l z)) with
    | None => fst (fst z) = None /\ forall m, In m l -> one m = None
    | Some v => (fst (fst z) = Some v \/ exists m, In m l /\ one m = Some v) /\ (forall x, fst (fst z) = Some x -> v <= x) /\ forall m x, In m l -> one m = Some x -> v <= x end).
  { clear l. intro l. induction l as [|m l IH]; intro z; cbn [fold_left].
    - destruct (fst (fst z)) as [v|]; [|split; [reflexivity|intros m []]]. split; [left; reflexivity|]. split; [intros x E; injection E as <-; apply Rle_refl|intros m x []].
    - specialize (IH (g z m)).
      assert (Q : fst (fst (g z m)) = match one m with None => fst (fst z) | Some s => match fst (fst z) with None => Some s | Some w => if Rltb s w then Some s else Some w end end).
      { unfold g, one. destruct z as [[w n] a]. change (calc_image RF area fill own stat m None d) with (calc_sky RF area fill own stat (Single m) None d).
        destruct (calc_sky RF area fill own stat (Single m) None d) as [[[s|] n1] a1]; cbn [fst snd]; [|reflexivity]. destruct w as [w|]; [|reflexivity]. unfold fgt. cbn [flt RF]. destruct (Rltb s w); reflexivity. }
      rewrite Q in IH. destruct (fst (fst (fold_left g l (g z m)))) as [v|].
      + destruct IH as [A [B C]]. destruct (one m) as [s|] eqn:O; [destruct (fst (fst z)) as [w|] eqn:W|].
        * assert (Y : v <= s /\ v <= w /\ (Some v = Some s \/ Some v = Some w \/ exists m, In m l /\ one m = Some v)).
          { destruct (Rltb s w) eqn:E.
            - apply Rltb_spec in E. pose proof (B s eq_refl). split; [assumption|]. split; [cbn [F RF] in *; lra|]. destruct A as [A|A]; [left; congruence|auto].
            - pose proof (B w eq_refl). assert (~ s < w) by (intro X; apply Rltb_spec in X; congruence). split; [cbn [F RF] in *; lra|]. split; [assumption|]. destruct A as [A|A]; [right; left; congruence|auto]. }
          destruct Y as (Y1 & Y2 & Y3). split; [|split].
          -- destruct Y3 as [Y|[Y|[m' [I Y]]]]; [right; exists m; split; [left; reflexivity|congruence]|left; congruence|right; exists m'; split; [right; exact I|exact Y]].
          -- intros x E. injection E as <-. exact Y2.
          -- intros m' x [<-|I] E; [rewrite O in E; injection E as <-; exact Y1|exact (C m' x I E)].
        * split; [|split].
          -- right. destruct A as [A|[m' [I A]]]; [exists m; split; [left; reflexivity|congruence]|exists m'; split; [right; exact I|exact A]].
          -- discriminate.
          -- intros m' x [<-|I] E; [apply B; congruence|exact (C m' x I E)].
        * split; [|split].
          -- destruct A as [A|[m' [I A]]]; [left; exact A|right; exists m'; split; [right; exact I|exact A]].
          -- exact B.
          -- intros m' x [<-|I] E; [congruence|exact (C m' x I E)].
      + destruct IH as [A B]. destruct (one m) as [s|] eqn:O; [destruct (fst (fst z)) as [w|]; [destruct (Rltb s w); discriminate|discriminate]|].
        split; [exact A|]. intros m' [<-|I]; [exact O|exact (B m' I)]. }
  specialize (G l z0). destruct (fst (fst (fold_left g l z0))) as [v|].
  - destruct G as [A [_ C]]. split; [destruct A as [A|A]; [discriminate|exact A]|exact C].
  - exact (proj2 G).
Qed.
Print Assumptions C80_group_own.
(** image 0 of three pixels crosses image 1 only; its middle pixel is masked *)
Example C80_ex : calc_sky RF ex_area ex_fill (fun _ => 1) ex_stat (Single (@Build_simg RF 0 [1; 7; 8] [true; false; true] 2 false)) (Some (Group [exi 1 [2; 3; 3] 0; exi 5 [2; 3; 3] 0] 0)) true = (Some (8 - 2), 1%nat, 1 + (0 + 0)).
Proof.
  rewrite C80_image.
  - cbn -[Reqb]. rewrite (proj2 (Reqb_spec 0 0) eq_refl). destruct (Reqb 1 0) eqn:E; [apply Reqb_spec in E; lra|]. cbn. reflexivity.
  - reflexivity.
  - intros m _. reflexivity.
  - intros m _. unfold ex_area. destruct (_ && _)%bool; lra.
Qed.
