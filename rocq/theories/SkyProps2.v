(** Further theorems about sky matching (C42, C43, C77-C79). *)
From Verif Require Import Base BaseLemmas FLaws RBase SkyModel SkySpec SkyProofs SkySim SkyProps.
From Coq Require Import Reals Lra Lia SpecFloat Permutation.
Local Open Scope R_scope.

(** ** C42: the order of the inputs does not matter when all can be measured *)
Theorem C42_permutation : forall area fill own stat solve down sub items items',
  fresh items -> flat_map members items <> [] -> Permutation items items' ->
  Forall (fun t => exists v, fst (fst (calc_sky RF area fill own stat t None (negb sub))) = Some v) items ->
  exists out out' m, skymatch RF area fill own stat solve false true down sub items = Some out /\
    skymatch RF area fill own stat solve false true down sub items' = Some out' /\
    (forall t, In t out \/ In t out' -> forall im, In im (members t) -> g_sky im = m /\ g_valid im = true).
Proof.
  intros area fill own stat solve down sub items items' Fr Ne P All.
  destruct (C42_global area fill own stat solve down sub items Fr Ne All) as (out & m & H & I & B & _ & A).
  destruct (C42_global area fill own stat solve down sub items') as (out' & m' & H' & I' & B' & _ & A').
  - exact (Permutation_Forall P Fr).
  - intro Z. apply Ne. apply Permutation_nil. apply Permutation_sym. rewrite <- Z. apply (Permutation_flat_map members P).
  - exact (Permutation_Forall P All).
  - assert (Pm : Permutation (measured RF area fill own stat sub items) (measured RF area fill own stat sub items')) by (apply Permutation_map, P).
    assert (E : m = m').
    { pose proof (B m' (Permutation_in _ (Permutation_sym Pm) I')). pose proof (B' m (Permutation_in _ Pm I)). cbn [F RF] in *. lra. }
    subst m'. exists out, out', m. split; [exact H|]. split; [exact H'|]. intros t [T|T] im Him; [exact (A t T im Him)|exact (A' t T im Him)].
Qed.
Print Assumptions C42_permutation.

(** ** C43 *)
Lemma skymatch_px {fo : FOps} area fill own stat solve dm dg down (items out : list (item fo)) :
  skymatch fo area fill own stat solve dm dg down false items = Some out -> map (fun t => map g_px (members t)) out = map (fun t => map g_px (members t)) items.
Proof.
  unfold skymatch. destruct (Nat.eqb _ 0); [discriminate|]. cbn [negb].
  assert (Ld : forall l d, length (anchored fo down (deltas fo area fill own stat solve l d)) = length l).
  { intros l d. unfold anchored, deltas. destruct (solve _ _); destruct (refsky _ _ _); rewrite ?map_length, ?seq_length; reflexivity. }
  set (l1 := if dm then _ else items).
  assert (P : map (fun t => map g_px (members t)) l1 = map (fun t => map g_px (members t)) items) by (unfold l1; destruct dm; [apply nosub_px, Ld|reflexivity]).
  clearbody l1. destruct (dg || negb dm); [|intro E; injection E as <-; exact P].
  destruct dg.
  - destruct (global_min fo _) as [m|]; [|discriminate]. cbn [bind]. intro E. injection E as <-. rewrite nosub_px; [exact P|]. rewrite map_length. unfold measured. apply map_length.
  - cbn [bind]. intro E. injection E as <-. rewrite nosub_px; [exact P|]. unfold measured. apply map_length.
Qed.
(** Subtracting or only recording: both runs succeed or fail together; the recorded sky and validity are the same; without
    subtraction no pixel changes, and the subtracted pixels are the original ones minus the recorded sky. *)
Theorem C43_subtract : forall area fill own stat solve dm dg down items, shifts stat -> fresh items ->
  match skymatch RF area fill own stat solve dm dg down false items, skymatch RF area fill own stat solve dm dg down true items with
  | Some rec, Some sub =>
      map (fun t => map (fun m : simg RF => g_px m) (members t)) rec = map (fun t => map (fun m : simg RF => g_px m) (members t)) items /\
      Forall2 (fun t u => Forall2 (fun a b : simg RF => g_id b = g_id a /\ g_mask b = g_mask a /\ g_sky b = g_sky a /\ g_valid b = g_valid a /\
                                     g_px b = map (fun p : R => p - g_sky a) (g_px a)) (members t) (members u)) rec sub
  | None, None => True
  | _, _ => False
  end.
Proof.
  intros area fill own stat solve dm dg down items Sh Fr.
  pose proof (skymatch_sim area fill own stat Sh solve dm dg down items items (fresh_sim items Fr)) as G.
  pose proof (skymatch_px (fo := RF) area fill own stat solve dm dg down items) as P.
  destruct (skymatch RF area fill own stat solve dm dg down false items) as [a|], (skymatch RF area fill own stat solve dm dg down true items) as [b|]; try exact G.
  split; [exact (P a eq_refl)|]. clear P. induction G as [|t u a b S G IH]; constructor; [|exact IH].
  destruct S as [x y S|l m gs F]; cbn [members]; [constructor; [exact S|constructor]|]. clear - F. induction F as [|x y l m S F IH]; constructor; [exact S|exact IH].
Qed.
Print Assumptions C43_subtract.
Example C43_ex : shifts ex_stat /\ fresh ex_items.
Proof.
  split; [|repeat constructor]. intros id l c. destruct l as [|x l]; [reflexivity|]. unfold ex_stat. cbn [map length]. do 3 f_equal. apply map_length.
Qed.

(** ** C77 *)
(** what a measurement becomes when the image is changed by [o] *)
Definition shifted (o : R) (r : option R * nat * R) : option R * nat * R := (option_map (fun x => x - o) (fst (fst r)), snd (fst r), snd r).
Section Re.
  Variables (area : nat -> nat -> R) (fill : nat -> nat -> list bool) (own : nat -> R) (stat : nat -> list R -> option (R * nat)).
  Variables (sub valid : bool) (o : R).
  Hypothesis Sh : sub = true -> shifts stat.
  Notation ch := (image_changed sub valid o).
  Lemma overlap_px a b ov : ch a b ->
    overlap_pixels RF area fill own b ov = match overlap_pixels RF area fill own a ov with Some (d, s) => Some (if sub then map (fun p : R => p - o) d else d, s) | None => None end.
  Proof.
    intros (Ei & Em & _ & _ & Ep). unfold overlap_pixels. rewrite Ei, Em, Ep. destruct sub.
    - destruct ov as [ids|].
      + destruct (isz RF _); [reflexivity|]. rewrite map_map. rewrite (select_map (fun p => p - o)). destruct (select RF _ (g_px a)) as [|x l]; reflexivity.
      + rewrite (select_map (fun p => p - o)). reflexivity.
    - destruct ov as [ids|]; [|reflexivity]. destruct (isz RF _); [reflexivity|]. destruct (select RF _ (g_px a)); reflexivity.
  Qed.
  Lemma image_re a b ov : ch a b -> calc_image RF area fill own stat b ov (negb sub) = shifted o (calc_image RF area fill own stat a ov (negb sub)).
  Proof.
    intro S. unfold calc_image. rewrite (overlap_px a b ov S). destruct S as (Ei & _ & _ & Es & _). rewrite Ei.
    destruct (overlap_pixels RF area fill own a ov) as [[d s]|]; [|reflexivity]. destruct sub.
    - pose proof (Sh eq_refl (g_id a) d o) as Q. change (F RF) with R. rewrite Q. destruct (stat (g_id a) d) as [[v n]|]; reflexivity.
    - change (F RF) with R. destruct (stat (g_id a) d) as [[v n]|]; [|reflexivity]. cbn [fisfinite RF negb]. unfold shifted. cbn [fst snd option_map]. do 3 f_equal. rewrite Es. cbn [fsub RF]. eqS. ring.
  Qed.
  Lemma fold_re {A} (f : A -> simg RF -> A) (h : A -> A) l m : Forall2 ch l m -> (forall z a b, ch a b -> f (h z) b = h (f z a)) -> forall z, fold_left f m (h z) = h (fold_left f l z).
  Proof. intros H E. induction H as [|a b l m S H IH]; intro z; [reflexivity|]. cbn [fold_left]. rewrite (E z a b S). apply IH. Qed.
  Lemma min_re l m : Forall2 ch l m -> group_min RF area fill own stat m (negb sub) = shifted o (group_min RF area fill own stat l (negb sub)).
  Proof.
    intro H. unfold group_min. rewrite <- (fold_re _ (shifted o) l m H); [reflexivity|].
    intros [[w n] s] a b S. rewrite (image_re a b None S). destruct (calc_image RF area fill own stat a None (negb sub)) as [[[x|] n1] a1]; unfold shifted; cbn [fst snd option_map].
    - destruct w as [w|]; cbn [option_map]; [|reflexivity]. unfold fgt. cbn [flt RF].
      replace (Rltb (x - o) (w - o)) with (Rltb x w); [destruct (Rltb x w); reflexivity|].
      destruct (Rltb x w) eqn:Q; [apply Rltb_spec in Q; symmetry; apply Rltb_spec; lra|]. symmetry. destruct (Rltb (x - o) (w - o)) eqn:Y; [|reflexivity]. apply Rltb_spec in Y. assert (Rltb x w = true) by (apply Rltb_spec; lra). congruence.
    - reflexivity.
  Qed.
  Definition hm (z : R * nat * R) : R * nat * R := (fst (fst z) - o * INR (snd (fst z)), snd (fst z), snd z).
  Lemma mean_re l m ov : Forall2 ch l m -> group_mean RF area fill own stat m ov (negb sub) = shifted o (group_mean RF area fill own stat l ov (negb sub)).
  Proof.
    intro H. unfold group_mean.
    match goal with |- (let '(_, _) := fold_left ?f m ?z in _) = _ => set (g := f); change z with (0, 0%nat, 0) end.
    assert (Z : (0, 0%nat, 0) = hm (0, 0%nat, 0)) by (unfold hm; cbn [fst snd INR]; do 2 f_equal; ring).
    change (fzero RF) with 0. rewrite Z at 1. rewrite (fold_re g hm l m H).
    - destruct (fold_left g l (0, 0%nat, 0)) as [[w n] a]. unfold hm. cbn [fst snd]. destruct (Nat.eqb_spec n 0) as [->|Hn]; [reflexivity|]. cbn [orb].
      destruct (isz RF a); [reflexivity|]. unfold shifted. cbn [fst snd option_map fdiv fofZ RF]. do 3 f_equal. rewrite <- INR_IZR_INZ. eqS. field. apply not_0_INR, Hn.
    - intros [[w n] s] a b S. unfold g. rewrite (image_re a b _ S). destruct (calc_image RF area fill own stat a (Some ov) (negb sub)) as [[[x|] n1] a1]; unfold shifted, hm; cbn [fst snd option_map]; [|reflexivity].
      destruct (Nat.ltb 0 n1); [|reflexivity]. cbn [fst snd fadd fmul fofZ RF]. rewrite <- !INR_IZR_INZ, plus_INR. do 2 f_equal. eqS. ring.
  Qed.
End Re.
Lemma ids_apply {fo : FOps} g sub (t : item fo) o : map g_id (members (apply_one fo g sub t o)) = map g_id (members t).
Proof. destruct t as [im|l gs]; [reflexivity|]. cbn [apply_one members]. rewrite map_map. reflexivity. Qed.
Lemma apply_changed_any g sub (t : item RF) o : exists valid, Forall2 (image_changed sub valid (match o with Some x => x | None => 0 end)) (members t) (members (apply_one RF g sub t o)).
Proof.
  destruct t as [im|l gs]; cbn [apply_one members].
  - eexists. constructor; [|constructor]. unfold image_changed. cbn [g_id g_mask g_valid g_sky g_px fadd RF]. split; [reflexivity|]. split; [reflexivity|].
    split; [reflexivity|]. split; [destruct o; reflexivity|]. unfold shift_px. destruct sub; [|reflexivity]. destruct o; reflexivity.
  - generalize (match l with im :: _ => g_valid im | [] => false end). intro was. eexists. induction l as [|m l IH]; [constructor|]. cbn [map]. constructor; [|exact IH].
    unfold image_changed. cbn [g_id g_mask g_valid g_sky g_px]. split; [reflexivity|]. split; [reflexivity|].
    split; [reflexivity|]. split; [destruct o; cbn [fadd fsub fzero RF]; eqS; ring|]. unfold shift_px. destruct sub; [|reflexivity]. destruct o; reflexivity.
Qed.
(** A changed input, measured again: its sky is lower by the change. *)
Lemma calc_re area fill own stat g sub (t : item RF) o ov ov' : (sub = true -> shifts stat) -> 
  option_map (fun u : item RF => map g_id (members u)) ov' = option_map (fun u : item RF => map g_id (members u)) ov ->
  calc_sky RF area fill own stat (apply_one RF g sub t o) ov' (negb sub) = shifted (match o with Some x => x | None => 0 end) (calc_sky RF area fill own stat t ov (negb sub)).
Proof.
  intros Sh Ho. destruct (apply_changed_any g sub t o) as [vl C]. unfold calc_sky. rewrite Ho. set (ids := option_map _ ov).
  destruct t as [im|l gs]; cbn [apply_one members] in *.
  - inversion C as [|? ? ? ? C1 _]. eapply image_re; eassumption.
  - destruct ids as [i|]; [eapply mean_re; eassumption|eapply min_re; eassumption].
Qed.

Lemma Rsum_sq_zero (A : Type) (f : A -> R) l : Rsum (map (fun x => f x * f x) l) <= 0 -> forall x, In x l -> f x = 0.
Proof.
  intros H. assert (P : forall l, 0 <= Rsum (map (fun x => f x * f x) l)).
  { clear. induction l as [|x l IH]; cbn [map Rsum fold_right]; [apply Rle_refl|]. change (fold_right Rplus 0) with Rsum. pose proof (Rle_0_sqr (f x)). unfold Rsqr in *. lra. }
  revert H. induction l as [|y l IH]; [intros _ x []|]. cbn [map Rsum fold_right]. change (fold_right Rplus 0) with Rsum. intros H x Hx.
  pose proof (P l). pose proof (Rle_0_sqr (f y)) as Q. unfold Rsqr in Q. destruct Hx as [<-|Hx]; [|apply IH; [lra|exact Hx]].
  assert (E : f y * f y = 0) by lra. apply Rmult_integral in E. tauto.
Qed.
(** an exact solution exists: every least-squares solution satisfies every equation *)
Lemma ls_exact eqs xs (b : nat -> R) : (forall i j w f, In (i, j, w, f) eqs -> 0 < w /\ f = w * (b i - b j)) -> least_squares eqs xs ->
  forall i j w f, In (i, j, w, f) eqs -> nth i xs 0 - nth j xs 0 = b i - b j.
Proof.
  intros Ex Ls i j w f I. specialize (Ls b).
  assert (Z : residual2 eqs b = 0).
  { unfold residual2. clear Ls I. induction eqs as [|[[[i' j'] w'] f'] l IH]; [reflexivity|]. cbn [map Rsum fold_right]. change (fold_right Rplus 0) with Rsum. rewrite IH by (intros; eapply Ex; right; eassumption).
    destruct (Ex i' j' w' f' (or_introl eq_refl)) as [_ ->]. ring. }
  rewrite Z in Ls. unfold residual2 in Ls.
  set (h := fun e : nat * nat * R * R => let '(i, j, w, f) := e in w * nth i xs 0 - w * nth j xs 0 - f).
  assert (L2 : Rsum (map (fun e => h e * h e) eqs) <= 0).
  { erewrite map_ext; [exact Ls|]. intros [[[i' j'] w'] f']. reflexivity. }
  pose proof (Rsum_sq_zero _ h eqs L2 _ I) as E. unfold h in E. destruct (Ex i j w f I) as [Hw ->].
  assert (Q : w * (nth i xs 0 - nth j xs 0) = w * (b i - b j)) by lra. apply Rmult_eq_reg_l in Q; lra.
Qed.
(** When the measured differences are those of some per-image backgrounds, matching with any least-squares solver recovers
    the background differences exactly, and measured again the matched images agree in every overlap. *)
Theorem C77_recovers : forall area fill own stat solve down sub items out (b : nat -> R),
  (sub = true -> shifts stat) ->
  (exists xs, solve (length items) (equations RF area fill own stat items (negb sub)) = Some xs /\ least_squares (equations RF area fill own stat items (negb sub)) xs) ->
  (forall i j t u s1 n1 a1 s2 n2 a2, nth_error items i = Some t -> nth_error items j = Some u ->
     calc_sky RF area fill own stat t (Some u) (negb sub) = (Some s1, n1, a1) -> calc_sky RF area fill own stat u (Some t) (negb sub) = (Some s2, n2, a2) -> s1 - s2 = b i - b j) ->
  skymatch RF area fill own stat solve true false down sub items = Some out ->
  forall i j, overlapping area fill own stat items (negb sub) i j ->
  exists t u t' u' oi oj, nth_error items i = Some t /\ nth_error items j = Some u /\ nth_error out i = Some t' /\ nth_error out j = Some u' /\
    item_changed sub (Some oi) t t' /\ item_changed sub (Some oj) u u' /\ oi - oj = b i - b j /\
    fst (fst (calc_sky RF area fill own stat t' (Some u') (negb sub))) = fst (fst (calc_sky RF area fill own stat u' (Some t') (negb sub))).
Proof.
  intros area fill own stat solve down sub items out b Sh [xs [Sv Ls]] Bk H i j Ov. unfold skymatch in H. destruct (Nat.eqb _ 0); [discriminate|]. cbn [orb negb] in H. injection H as <-.
  set (dl := deltas RF area fill own stat solve items (negb sub)).
  pose proof Ov as Ov'. destruct Ov as (t & u & Ht & Hu & Nij & Ut & Uu).
  assert (Di : forall k, (exists l, overlapping area fill own stat items (negb sub) k l) -> exists x, nth_error (anchored RF down dl) k = Some (Some x) /\ (forall r', refsky RF down (finite_ones RF dl) = Some r' -> x = nth k xs 0 - r')).
  { intros k Hk. destruct (anchored_nth down dl k) as [r [E Er]].
    assert (Lk : (k < length items)%nat) by (destruct Hk as (l & a & c & A & _); apply nth_error_Some; congruence).
    pose proof (deltas_nth area fill own stat solve items (negb sub) k Lk) as Dn. fold dl in Dn. change (F RF) with R in *. rewrite Dn, Sv in E.
    apply (mentioned_iff area fill own stat) in Hk. rewrite Hk in E. cbn [option_map] in E. exists (nth k xs 0 - r). split; [exact E|]. intros r' Q. rewrite (Er r' Q). reflexivity. }
  destruct (Di i) as [oi [Ei Ri]]; [eauto|]. destruct (Di j) as [oj [Ej Rj]]; [exists i; apply overlapping_sym; exact Ov'|].
  exists t, u, (apply_one RF false sub t (Some oi)), (apply_one RF false sub u (Some oj)), oi, oj.
  split; [exact Ht|]. split; [exact Hu|].
  split; [rewrite apply_nth, Ht; change (F RF) with R in *; rewrite Ei; reflexivity|]. split; [rewrite apply_nth, Hu; change (F RF) with R in *; rewrite Ej; reflexivity|].
  split; [apply apply_changed; discriminate|]. split; [apply apply_changed; discriminate|].
  assert (Ex : forall i j w f, In (i, j, w, f) (equations RF area fill own stat items (negb sub)) -> 0 < w /\ f = w * (b i - b j)).
  { intros i' j' w f I. apply in_equations in I. destruct I as (i2 & j2 & a & c & s1 & n1 & a1 & s2 & n2 & a2 & L & Ea & Ec & C1 & C2 & Z1 & Z2 & N1 & N2 & E). injection E as -> -> -> ->.
    split; [apply lt_0_INR in N1, N2; lra|]. rewrite (Bk _ _ _ _ _ _ _ _ _ _ Ea Ec C1 C2). reflexivity. }
  assert (D : oi - oj = b i - b j).
  { assert (exists r', refsky RF down (finite_ones RF dl) = Some r') as [r' Q].
    { destruct (finite_ones RF dl) as [|z l] eqn:Fo; [|eexists; reflexivity]. exfalso.
      destruct (anchored_nth down dl i) as [r [E _]]. rewrite E in Ei. destruct (@nth_error (option R) dl i) as [[y|]|] eqn:N; try discriminate.
      apply nth_error_In in N. apply (finite_in (fo := RF)) in N. rewrite Fo in N. destruct N. }
    rewrite (Ri r' Q), (Rj r' Q).
    assert (X : nth i xs 0 - nth j xs 0 = b i - b j).
    { destruct (Nat.lt_total i j) as [L|[L|L]]; [|contradiction|].
      - destruct (proj1 (usable_in area fill own stat items (negb sub) i j L) Ov') as (w & f & I). exact (ls_exact _ xs b Ex Ls i j w f I).
      - destruct (proj1 (usable_in area fill own stat items (negb sub) j i L) (overlapping_sym area fill own stat items (negb sub) i j Ov')) as (w & f & I). pose proof (ls_exact _ xs b Ex Ls j i w f I). lra. }
    lra. }
  split; [exact D|].
  rewrite (calc_re area fill own stat false sub t (Some oi) (Some u) (Some (apply_one RF false sub u (Some oj))) Sh) by (cbn [option_map]; rewrite ids_apply; reflexivity).
  rewrite (calc_re area fill own stat false sub u (Some oj) (Some t) (Some (apply_one RF false sub t (Some oi))) Sh) by (cbn [option_map]; rewrite ids_apply; reflexivity).
  destruct Ut as [[s1 C1] _], Uu as [[s2 C2] _].
  destruct (calc_sky RF area fill own stat t (Some u) (negb sub)) as [[x1 n1] a1] eqn:D1. destruct (calc_sky RF area fill own stat u (Some t) (negb sub)) as [[x2 n2] a2] eqn:D2. cbn [fst snd] in *. subst x1 x2.
  pose proof (Bk i j t u s1 n1 a1 s2 n2 a2 Ht Hu D1 D2). unfold shifted. cbn [fst option_map]. f_equal. lra.
Qed.
Print Assumptions C77_recovers.
Lemma ex_calc i j t u : nth_error ex_items i = Some t -> nth_error ex_items j = Some u -> forall s n a,
  calc_sky RF ex_area ex_fill (fun _ => 1) ex_stat t (Some u) true = (Some s, n, a) -> s = (if Nat.eqb i 0 then 7 else 3).
Proof.
  intros Ht Hu s n a H. unfold calc_sky, group_mean, calc_image, overlap_pixels, ex_area in H.
  destruct i as [|[|[|i]]]; [| | |destruct i; discriminate]; destruct j as [|[|[|j]]]; try (destruct j; discriminate); injection Ht as <-; injection Hu as <-;
    repeat (cbn -[isz] in H; match type of H with context[isz RF ?x] => first [rewrite (proj2 (isz_R x)) in H by (cbn; lra) | rewrite (proj2 (isz_false x)) in H by (cbn; lra)] end); cbn -[isz] in H; try discriminate; injection H as <- _ _; cbn; lra.
Qed.
Example C77_ex : exists out, skymatch RF ex_area ex_fill (fun _ => 1) ex_stat ex_solve true false true false ex_items = Some out /\ overlapping ex_area ex_fill (fun _ => 1) ex_stat ex_items true 0 1 /\
  exists t' u' : item RF, nth_error out 0 = Some t' /\ nth_error out 1 = Some u' /\
    fst (fst (calc_sky RF ex_area ex_fill (fun _ => 1) ex_stat t' (Some u') true)) = fst (fst (calc_sky RF ex_area ex_fill (fun _ => 1) ex_stat u' (Some t') true)).
Proof.
  destruct C41_ex as [out [H _]]. exists out. split; [exact H|].
  assert (O : overlapping ex_area ex_fill (fun _ => 1) ex_stat ex_items true 0 1).
  { apply (usable_in ex_area ex_fill (fun _ => 1) ex_stat ex_items true 0 1); [lia|]. eexists _, _. rewrite ex_equations. left. reflexivity. }
  split; [exact O|].
  destruct (C77_recovers ex_area ex_fill (fun _ => 1) ex_stat ex_solve true false ex_items out (fun k => if Nat.eqb k 0 then 7 else 3)) with (i := 0%nat) (j := 1%nat) as (t & u & t' & u' & oi & oj & _ & _ & Ht & Hu & _ & _ & _ & E).
  - discriminate.
  - cbn [negb]. eexists. rewrite ex_equations. split; [reflexivity|]. intro y. unfold residual2. cbn [map Rsum fold_right nth].
    match goal with |- ?a <= ?b => assert (a = 0) by field; assert (0 <= b) end; [|lra].
    match goal with |- 0 <= ?p * ?p + 0 => pose proof (Rle_0_sqr p) as Q; unfold Rsqr in Q; lra end.
  - cbn [negb]. intros i j t u s1 n1 a1 s2 n2 a2 Ht Hu C1 C2. rewrite (ex_calc i j t u Ht Hu s1 n1 a1 C1), (ex_calc j i u t Hu Ht s2 n2 a2 C2). reflexivity.
  - exact H.
  - exact O.
  - exists t', u'. auto.
Qed.

(** ** C43: one change for all members of an input, whatever the method *)
Lemma changed_trans sub v1 v2 o1 o2 (l m n : list (simg RF)) : Forall2 (image_changed sub v1 o1) l m -> Forall2 (image_changed sub v2 o2) m n -> Forall2 (image_changed sub v2 (o1 + o2)) l n.
Proof.
  intros H. revert n. induction H as [|a b l m C H IH]; intros n G; inversion G as [|? c ? n' D G']; constructor; [|apply IH, G'].
  destruct C as (I1 & M1 & _ & S1 & P1), D as (I2 & M2 & V2 & S2 & P2). unfold image_changed. split; [congruence|]. split; [congruence|]. split; [exact V2|].
  split; [rewrite S2, S1; eqS; ring|]. rewrite P2, P1. destruct sub; [|reflexivity]. rewrite map_map. apply map_ext. intro p. ring.
Qed.
Theorem C43_members : forall area fill own stat solve dm dg down sub items out,
  skymatch RF area fill own stat solve dm dg down sub items = Some out -> length out = length items /\
  forall k t, nth_error items k = Some t -> exists t' valid o, nth_error out k = Some t' /\ Forall2 (image_changed sub valid o) (members t) (members t').
Proof.
  intros area fill own stat solve dm dg down sub items out H. unfold skymatch in H. destruct (Nat.eqb _ 0); [discriminate|].
  assert (One : forall g (l : list (item RF)) skies, length skies = length l -> length (apply_sky RF g sub l skies) = length l /\ forall k t, nth_error l k = Some t -> exists t' valid o, nth_error (apply_sky RF g sub l skies) k = Some t' /\ Forall2 (image_changed sub valid o) (members t) (members t')).
  { intros g l skies Le. split; [apply apply_length, Le|]. intros k t T. assert (K : (k < length skies)%nat) by (rewrite Le; apply nth_error_Some; congruence). destruct (nth_error skies k) as [o|] eqn:O; [|apply nth_error_None in O; lia].
    destruct (apply_changed_any g sub t o) as [v C]. eexists _, v, _. split; [rewrite apply_nth, T, O; reflexivity|exact C]. }
  set (l1 := if dm then _ else items) in H.
  assert (L1 : length l1 = length items /\ (dm = true -> forall k t, nth_error items k = Some t -> exists t' valid o, nth_error l1 k = Some t' /\ Forall2 (image_changed sub valid o) (members t) (members t'))).
  { unfold l1. destruct dm; [|split; [reflexivity|discriminate]]. destruct (One false items (anchored RF down (deltas RF area fill own stat solve items (negb sub)))) as [A B]; [rewrite anchored_length; apply deltas_length|]. split; [exact A|intros _; exact B]. }
  assert (E1 : dm = false -> l1 = items) by (unfold l1; intros ->; reflexivity). clearbody l1.
  assert (Two : forall g skies, length skies = length l1 -> out = apply_sky RF g sub l1 skies -> length out = length items /\
    forall k t, nth_error items k = Some t -> exists t' valid o, nth_error out k = Some t' /\ Forall2 (image_changed sub valid o) (members t) (members t')).
  { intros g skies Le ->. destruct (One g l1 skies Le) as [A B]. destruct L1 as [C D]. split; [congruence|]. intros k t T. destruct dm.
    - destruct (D eq_refl k t T) as (t1 & v1 & o1 & T1 & F1). destruct (B k t1 T1) as (t2 & v2 & o2 & T2 & F2). exists t2, v2, (o1 + o2). split; [exact T2|]. exact (changed_trans sub v1 v2 o1 o2 _ _ _ F1 F2).
    - apply (B k t). rewrite (E1 eq_refl). exact T. }
  destruct (dg || negb dm) eqn:G.
  - destruct dg.
    + destruct (global_min RF _) as [r|]; [|discriminate]. cbn [bind] in H. injection H as H. symmetry in H. apply (Two _ _ ltac:(rewrite map_length; unfold measured; apply map_length) H).
    + cbn [bind] in H. injection H as H. symmetry in H. apply (Two _ _ ltac:(unfold measured; apply map_length) H).
  - injection H as <-. destruct dm; [|destruct dg; discriminate]. destruct L1 as [C D]. split; [exact C|exact (D eq_refl)].
Qed.
Print Assumptions C43_members.

(** ** C78 *)
Lemma measured_re area fill own stat g sub (items : list (item RF)) skies : (sub = true -> shifts stat) -> length skies = length items ->
  forall k, nth_error (measured RF area fill own stat sub (apply_sky RF g sub items skies)) k =
    match nth_error (measured RF area fill own stat sub items) k, nth_error skies k with
    | Some m, Some o => Some (option_map (fun x => x - (match o with Some x => x | None => 0 end)) m) | _, _ => None end.
Proof.
  intros Sh Le k. unfold measured. rewrite !nth_error_map, apply_nth. destruct (nth_error items k) as [t|] eqn:T; [|reflexivity]. cbn [option_map].
  destruct (nth_error skies k) as [o|] eqn:O; [|reflexivity]. cbn [option_map].
  rewrite (calc_re area fill own stat g sub t o None None Sh); reflexivity.
Qed.
(** After 'global' (with or without matching) the inputs, measured again, all have a sky of at least zero, one exactly zero;
    an input measurable before is measurable after. *)
Theorem C78_global : forall area fill own stat solve dm down sub items out, (sub = true -> shifts stat) ->
  skymatch RF area fill own stat solve dm true down sub items = Some out ->
  let before := measured RF area fill own stat sub items in let after := measured RF area fill own stat sub out in
  (forall k, nth_error before k = Some None <-> nth_error after k = Some None) /\ length after = length before /\
  (forall x, In (Some x) after -> 0 <= x) /\ ((exists x, In (Some x) after) -> In (Some 0) after).
Proof.
  intros area fill own stat solve dm down sub items out Sh H before after. unfold skymatch in H. destruct (Nat.eqb _ 0); [discriminate|]. cbn [orb] in H.
  set (l1 := if dm then _ else items) in H.
  assert (L1 : length l1 = length items).
  { unfold l1. destruct dm; [|reflexivity]. apply apply_length. rewrite anchored_length. apply deltas_length. }
  assert (B1 : forall k, nth_error before k = Some None <-> nth_error (measured RF area fill own stat sub l1) k = Some None).
  { intro k. unfold l1, before. destruct dm; [|reflexivity]. rewrite measured_re; [|exact Sh|rewrite anchored_length; apply deltas_length].
    unfold measured. rewrite nth_error_map. destruct (nth_error items k) as [t|] eqn:T; [|cbn; split; discriminate]. cbn [option_map].
    destruct (nth_error (anchored RF down (deltas RF area fill own stat solve items (negb sub))) k) as [o|] eqn:O.
    - destruct (fst (fst (calc_sky RF area fill own stat t None (negb sub)))); cbn; split; intros; congruence || discriminate.
    - apply nth_error_None in O. rewrite anchored_length, deltas_length in O. assert (k < length items)%nat by (apply nth_error_Some; congruence). lia. }
  clearbody l1. set (ms := measured RF area fill own stat sub l1) in *.
  assert (Lm : length ms = length l1) by (unfold ms, measured; apply map_length).
  destruct (global_min RF ms) as [r|] eqn:G; [|discriminate]. cbn [bind] in H. injection H as <-.
  assert (Lb : length after = length before).
  { unfold after, before, measured. rewrite !map_length. rewrite apply_length; [exact L1|]. rewrite map_length. exact Lm. }
  assert (Q : (r = None /\ forall x, ~ In (Some x) ms) \/ exists m, r = Some m /\ In (Some m) ms /\ forall x : R, In (Some x) ms -> (m : R) <= x).
  { clear - G. unfold global_min in G. induction ms as [|[a|] l IH].
    - left. cbn in G. injection G as <-. split; [reflexivity|]. intros x [].
    - right. cbn [foldM bind] in G. destruct (proj2 (gm_some RF_laws l a) r G) as [m [E [I B]]]. exists m. split; [exact E|]. split; [exact I|].
      intros x Hx. specialize (B x Hx eq_refl eq_refl). cbn [flt RF] in B. apply Rnot_lt_le. intro Q. apply (proj2 (Rltb_spec _ _)) in Q. congruence.
    - cbn [foldM bind] in G. destruct (IH G) as [[-> N]|[m [-> [I B]]]].
      + left. split; [reflexivity|]. intros x [E|E]; [discriminate|exact (N x E)].
      + right. exists m. split; [reflexivity|]. split; [right; exact I|]. intros x [E|E]; [discriminate|exact (B x E)]. }
  assert (A : forall k, nth_error after k = option_map (option_map (fun x => x - match r with Some m => m | None => 0 end)) (nth_error ms k)).
  { intro k. unfold after. rewrite measured_re; [|exact Sh|rewrite map_length; exact Lm]. fold ms. rewrite nth_error_map. change (F RF) with R. destruct (@nth_error (option R) ms k); reflexivity. }
  split; [|split; [exact Lb|]].
  { intro k. rewrite B1, A. destruct (nth_error ms k) as [[x|]|]; cbn; split; intros; congruence || discriminate. }
  assert (Iff : forall y, In (Some y) after <-> exists x, In (Some x) ms /\ y = x - match r with Some m => m | None => 0 end).
  { intro y. split.
    - intro J. apply In_nth_error in J. destruct J as [k K]. rewrite A in K. destruct (nth_error ms k) as [[x|]|] eqn:Z; try discriminate. cbn in K. injection K as <-. exists x. split; [eapply nth_error_In, Z|reflexivity].
    - intros [x [J ->]]. apply In_nth_error in J. destruct J as [k K]. apply (nth_error_In after k). rewrite A, K. reflexivity. }
  destruct Q as [[-> N]|[m [-> [I B]]]].
  - split; [intros y J|intros [y J]]; apply Iff in J; destruct J as [x [J _]]; destruct (N x J).
  - split; [intros y J; apply Iff in J; destruct J as [x [J ->]]; specialize (B x J); lra|]. intros _. apply Iff. exists m. split; [exact I|lra].
Qed.
Print Assumptions C78_global.
(** After 'local' every input that could be measured measures exactly zero. *)
Theorem C78_local : forall area fill own stat solve down sub items out, (sub = true -> shifts stat) ->
  skymatch RF area fill own stat solve false false down sub items = Some out ->
  forall k, nth_error (measured RF area fill own stat sub out) k = option_map (option_map (fun _ => 0)) (nth_error (measured RF area fill own stat sub items) k).
Proof.
  intros area fill own stat solve down sub items out Sh H k. unfold skymatch in H. destruct (Nat.eqb _ 0); [discriminate|]. cbn [orb negb bind] in H. injection H as <-.
  rewrite measured_re; [|exact Sh|unfold measured; apply map_length]. destruct (nth_error (measured RF area fill own stat sub items) k) as [[x|]|]; cbn; [|reflexivity|reflexivity]. do 2 f_equal. lra.
Qed.
Print Assumptions C78_local.
Example C78_ex : measured RF ex_area ex_fill (fun _ => 1) ex_stat false ex_items = [Some (1 - 0); Some (2 - 0); Some (9 - 0)].
Proof. reflexivity. Qed.

(** ** C79 *)
From Coq Require Import Sorted.
Lemma linspace_R (a b : R) n : (2 <= n)%nat -> linspace RF a b n = map (fun i => a + INR i * ((b - a) / INR (n - 1))) (seq 0 n).
Proof.
  intro Hn. unfold linspace. apply map_ext_in. intros i Hi. apply in_seq in Hi. cbn [fadd fmul fdiv fsub fofZ RF]. rewrite <- !INR_IZR_INZ.
  destruct (Nat.eqb_spec (S i) n) as [<-|N]; [|reflexivity]. replace (S i - 1)%nat with i by lia. eqS. cbn [F RF]. field. apply not_0_INR. lia.
Qed.
Lemma inner_seq {A} (f : nat -> A) n : (2 <= n)%nat -> removelast (tl (map f (seq 0 n))) = map f (seq 1 (n - 2)).
Proof.
  intro Hn. destruct n as [|[|m]]; [lia|lia|]. replace (S (S m) - 2)%nat with m by lia. change (seq 0 (S (S m))) with (0%nat :: seq 1 (S m)). cbn [map tl]. rewrite seq_S, map_app. cbn [map]. apply removelast_last.
Qed.
Lemma sorted_seq a n : StronglySorted lt (seq a n).
Proof. revert a. induction n as [|n IH]; intro a; cbn [seq]; constructor; [apply IH|]. apply Forall_forall. intros x H. apply in_seq in H. lia. Qed.
Lemma sorted_map {A B} (P : A -> A -> Prop) (Q : B -> B -> Prop) f l : (forall x y, P x y -> Q (f x) (f y)) -> StronglySorted P l -> StronglySorted Q (map f l).
Proof. intros H S. induction S as [|a l S IH F]; cbn [map]; constructor; [exact IH|]. rewrite Forall_forall in *. intros y Hy. apply in_map_iff in Hy. destruct Hy as [x [<- Hx]]. auto. Qed.
Lemma sorted_app {A} (P : A -> A -> Prop) l m : StronglySorted P l -> StronglySorted P m -> (forall x y, In x l -> In y m -> P x y) -> StronglySorted P (l ++ m).
Proof.
  intros S T H. induction S as [|a l S IH F]; cbn [app]; [exact T|]. constructor; [apply IH; intros; apply H; [right|]; assumption|].
  apply Forall_app. split; [exact F|]. apply Forall_forall. intros y Hy. apply H; [left; reflexivity|exact Hy].
Qed.
Lemma sorted_rev {A} (P : A -> A -> Prop) l : StronglySorted P l -> StronglySorted (fun x y => P y x) (rev l).
Proof.
  induction 1 as [|a l S IH F]; cbn [rev]; [constructor|]. apply sorted_app; [exact IH|constructor; constructor|].
  intros x y Hx [<-|[]]. apply in_rev in Hx. rewrite Forall_forall in F. auto.
Qed.
Lemma grid_bounds a L n i : (2 <= n)%nat -> 0 < L -> (i < n)%nat -> a <= a + INR i * (L / INR (n - 1)) <= a + L /\ ((0 < i)%nat -> a < a + INR i * (L / INR (n - 1))) /\ ((i < n - 1)%nat -> a + INR i * (L / INR (n - 1)) < a + L).
Proof.
  intros Hn HL Hi. assert (P : 0 < INR (n - 1)) by (apply lt_0_INR; lia). assert (D : 0 < L / INR (n - 1)) by (apply Rdiv_lt_0_compat; assumption).
  assert (E : L = INR (n - 1) * (L / INR (n - 1))) by (field; lra). pose proof (pos_INR i). split; [split; [nra|]|split].
  - assert (INR i <= INR (n - 1)) by (apply le_INR; lia). rewrite E at 2. nra.
  - intro H0. apply lt_0_INR in H0. nra.
  - intro H0. apply lt_INR in H0. rewrite E at 2. nra.
Qed.
Lemma grid_lt a L n i j : (2 <= n)%nat -> 0 < L -> (i < j)%nat -> a + INR i * (L / INR (n - 1)) < a + INR j * (L / INR (n - 1)).
Proof. intros Hn HL Hi. assert (P : 0 < INR (n - 1)) by (apply lt_0_INR; lia). assert (D : 0 < L / INR (n - 1)) by (apply Rdiv_lt_0_compat; assumption). apply lt_INR in Hi. nra. Qed.
(** The bounding polygon is closed and runs once round the outside of the pixel grid, counter-clockwise from the corner
    (-1/2, -1/2): the positions of its points along the boundary strictly increase.  The four corners are among them. *)
Theorem C79_border : forall ceil_div nx ny step, (0 < nx)%nat -> (0 < ny)%nat ->
  exists pts us, border RF ceil_div nx ny step = (-1/2, -1/2) :: pts ++ [(-1/2, -1/2)] /\
    Forall2 (along nx ny) ((-1/2, -1/2) :: pts) us /\ StronglySorted Rlt us /\ Forall (fun u => 0 <= u < 2 * (INR nx + INR ny)) us /\
    In (INR nx - 1/2, -1/2) pts /\ In (INR nx - 1/2, INR ny - 1/2) pts /\ In (-1/2, INR ny - 1/2) pts.
Proof.
  intros cd nx ny step Hx Hy. unfold border. set (n := nints RF cd nx step). set (m := nints RF cd ny step).
  assert (Hn : (2 <= n)%nat) by (unfold n, nints; destruct step; lia). assert (Hm : (2 <= m)%nat) by (unfold m, nints; destruct step; lia).
  assert (W : 0 < INR nx) by (apply lt_0_INR, Hx). assert (H : 0 < INR ny) by (apply lt_0_INR, Hy).
  assert (El : fsub RF (fzero RF) (half RF) = -1/2) by (unfold half; cbn; lra). rewrite El. clear El.
  assert (Ex : forall k, fsub RF (fofZ RF (Z.of_nat k)) (half RF) = INR k - 1/2) by (intro k; unfold half; cbn; rewrite <- INR_IZR_INZ; lra). rewrite !Ex. clear Ex.
  rewrite !linspace_R by assumption. rewrite inner_seq by assumption.
  replace (INR nx - 1 / 2 - -1 / 2) with (INR nx) by lra. replace (INR ny - 1 / 2 - -1 / 2) with (INR ny) by lra.
  set (gx := fun i => -1/2 + INR i * (INR nx / INR (n - 1))). set (gy := fun i => -1/2 + INR i * (INR ny / INR (m - 1))).
  rewrite <- !map_rev, !map_map.
  set (full := map (fun i => (gx i, -1/2)) (seq 0 n) ++ map (fun i => (INR nx - 1/2, gy i)) (seq 1 (m - 2)) ++ map (fun i => (gx i, INR ny - 1/2)) (rev (seq 0 n)) ++ map (fun i => (-1/2, gy i)) (rev (seq 1 (m - 2)))).
  set (us := map (fun i => gx i + 1/2) (seq 0 n) ++ map (fun i => INR nx + (gy i + 1/2)) (seq 1 (m - 2)) ++ map (fun i => INR nx + INR ny + (INR nx - 1/2 - gx i)) (rev (seq 0 n)) ++ map (fun i => INR nx + INR ny + INR nx + (INR ny - 1/2 - gy i)) (rev (seq 1 (m - 2)))).
  assert (G0 : gx 0%nat = -1/2) by (unfold gx; cbn [INR]; lra).
  assert (Gn : gx (n - 1)%nat = INR nx - 1/2) by (unfold gx; field; apply not_0_INR; lia).
  exists (tl full), us.
  assert (Hd : full = (-1/2, -1/2) :: tl full).
  { unfold full. destruct n as [|n']; [lia|]. cbn [seq map app tl]. rewrite G0. reflexivity. }
  assert (Bx : forall i, (i < n)%nat -> -1/2 <= gx i <= INR nx - 1/2).
  { intros i Hi. destruct (grid_bounds (-1/2) (INR nx) n i Hn W Hi) as [B _]. unfold gx. lra. }
  assert (By : forall i, In i (seq 1 (m - 2)) -> -1/2 < gy i < INR ny - 1/2).
  { intros i Hi. apply in_seq in Hi. destruct (grid_bounds (-1/2) (INR ny) m i Hm H) as [_ [B1 B2]]; [lia|]. unfold gy. specialize (B1 ltac:(lia)). specialize (B2 ltac:(lia)). lra. }
  assert (F2 : forall (f : nat -> R * R) (g : nat -> R) l, (forall i, In i l -> along nx ny (f i) (g i)) -> Forall2 (along nx ny) (map f l) (map g l)).
  { intros f g l. induction l as [|i l IH]; intro Q; cbn [map]; constructor; [apply Q; left; reflexivity|apply IH; intros; apply Q; right; assumption]. }
  split; [change (F RF) with R; fold full; rewrite Hd at 1 2; reflexivity|]. split; [|split; [|split]].
  - rewrite <- Hd. unfold full, us. apply Forall2_app; [|apply Forall2_app; [|apply Forall2_app]]; apply F2; intros i Hi; unfold along.
    + left. apply in_seq in Hi. specialize (Bx i ltac:(lia)). lra.
    + right; left. specialize (By i Hi). lra.
    + right; right; left. apply in_rev in Hi. apply in_seq in Hi. specialize (Bx i ltac:(lia)). lra.
    + right; right; right. apply in_rev in Hi. specialize (By i Hi). lra.
  - assert (Lx : forall i j, (i < j)%nat -> gx i < gx j) by (intros; apply grid_lt; assumption). assert (Ly : forall i j, (i < j)%nat -> gy i < gy j) by (intros; apply grid_lt; assumption).
    assert (I1 : forall u, In u (map (fun i => gx i + 1/2) (seq 0 n)) -> u <= INR nx). { intros u U. apply in_map_iff in U. destruct U as [i [<- U]]. apply in_seq in U. specialize (Bx i ltac:(lia)). lra. }
    assert (I2 : forall u, In u (map (fun i => INR nx + (gy i + 1/2)) (seq 1 (m - 2))) -> INR nx < u < INR nx + INR ny). { intros u U. apply in_map_iff in U. destruct U as [i [<- U]]. specialize (By i U). lra. }
    assert (I3 : forall u, In u (map (fun i => INR nx + INR ny + (INR nx - 1/2 - gx i)) (rev (seq 0 n))) -> INR nx + INR ny <= u <= INR nx + INR ny + INR nx). { intros u U. apply in_map_iff in U. destruct U as [i [<- U]]. apply in_rev, in_seq in U. specialize (Bx i ltac:(lia)). lra. }
    assert (I4 : forall u, In u (map (fun i => INR nx + INR ny + INR nx + (INR ny - 1/2 - gy i)) (rev (seq 1 (m - 2)))) -> INR nx + INR ny + INR nx < u). { intros u U. apply in_map_iff in U. destruct U as [i [<- U]]. apply in_rev in U. specialize (By i U). lra. }
    unfold us. apply sorted_app; [|apply sorted_app; [|apply sorted_app|]|].
    + apply (sorted_map lt); [|apply sorted_seq]. intros i j Q. specialize (Lx i j Q). lra.
    + apply (sorted_map lt); [|apply sorted_seq]. intros i j Q. specialize (Ly i j Q). lra.
    + apply (sorted_map (fun x y => (y < x)%nat)); [|apply sorted_rev, sorted_seq]. intros i j Q. specialize (Lx j i Q). lra.
    + apply (sorted_map (fun x y => (y < x)%nat)); [|apply sorted_rev, sorted_seq]. intros i j Q. specialize (Ly j i Q). lra.
    + intros x y X Y. specialize (I3 x X). specialize (I4 y Y). lra.
    + intros x y X Y. specialize (I2 x X). apply in_app_or in Y. destruct Y as [Y|Y]; [specialize (I3 y Y)|specialize (I4 y Y)]; lra.
    + intros x y X Y. specialize (I1 x X). apply in_app_or in Y. destruct Y as [Y|Y]; [specialize (I2 y Y); lra|]. apply in_app_or in Y. destruct Y as [Y|Y]; [specialize (I3 y Y)|specialize (I4 y Y)]; lra.
  - unfold us. rewrite !Forall_app. repeat split; apply Forall_forall; intros u U; apply in_map_iff in U; destruct U as [i [<- U]].
    + apply in_seq in U. specialize (Bx i ltac:(lia)). lra.
    + specialize (By i U). lra.
    + apply in_rev, in_seq in U. specialize (Bx i ltac:(lia)). lra.
    + apply in_rev in U. specialize (By i U). lra.
  - assert (N1 : forall p, In p full -> p <> (-1/2, -1/2) -> In p (tl full)).
    { intros p P Q. rewrite Hd in P. destruct P as [P|P]; [congruence|exact P]. }
    split; [|split]; apply N1; try (intro Q; injection Q; intros; lra); unfold full.
    + apply in_or_app. left. apply in_map_iff. exists (n - 1)%nat. rewrite Gn. split; [reflexivity|apply in_seq; lia].
    + apply in_or_app. right. apply in_or_app. right. apply in_or_app. left. apply in_map_iff. exists (n - 1)%nat. rewrite Gn. split; [reflexivity|rewrite <- in_rev; apply in_seq; lia].
    + apply in_or_app. right. apply in_or_app. right. apply in_or_app. left. apply in_map_iff. exists 0%nat. rewrite G0. split; [reflexivity|rewrite <- in_rev; apply in_seq; lia].
Qed.
Print Assumptions C79_border.
Example C79_ex : border RF (fun _ _ => 2%nat) 4 2 None = [(-1/2, -1/2); (7/2, -1/2); (7/2, 3/2); (-1/2, 3/2); (-1/2, -1/2)].
Proof. cbv -[IZR Rplus Rminus Rmult Rdiv Ropp Rinv]. repeat (f_equal; try lra). Qed.
(** The documented "maximum separation" is exceeded: 105 pixels with a step of 10 give points 10.5 apart. *)
Theorem C79_step_refuted : exists (ceil_div : nat -> R -> nat) (n : nat) (step : R) x0 y0 x1 y1 rest,
  INR (ceil_div n step) - 1 < (INR n + 1) / step <= INR (ceil_div n step) /\
  border RF ceil_div n n (Some step) = (x0, y0) :: (x1, y1) :: rest /\ y0 = y1 /\ x1 - x0 > step.
Proof.
  exists (fun _ _ => 11%nat), 105%nat, 10. unfold border, nints. cbn [Nat.max]. rewrite linspace_R by lia.
  eexists _, _, _, _, _. split; [|split; [cbn [seq map app]; reflexivity|]].
  - rewrite !INR_IZR_INZ. cbn. lra.
  - unfold half. cbn [fsub fofZ fzero fone fdiv RF]. rewrite !INR_IZR_INZ. cbn. split; [reflexivity|]. lra.
Qed.
Print Assumptions C79_step_refuted.
