(** C48, C83: the search for the mean pixel area, boundary points, pixel maps. *)
From Verif Require Import Base BaseLemmas RBase RNBase ResUtilModel.
From Coq Require Import Reals Lra Lia ZArith Sorted.
Local Open Scope R_scope.

(** *** C48, the search *)
Section Search.
  Context {fo : FOps} (ok : fo * fo -> bool).
  Notation search := (search fo ok). Notation find_rect := (find_rect fo ok).
  Definition bnd (r : rect) := boundary fo r (Z.min ((xmax r - xmin r) / 4) 15) (Z.min ((ymax r - ymin r) / 4) 15).
  (** specification: rectangles reached by repeatedly removing an edge on which a sampled point is bad *)
  Inductive trimmed : rect -> rect -> Prop :=
  | t_refl r : trimmed r r
  | t_step r r' k edges p : (xmin r < xmax r)%Z -> (ymin r < ymax r)%Z -> bnd r = Some edges -> (k < 4)%nat -> In p (nth k edges []) -> ok p = false -> trimmed (shrink r k) r' -> trimmed r r'.
  Lemma bad_edge_some edges fuel k j : (k < 4)%nat -> bad_edge fo ok edges k fuel = Some j -> (j < 4)%nat /\ exists p, In p (nth j edges []) /\ ok p = false.
  Proof.
    revert k. induction fuel as [|f IH]; intros k Hk H; [discriminate|]. cbn [bad_edge] in H. destruct (forallb ok (nth k edges [])) eqn:E; cbn [negb] in H.
    - apply (IH (next k)); [unfold next; apply Nat.mod_upper_bound; lia|exact H].
    - injection H as <-. split; [exact Hk|]. clear - E. induction (nth k edges []) as [|p l IH]; [discriminate|]. cbn [forallb] in E. destruct (ok p) eqn:O; [destruct (IH E) as [q [I Q]]; exists q; split; [right; exact I|exact Q]|exists p; split; [left; reflexivity|exact O]].
  Qed.
  Lemma bad_edge_none edges k : (k < 4)%nat -> bad_edge fo ok edges k 4 = None -> forall j p, (j < 4)%nat -> In p (nth j edges []) -> ok p = true.
  Proof.
    intros Hk H j p Hj I. cbn [bad_edge] in H.
    destruct (forallb ok (nth k edges [])) eqn:E0; [|discriminate]. cbn [negb] in H.
    destruct (forallb ok (nth (next k) edges [])) eqn:E1; [|discriminate]. cbn [negb] in H.
    destruct (forallb ok (nth (next (next k)) edges [])) eqn:E2; [|discriminate]. cbn [negb] in H.
    destruct (forallb ok (nth (next (next (next k))) edges [])) eqn:E3; [|discriminate].
    assert (A : forallb ok (nth j edges []) = true).
    { assert (C : j = k \/ j = next k \/ j = next (next k) \/ j = next (next (next k))). { destruct k as [|[|[|[|k]]]]; [| | | |lia]; destruct j as [|[|[|[|j]]]]; try lia; unfold next; cbn; auto. }
      destruct C as [->|[->|[->| ->]]]; assumption. }
    rewrite forallb_forall in A. apply A, I.
  Qed.
  Lemma next_lt k : (next k < 4)%nat. Proof. unfold next. apply Nat.mod_upper_bound. lia. Qed.
  (** C48, termination: the rounds given suffice, for any pattern of bad points; more change nothing *)
  Theorem C48_terminates r k fuel : (k < 4)%nat -> (rounds r <= fuel)%nat -> search fuel r k <> NoFuel fo /\ search fuel r k = search (rounds r) r k.
  Proof.
    assert (G : forall fuel1 fuel2 r k, (rounds r <= fuel1)%nat -> (rounds r <= fuel2)%nat -> search fuel1 r k <> NoFuel fo /\ search fuel1 r k = search fuel2 r k).
    { clear. induction fuel1 as [|f1 IH]; intros f2 r k H1 H2; [unfold rounds in H1; lia|]. destruct f2 as [|f2]; [unfold rounds in H2; lia|]. cbn [ResUtilModel.search].
      destruct ((xmin r <? xmax r)%Z && (ymin r <? ymax r)%Z) eqn:E; [|split; [discriminate|reflexivity]]. apply andb_prop in E. destruct E as [Ex Ey]. apply Z.ltb_lt in Ex, Ey.
      destruct (boundary fo r _ _) as [edges|]; [|split; [discriminate|reflexivity]]. destruct (bad_edge fo ok edges k 4) as [j|]; [|split; [discriminate|reflexivity]].
      apply IH; unfold rounds in *; destruct j as [|[|[|j]]]; cbn [shrink xmin xmax ymin ymax]; lia. }
    intros Hk H. destruct (G fuel (rounds r) r k H (le_n _)) as [A B]. split; assumption.
  Qed.
  Lemma search_found fuel r k r' edges : (k < 4)%nat -> search fuel r k = Found fo r' edges ->
    trimmed r r' /\ (xmin r <= xmin r' < xmax r' /\ xmax r' <= xmax r)%Z /\ (ymin r <= ymin r' < ymax r' /\ ymax r' <= ymax r)%Z /\ bnd r' = Some edges /\ forall j p, (j < 4)%nat -> In p (nth j edges []) -> ok p = true.
  Proof.
    revert r k. induction fuel as [|f IH]; intros r k Hk H; [discriminate|]. cbn [ResUtilModel.search] in H.
    destruct ((xmin r <? xmax r)%Z && (ymin r <? ymax r)%Z) eqn:E; [|discriminate]. apply andb_prop in E. destruct E as [Ex Ey]. apply Z.ltb_lt in Ex, Ey.
    fold (bnd r) in H. destruct (bnd r) as [es|] eqn:Eb; [|discriminate]. destruct (bad_edge fo ok es k 4) as [j|] eqn:Ed.
    - destruct (bad_edge_some es 4 k j Hk Ed) as [Hj [p [I Q]]]. destruct (IH _ _ (next_lt j) H) as (T & X & Y & B & A). split; [eapply t_step; eassumption|].
      destruct j as [|[|[|j]]]; cbn [shrink xmin xmax ymin ymax] in X, Y; (split; [lia|]); (split; [lia|]); split; assumption.
    - injection H as <- <-. split; [apply t_refl|]. split; [lia|]. split; [lia|]. split; [exact Eb|]. apply (bad_edge_none es k Hk Ed).
  Qed.
  (** C48, result: a rectangle inside the start rectangle, of positive width and height, reached by removing only edges with a bad
      point, all of whose boundary points are good *)
  Theorem C48_found r r' edges : find_rect r = Found fo r' edges ->
    trimmed r r' /\ (xmin r <= xmin r' < xmax r' /\ xmax r' <= xmax r)%Z /\ (ymin r <= ymin r' < ymax r' /\ ymax r' <= ymax r)%Z /\ bnd r' = Some edges /\ forall p, In p (concat edges) -> ok p = true.
  Proof.
    intro H. destruct (search_found _ _ _ _ _ (Nat.lt_0_succ 3) H) as (T & X & Y & B & A). split; [exact T|]. split; [exact X|]. split; [exact Y|]. split; [exact B|]. intros p I. apply in_concat in I. destruct I as [l [Il I]]. apply (In_nth _ _ []) in Il. destruct Il as [j [Hj <-]]. apply (A j p); [|exact I].
    revert Hj. unfold bnd, boundary in B. destruct ((_ <? 1)%Z || (_ <? 1)%Z); [discriminate|]. injection B as <-. cbn [length]. lia.
  Qed.
  (** C48, good images are not trimmed *)
  Theorem C48_all_good r : (xmin r < xmax r)%Z -> (ymin r < ymax r)%Z -> (forall p, ok p = true) -> exists edges, find_rect r = Found fo r edges.
  Proof.
    intros X Y A. unfold ResUtilModel.find_rect, rounds. cbn [ResUtilModel.search]. rewrite (proj2 (Z.ltb_lt _ _) X), (proj2 (Z.ltb_lt _ _) Y). cbn [andb].
    assert (B : exists es, boundary fo r (Z.min ((xmax r - xmin r) / 4) 15) (Z.min ((ymax r - ymin r) / 4) 15) = Some es). { unfold boundary. replace (xmax r - xmin r + 1 <? 1)%Z with false by (symmetry; apply Z.ltb_ge; lia). replace (ymax r - ymin r + 1 <? 1)%Z with false by (symmetry; apply Z.ltb_ge; lia). eexists. reflexivity. }
    destruct B as [es ->]. exists es. destruct (bad_edge fo ok es 0 4) as [j|] eqn:E; [|reflexivity]. destruct (bad_edge_some es 4 0 j (Nat.lt_0_succ 3) E) as [_ [p [_ Q]]]. rewrite A in Q. discriminate.
  Qed.
End Search.

(** *** C48, the boundary points.  Specification: position along the perimeter, counter-clockwise from (xmin, ymin) *)
Definition along (r : rect) (p : R * R) (u : R) : Prop :=
  let w := IZR (xmax r - xmin r) in let h := IZR (ymax r - ymin r) in
  (0 <= u < w /\ p = (IZR (xmin r) + u, IZR (ymin r))) \/
  (w <= u < w + h /\ p = (IZR (xmax r), IZR (ymin r) + (u - w))) \/
  (w + h <= u < w + h + w /\ p = (IZR (xmax r) - (u - w - h), IZR (ymax r))) \/
  (w + h + w <= u < w + h + w + h /\ p = (IZR (xmin r), IZR (ymax r) - (u - w - h - w))).
Definition gap (g a b : R) : Prop := a < b <= a + g.
Lemma sorted_seg g a d k rest : 0 < d <= g -> Sorted (gap g) (a + INR k * d :: rest) -> Sorted (gap g) (map (fun i => a + INR i * d) (seq 0 k) ++ a + INR k * d :: rest).
Proof.
  intros Hd. revert rest. induction k as [|k IH]; intros rest H; [exact H|]. rewrite seq_S, map_app. cbn [plus map]. rewrite <- app_assoc. cbn [app]. apply IH. constructor; [exact H|]. constructor. unfold gap. rewrite S_INR. lra.
Qed.
Lemma cdiv_ge a b : (0 < b)%Z -> (a <= cdiv a b * b)%Z.
Proof. intro H. unfold cdiv. pose proof (Z.mul_div_le (- a) b H). lia. Qed.
Lemma segments_ok w : (0 < w)%Z -> let k := segments (w + 1) (Z.min (w / 4) 15) in (0 < k)%nat /\ 0 < IZR w / INR k <= 15.
Proof.
  intros Hw k. assert (K : (0 < k)%nat) by (unfold k, segments; lia). split; [exact K|]. assert (Kr : 0 < INR k) by (apply lt_0_INR, K). assert (W : 0 < IZR w) by (apply IZR_lt, Hw).
  split; [apply Rdiv_lt_0_compat; assumption|]. apply (Rmult_le_reg_r (INR k)); [exact Kr|]. replace (IZR w / INR k * INR k) with (IZR w) by (field; lra). rewrite INR_IZR_INZ, <- mult_IZR. apply IZR_le. unfold k, segments.
  destruct (Z.min (w / 4) 15 <=? 0)%Z eqn:E; [apply Z.leb_le in E|apply Z.leb_gt in E].
  - assert (w / 4 <= 0)%Z by lia. assert (w < 4)%Z by (apply Z.nle_gt; intro Q; assert (1 <= w / 4)%Z by (apply Z.div_le_lower_bound; lia); lia). lia.
  - pose proof (cdiv_ge (w + 1) _ E). assert (Z.min (w / 4) 15 <= 15)%Z by lia. set (d := Z.min (w / 4) 15) in *. set (c := cdiv (w + 1) d) in *. assert (0 < c)%Z by nia. rewrite Z2Nat.id by lia. nia.
Qed.
(** C48: the sampled points run once round the perimeter, counter-clockwise from the corner (xmin, ymin), never more than 15 pixels
    apart (the gap back to the start included), and the four corners are among them *)
Theorem C48_boundary (r : rect) edges : (xmin r < xmax r)%Z -> (ymin r < ymax r)%Z -> @bnd RF r = Some edges ->
  exists us, Forall2 (along r) (concat edges) us /\ hd_error us = Some 0 /\
    Sorted (gap 15) (us ++ [IZR (2 * (xmax r - xmin r) + 2 * (ymax r - ymin r))]) /\
    In (IZR (xmin r), IZR (ymin r)) (concat edges) /\ In (IZR (xmax r), IZR (ymin r)) (concat edges) /\
    In (IZR (xmax r), IZR (ymax r)) (concat edges) /\ In (IZR (xmin r), IZR (ymax r)) (concat edges).
Proof.
  intros Hx Hy B. unfold bnd, boundary in B. destruct ((_ <? 1)%Z || (_ <? 1)%Z); [discriminate|]. injection B as <-.
  set (kx := segments _ _). set (ky := segments _ _).
  destruct (segments_ok (xmax r - xmin r) ltac:(lia)) as [Kx [Gx1 Gx2]]. fold kx in Kx, Gx1, Gx2. destruct (segments_ok (ymax r - ymin r) ltac:(lia)) as [Ky [Gy1 Gy2]]. fold ky in Ky, Gy1, Gy2.
  set (w := IZR (xmax r - xmin r)) in *. set (h := IZR (ymax r - ymin r)) in *. clearbody kx ky.
  assert (Lp : forall a b k, linspace RF a b k = map (fun i => IZR a + INR i * (IZR (b - a) / INR k)) (seq 0 k)).
  { intros a b k. unfold linspace. apply map_ext. intro i. cbn [fadd fmul fdiv fofZ RF]. rewrite <- !INR_IZR_INZ. cbn [F RF]. lra. }
  rewrite !Lp, !map_map. fold w h. replace (IZR (xmin r - xmax r)) with (- w) by (unfold w; rewrite !minus_IZR; lra). replace (IZR (ymin r - ymax r)) with (- h) by (unfold h; rewrite !minus_IZR; lra).
  cbn [concat fofZ RF]. rewrite app_nil_r. change (F RF) with R.
  assert (Kxr : 0 < INR kx) by (apply lt_0_INR, Kx). assert (Kyr : 0 < INR ky) by (apply lt_0_INR, Ky).
  assert (W : 0 < w) by (unfold w; apply IZR_lt; lia). assert (Hh : 0 < h) by (unfold h; apply IZR_lt; lia).
  assert (Wx : INR kx * (w / INR kx) = w) by (field; lra). assert (Wy : INR ky * (h / INR ky) = h) by (field; lra).
  exists (map (fun i => 0 + INR i * (w / INR kx)) (seq 0 kx) ++ map (fun i => w + INR i * (h / INR ky)) (seq 0 ky) ++ map (fun i => w + h + INR i * (w / INR kx)) (seq 0 kx) ++ map (fun i => w + h + w + INR i * (h / INR ky)) (seq 0 ky)).
  assert (Bx : forall i, In i (seq 0 kx) -> 0 <= INR i * (w / INR kx) < w). { intros i I. apply in_seq in I. split; [apply Rmult_le_pos; [apply pos_INR|lra]|]. rewrite <- Wx at 2. apply Rmult_lt_compat_r; [exact Gx1|apply lt_INR; lia]. }
  assert (By : forall i, In i (seq 0 ky) -> 0 <= INR i * (h / INR ky) < h). { intros i I. apply in_seq in I. split; [apply Rmult_le_pos; [apply pos_INR|lra]|]. rewrite <- Wy at 2. apply Rmult_lt_compat_r; [exact Gy1|apply lt_INR; lia]. }
  assert (Nx : forall i, INR i * (- w / INR kx) = - (INR i * (w / INR kx))) by (intro i; unfold Rdiv; ring). assert (Ny : forall i, INR i * (- h / INR ky) = - (INR i * (h / INR ky))) by (intro i; unfold Rdiv; ring).
  assert (F2 : forall (f : nat -> R * R) (g : nat -> R) l, (forall i, In i l -> along r (f i) (g i)) -> Forall2 (along r) (map f l) (map g l)).
  { intros f g l. induction l as [|i l IH]; intro Q; cbn [map]; constructor; [apply Q; left; reflexivity|apply IH; intros; apply Q; right; assumption]. }
  split; [|split; [|split; [|split; [|split; [|split]]]]].
  - apply Forall2_app; [|apply Forall2_app; [|apply Forall2_app]]; apply F2; intros i I; unfold along; fold w h.
    + left. specialize (Bx i I). split; [lra|]. f_equal; lra.
    + right; left. specialize (By i I). split; [lra|]. f_equal; lra.
    + right; right; left. specialize (Bx i I). split; [lra|]. rewrite Nx. f_equal; lra.
    + right; right; right. specialize (By i I). split; [lra|]. rewrite Ny. f_equal; lra.
  - destruct kx as [|k]; [lia|]. cbn [seq map app hd_error INR]. f_equal. lra.
  - rewrite <- !app_assoc. replace (IZR (2 * (xmax r - xmin r) + 2 * (ymax r - ymin r))) with (w + h + w + INR ky * (h / INR ky)) by (rewrite Wy; unfold w, h; rewrite plus_IZR, !mult_IZR; lra).
    assert (HD : forall (a : R) d k rest, (0 < k)%nat -> exists tl, map (fun i => a + INR i * d) (seq 0 k) ++ rest = a :: tl). { intros a d [|k] rest Hk; [lia|]. eexists. cbn [seq map app INR]. f_equal. lra. }
    assert (S4 : Sorted (gap 15) (map (fun i => w + h + w + INR i * (h / INR ky)) (seq 0 ky) ++ [w + h + w + INR ky * (h / INR ky)])) by (apply sorted_seg; [split; assumption|constructor; [constructor|constructor]]).
    destruct (HD (w + h + w) (h / INR ky) ky [w + h + w + INR ky * (h / INR ky)] Ky) as [t4 E4]. rewrite E4 in *.
    assert (S3 : Sorted (gap 15) (map (fun i => w + h + INR i * (w / INR kx)) (seq 0 kx) ++ w + h + w :: t4)). { replace (w + h + w) with (w + h + INR kx * (w / INR kx)) in S4 |- * by lra. apply sorted_seg; [split; assumption|exact S4]. }
    destruct (HD (w + h) (w / INR kx) kx (w + h + w :: t4) Kx) as [t3 E3]. rewrite E3 in *.
    assert (S2 : Sorted (gap 15) (map (fun i => w + INR i * (h / INR ky)) (seq 0 ky) ++ w + h :: t3)). { replace (w + h) with (w + INR ky * (h / INR ky)) in S3 |- * by lra. apply sorted_seg; [split; assumption|exact S3]. }
    destruct (HD w (h / INR ky) ky (w + h :: t3) Ky) as [t2 E2]. rewrite E2 in *.
    replace w with (0 + INR kx * (w / INR kx)) in S2 by lra. replace (w :: t2) with (0 + INR kx * (w / INR kx) :: t2) by (f_equal; lra). apply sorted_seg; [split; assumption|exact S2].
  - apply in_or_app. left. apply in_map_iff. exists 0%nat. split; [cbn [INR]; f_equal; lra|apply in_seq; lia].
  - apply in_or_app. right. apply in_or_app. left. apply in_map_iff. exists 0%nat. split; [cbn [INR]; f_equal; lra|apply in_seq; lia].
  - do 2 (apply in_or_app; right). apply in_or_app. left. apply in_map_iff. exists 0%nat. split; [cbn [INR]; f_equal; lra|apply in_seq; lia].
  - do 3 (apply in_or_app; right). apply in_map_iff. exists 0%nat. split; [cbn [INR]; f_equal; lra|apply in_seq; lia].
Qed.
(** C48, the mean: when every rectangle's sky area is A times its pixel area (not more than 2 pi), the result is A, whichever
    rectangle the search ends with *)
Theorem C48_mean (ok : RF * RF -> bool) (two_pi A : R) (sky : list (R * R) -> R) r a : (forall r' edges, @bnd RF r' = Some edges -> (xmin r <= xmin r' <= xmax r' /\ xmax r' <= xmax r)%Z -> (ymin r <= ymin r' <= ymax r' /\ ymax r' <= ymax r)%Z -> sky (concat edges) = A * IZR (area r') /\ A * IZR (area r') <= two_pi) ->
  pixel_area RF ok two_pi sky r = Some a -> a = A.
Proof.
  intros H P. unfold pixel_area in P. destruct (find_rect RF ok r) as [r' edges| |] eqn:E; try discriminate. destruct (C48_found ok r r' edges E) as (_ & X & Y & B & _). destruct (H r' edges B) as [S L]; [lia|lia|].
  destruct (area r' =? 0)%Z eqn:Z0; [discriminate|]. apply Z.eqb_neq in Z0. injection P as <-. change (F RF) with R. unfold fgt. cbn [flt RF fdiv fofZ fmul fsub]. change (F RF) with R in *. rewrite S.
  unfold Rltb. destruct (Rlt_dec two_pi (A * IZR (area r'))) as [Q|_]; [lra|]. field. apply not_0_IZR, Z0.
Qed.
(** the search always gives an answer when there is a rectangle, and none with zero area *)
Theorem C48_area_positive (fo : FOps) ok r r' edges : find_rect fo ok r = Found fo r' edges -> (0 < area r')%Z.
Proof. intro E. destruct (C48_found ok r r' edges E) as (_ & X & Y & _). unfold area. nia. Qed.
Print Assumptions C48_terminates.
Print Assumptions C48_found.
Print Assumptions C48_all_good.
Print Assumptions C48_boundary.
Print Assumptions C48_mean.
Print Assumptions C48_area_positive.
(** a 40 x 9 rectangle whose left column is bad: one column is removed after one round *)
Definition ex_rect : rect := {| xmin := 0; xmax := 40; ymin := 0; ymax := 9 |}.
Definition ex_okb (p : B64 * B64) : bool := negb (feq B64 (fst p) (fzero B64)).
Example ex_find : match find_rect B64 ex_okb ex_rect with Found _ r e => (xmin r, xmax r, ymin r, ymax r, map (@length _) e) = (1, 40, 1, 9, [5; 5; 5; 5]%nat)%Z | _ => False end. Proof. vm_compute. reflexivity. Qed.
Example ex_bnd : exists e, @bnd RF ex_rect = Some e /\ (xmin ex_rect < xmax ex_rect)%Z /\ (ymin ex_rect < ymax ex_rect)%Z. Proof. eexists. split; [reflexivity|]. cbn. lia. Qed.
(** a sky whose area is a hundredth of the pixel area: from the first corner and the opposite one *)
Definition ex_sky (l : list (R * R)) : R := let p := nth 0 l (0, 0) in let q := nth (Nat.div (length l) 2) l (0, 0) in (fst q - fst p) * (snd q - snd p) / 100.
Example ex_mean : forall r edges, @bnd RF r = Some edges -> (xmin ex_rect <= xmin r <= xmax r /\ xmax r <= xmax ex_rect)%Z -> (ymin ex_rect <= ymin r <= ymax r /\ ymax r <= ymax ex_rect)%Z -> ex_sky (concat edges) = 1 / 100 * IZR (area r) /\ 1 / 100 * IZR (area r) <= 6.
Proof.
  intros r edges B X Y. cbn in X, Y. split.
  - unfold bnd, boundary in B. destruct ((_ <? 1)%Z || (_ <? 1)%Z); [discriminate|]. injection B as <-. set (kx := segments _ _). set (ky := segments _ _). assert (Kx : (0 < kx)%nat) by (unfold kx, segments; lia). assert (Ky : (0 < ky)%nat) by (unfold ky, segments; lia). clearbody kx ky.
    unfold ex_sky, linspace. rewrite !map_map. cbn [concat]. rewrite app_nil_r. change (F RF) with R. rewrite !app_length, !map_length, !seq_length.
    replace (Nat.div (kx + (ky + (kx + ky))) 2) with (kx + ky)%nat by (replace (kx + (ky + (kx + ky)))%nat with ((kx + ky) * 2)%nat by lia; rewrite Nat.div_mul; lia).
    rewrite (app_nth2 _ _ _ (n := (kx + ky)%nat)) by (rewrite map_length, seq_length; lia). rewrite map_length, seq_length. rewrite (app_nth2 _ _ _ (n := (kx + ky - kx)%nat)) by (rewrite map_length, seq_length; lia). rewrite map_length, seq_length. replace (kx + ky - kx - ky)%nat with 0%nat by lia.
    destruct kx as [|kx]; [lia|]. cbn [seq map app nth fst snd Z.of_nat fofZ fadd fmul fdiv RF]. unfold area. rewrite mult_IZR, !minus_IZR. change (F RF) with R. lra.
  - assert (IZR (area r) <= 360); [|lra]. apply IZR_le. unfold area. nia.
Qed.

(** *** C83, pixel maps *)
Section C83.
  Context {fo : FOps} (pm : bool -> bool -> fo -> fo -> fo * fo) (spline : Z -> list fo -> list fo -> list (list fo) -> fo -> fo -> fo).
  (** the bounding boxes are put back, also when the order is refused *)
  Theorem C83_boxes_restored nx ny bbx bby hasto d step order : snd (pixmap fo pm spline nx ny bbx bby hasto d step order) = (match bbx with Some _ => true | None => false end, hasto).
  Proof.
    unfold pixmap. destruct (grid_range nx bbx) as [x0 x1]. destruct (grid_range ny bby) as [y0 y1]. cbn [snd]. destruct bbx, hasto; destruct (dfrom d), (dto d); reflexivity.
  Qed.
  (** with stepsize 1 every pixel is mapped by the WCSs *)
  Theorem C83_full nx ny bbx bby hasto d order : exists f, fst (pixmap fo pm spline nx ny bbx bby hasto d 1 order) = PixMap fo f /\
    forall x y, f x y = pm (match bbx with Some _ => negb (dfrom d) | None => false end) (hasto && negb (dto d)) (fofZ fo x) (fofZ fo y).
  Proof.
    unfold pixmap. destruct (grid_range nx bbx) as [x0 x1]. destruct (grid_range ny bby) as [y0 y1]. cbn [fst Z.eqb orb]. eexists. split; [reflexivity|]. intros x y. destruct bbx; reflexivity.
  Qed.
  (** orders other than 1 and 3 are refused exactly when interpolation would be used *)
  Theorem C83_order nx ny bbx bby hasto d step order : fst (pixmap fo pm spline nx ny bbx bby hasto d step order) = BadOrder fo <->
    step <> 1%Z /\ order <> 1%Z /\ order <> 3%Z /\ (let '(x0, x1) := grid_range nx bbx in let '(y0, y1) := grid_range ny bby in 10 < x1 - x0 + 1 \/ 10 < y1 - y0 + 1)%Z.
  Proof.
    unfold pixmap. destruct (grid_range nx bbx) as [x0 x1]. destruct (grid_range ny bby) as [y0 y1]. cbn [fst].
    destruct (Z.eqb_spec step 1) as [->|S]; cbn [orb]; [split; [discriminate|intros [H _]; congruence]|].
    destruct (Z.leb_spec (Z.max (x1 - x0 + 1) (y1 - y0 + 1)) 10) as [L|L]; [split; [discriminate|intros (_ & _ & _ & H); lia]|].
    destruct (Z.eqb_spec order 1) as [->|O1]; cbn [orb negb]; [split; [|intros (_ & H & _); congruence]; destruct (forallb _ _); discriminate|].
    destruct (Z.eqb_spec order 3) as [->|O3]; cbn [orb negb]; [split; [|intros (_ & _ & H & _); congruence]; destruct (forallb _ _); discriminate|].
    split; [intros _|reflexivity]. repeat split; try assumption. lia.
  Qed.
End C83.
(** the coarse grid runs from end to end, with at least ten points or one per pixel *)
Theorem C83_grid (a b step : Z) : (a < b)%Z -> (1 < step)%Z -> let n := npts (b - a + 1) step in let g : list R := coarse RF a b n in
  (Z.min 10 (b - a + 1) <= n <= b - a + 1)%Z /\ length g = Z.to_nat n /\ hd_error g = Some (IZR a) /\ last g (IZR 0) = IZR b /\ StronglySorted Rlt g /\ Forall (fun x => IZR a <= x <= IZR b) g.
Proof.
  intros Hab Hs n g. assert (Hw : (0 < step)%Z) by lia.
  assert (C : (cdiv (b - a + 1) step <= b - a + 1)%Z). { unfold cdiv. assert (- (b - a + 1) <= - (b - a + 1) / step)%Z; [|lia]. apply Z.div_le_lower_bound; nia. }
  assert (N : (2 <= n <= b - a + 1)%Z) by (unfold n, npts; lia).
  assert (Gf : forall i, (i < Z.to_nat n)%nat -> (if Z.of_nat i =? n - 1 then fofZ RF b else fadd RF (fmul RF (fofZ RF (Z.of_nat i)) (fdiv RF (fofZ RF (b - a)) (fofZ RF (n - 1)))) (fofZ RF a))%Z = IZR a + INR i * (IZR (b - a) / IZR (n - 1))).
  { intros i Hi. cbn [fofZ fadd fmul fdiv RF F]. rewrite <- INR_IZR_INZ. destruct (Z.eqb_spec (Z.of_nat i) (n - 1)) as [E|_]; [|lra]. rewrite INR_IZR_INZ, E, (minus_IZR b a). field. apply not_0_IZR. lia. }
  assert (Ge : g = map (fun i => IZR a + INR i * (IZR (b - a) / IZR (n - 1))) (seq 0 (Z.to_nat n))) by (unfold g, coarse; apply map_ext_in; intros i I; apply in_seq in I; apply Gf; lia).
  assert (P : 0 < IZR (n - 1)) by (apply IZR_lt; lia). assert (W : 0 < IZR (b - a)) by (apply IZR_lt; lia). assert (D : 0 < IZR (b - a) / IZR (n - 1)) by (apply Rdiv_lt_0_compat; assumption).
  split; [unfold n, npts; lia|]. split; [unfold g, coarse; rewrite map_length, seq_length; reflexivity|]. rewrite Ge. split; [|split; [|split]].
  - destruct (Z.to_nat n) as [|k] eqn:E; [lia|]. cbn [seq map hd_error INR]. f_equal. lra.
  - replace (Z.to_nat n) with (S (Z.to_nat (n - 1))) by lia. rewrite seq_S, map_app. cbn [map plus]. rewrite last_last. rewrite INR_IZR_INZ, Z2Nat.id by lia. rewrite (minus_IZR b a). field. lra.
  - assert (SS : StronglySorted lt (seq 0 (Z.to_nat n))) by (clear; generalize 0%nat; induction (Z.to_nat n) as [|k IH]; intro s; cbn [seq]; constructor; [apply IH|apply Forall_forall; intros x H; apply in_seq in H; lia]).
    revert SS. clear - D. generalize (seq 0 (Z.to_nat n)). intros l SS. induction SS as [|i l SS IH F]; cbn [map]; [constructor|]. constructor; [exact IH|]. apply Forall_forall. intros y I. apply in_map_iff in I. destruct I as [j [<- I]]. rewrite Forall_forall in F. specialize (F j I). apply lt_INR in F. nra.
  - apply Forall_forall. intros y I. apply in_map_iff in I. destruct I as [i [<- I]]. apply in_seq in I. pose proof (pos_INR i). assert (INR i <= IZR (n - 1)) by (rewrite INR_IZR_INZ; apply IZR_le; lia).
    assert (E : IZR (n - 1) * (IZR (b - a) / IZR (n - 1)) = IZR b - IZR a) by (rewrite (minus_IZR b a); field; lra). split; nra.
Qed.
(** C83, accuracy: for an affine mapping and an interpolator that reproduces affine functions on grids, the sparse map equals the
    full one inside the bounding box; outside of it it is not a number *)
Definition aff (c : R * R * R) (x y : R) : R := let '(a, b, d) := c in a + b * x + d * y.
Definition affmap (cx cy : R * R * R) : bool -> bool -> RN -> RN -> RN * RN := fun _ _ x y => match x, y with Some x, Some y => (Some (aff cx x y), Some (aff cy x y)) | _, _ => (None, None) end.
Definition reproduces (spline : Z -> list RN -> list RN -> list (list RN) -> RN -> RN -> RN) (order : Z) : Prop :=
  forall ys xs c, (2 <= length xs)%nat -> (2 <= length ys)%nat -> StronglySorted Rlt xs -> StronglySorted Rlt ys ->
  forall x y, (exists l h, In l xs /\ In h xs /\ l <= x <= h) -> (exists l h, In l ys /\ In h ys /\ l <= y <= h) ->
  spline order (map Some ys) (map Some xs) (map (fun y => map (fun x => Some (aff c x y)) xs) ys) (Some y) (Some x) = Some (aff c x y).
Lemma coarse_RN a b n : (2 <= n)%Z -> coarse RN a b n = map Some (coarse RF a b n).
Proof.
  intro N. unfold coarse. rewrite map_map. apply map_ext. intro i. destruct (Z.of_nat i =? n - 1)%Z; [reflexivity|]. cbn [fadd fmul fdiv fofZ RN RF rn2]. unfold Reqb. destruct (Req_EM_T (IZR (n - 1)) 0) as [Z0|_]; [|reflexivity]. apply eq_IZR_R0 in Z0. lia.
Qed.
Theorem C83_affine cx cy spline nx ny bbx bby hasto d step order x0 x1 y0 y1 : reproduces spline order -> (order = 1 \/ order = 3)%Z -> (1 < step)%Z ->
  grid_range nx bbx = (x0, x1) -> grid_range ny bby = (y0, y1) -> (x0 < x1)%Z -> (y0 < y1)%Z ->
  exists f, fst (pixmap RN (affmap cx cy) spline nx ny bbx bby hasto d step order) = PixMap RN f /\
    forall x y, (x0 <= x <= x1)%Z -> (y0 <= y <= y1)%Z -> f x y = (Some (aff cx (IZR x) (IZR y)), Some (aff cy (IZR x) (IZR y))).
Proof.
  intros Sp Ho Hs Gx Gy Hx Hy. unfold pixmap. rewrite Gx, Gy. cbn [fst]. destruct (Z.eqb_spec step 1) as [E|_]; [lia|]. cbn [orb].
  destruct (Z.max (x1 - x0 + 1) (y1 - y0 + 1) <=? 10)%Z; [eexists; split; [reflexivity|intros; reflexivity]|].
  replace ((order =? 1) || (order =? 3))%Z with true by (destruct Ho as [-> | ->]; reflexivity). cbn [negb].
  destruct (C83_grid x0 x1 step Hx Hs) as (Nx & Lx & Hdx & Lax & Sx & Fx). destruct (C83_grid y0 y1 step Hy Hs) as (Ny & Ly & Hdy & Lay & Sy & Fy).
  rewrite !coarse_RN by lia. set (xs := coarse RF x0 x1 _) in *. set (ys := coarse RF y0 y1 _) in *.
  assert (G : map (fun y : option R => map (fun x : option R => affmap cx cy (match bbx with Some _ => true | None => false end && negb (dfrom d)) (hasto && negb (dto d)) x y) (map Some xs)) (map Some ys) = map (fun y => map (fun x => (Some (aff cx x y), Some (aff cy x y))) xs) ys).
  { rewrite map_map. apply map_ext. intro y. rewrite map_map. reflexivity. }
  change (F RN) with (option R) in *. change (F RF) with R in *. rewrite G.
  replace (forallb _ _) with true.
  2:{ symmetry. apply forallb_forall. intros row I. apply in_map_iff in I. destruct I as [y [<- _]]. apply forallb_forall. intros q I. apply in_map_iff in I. destruct I as [x [<- _]]. reflexivity. }
  eexists. split; [reflexivity|]. intros x y Ix Iy. cbn beta.
  replace ((x0 <=? x) && (x <=? x1) && (y0 <=? y) && (y <=? y1))%Z with true by (symmetry; rewrite !andb_true_iff, !Z.leb_le; lia).
  assert (Ex : exists l h, In l xs /\ In h xs /\ l <= IZR x <= h).
  { exists (IZR x0), (IZR x1). split; [destruct xs; [discriminate|]; injection Hdx as ->; left; reflexivity|]. split; [rewrite <- Lax; destruct (@exists_last _ xs) as [l' [a E]]; [intro Q; rewrite Q in Hdx; discriminate|]; rewrite E, last_last; apply in_or_app; right; left; reflexivity|]. split; apply IZR_le; lia. }
  assert (Ey : exists l h, In l ys /\ In h ys /\ l <= IZR y <= h).
  { exists (IZR y0), (IZR y1). split; [destruct ys; [discriminate|]; injection Hdy as ->; left; reflexivity|]. split; [rewrite <- Lay; destruct (@exists_last _ ys) as [l' [a E]]; [intro Q; rewrite Q in Hdy; discriminate|]; rewrite E, last_last; apply in_or_app; right; left; reflexivity|]. split; apply IZR_le; lia. }
  rewrite !map_map. apply (f_equal2 pair).
  - rewrite <- (Sp ys xs cx ltac:(lia) ltac:(lia) Sx Sy (IZR x) (IZR y) Ex Ey). f_equal. apply map_ext. intro. rewrite map_map. reflexivity.
  - rewrite <- (Sp ys xs cy ltac:(lia) ltac:(lia) Sx Sy (IZR x) (IZR y) Ex Ey). f_equal. apply map_ext. intro. rewrite map_map. reflexivity.
Qed.
(** C83: when the WCS fails anywhere on the coarse grid the full map is computed *)
Theorem C83_fallback (fo : FOps) pm spline nx ny bbx bby hasto d step order x0 x1 y0 y1 gx gy : grid_range nx bbx = (x0, x1) -> grid_range ny bby = (y0, y1) -> (order = 1 \/ order = 3)%Z ->
  let bf := match bbx with Some _ => negb (dfrom d) | None => false end in let bt := hasto && negb (dto d) in
  In gx (coarse fo x0 x1 (npts (x1 - x0 + 1) step)) -> In gy (coarse fo y0 y1 (npts (y1 - y0 + 1) step)) -> fisfinite fo (fst (pm bf bt gx gy)) && fisfinite fo (snd (pm bf bt gx gy)) = false ->
  exists f, fst (pixmap fo pm spline nx ny bbx bby hasto d step order) = PixMap fo f /\ forall x y, f x y = pm bf bt (fofZ fo x) (fofZ fo y).
Proof.
  intros Gx Gy Ho bf bt Ix Iy Q. unfold pixmap. rewrite Gx, Gy. cbn [fst]. assert (Eb : match bbx with Some _ => true | None => false end && negb (dfrom d) = bf) by (unfold bf; destruct bbx; reflexivity). rewrite Eb. fold bt.
  destruct ((step =? 1)%Z || _); [eexists; split; [reflexivity|reflexivity]|]. replace ((order =? 1) || (order =? 3))%Z with true by (destruct Ho as [-> | ->]; reflexivity). cbn [negb].
  replace (forallb _ _) with false; [eexists; split; reflexivity|]. symmetry. match goal with |- ?b = false => destruct b eqn:E end; [|reflexivity]. rewrite forallb_forall in E. specialize (E _ (in_map _ _ _ Iy)). rewrite forallb_forall in E. specialize (E _ (in_map _ _ _ Ix)). cbn beta in E. congruence.
Qed.
(** the claimed "step size no larger than requested": 105 pixels with stepsize 10 are sampled 10.4 pixels apart *)
Theorem C83_spacing_refuted : exists a b step, (a < b)%Z /\ (1 < step)%Z /\ IZR (b - a) / IZR (npts (b - a + 1) step - 1) > IZR step.
Proof. exists 0%Z, 104%Z, 10%Z. split; [lia|]. split; [lia|]. change (npts (104 - 0 + 1) 10) with 11%Z. cbn. lra. Qed.
(** ... and "no more than 1/10 of image size" is 1/9 *)
Theorem C83_tenth_refuted : exists a b step, (a < b)%Z /\ (1 < step)%Z /\ IZR (b - a) / IZR (npts (b - a + 1) step - 1) > IZR (b - a + 1) / 10.
Proof. exists 0%Z, 999%Z, 500%Z. split; [lia|]. split; [lia|]. change (npts (999 - 0 + 1) 500) with 10%Z. cbn. lra. Qed.
(** a bounding box one pixel high (or three with bicubic interpolation) leaves fewer grid points than a spline of that order needs: order + 1 *)
Theorem C83_thin_refuted : exists w h step, (10 < w)%Z /\ (1 <= h)%Z /\ (1 < step)%Z /\ (npts h step < 1 + 1)%Z /\ exists h', (1 < h')%Z /\ (npts h' step < 3 + 1)%Z.
Proof. exists 100%Z, 1%Z, 5%Z. repeat split; try lia. exists 3%Z. split; [lia|reflexivity]. Qed.
(** "disable_bbox = from" disables the box of the full map, not that of the sparse map: there pixels outside the box are NaN *)
Definition ident : bool -> bool -> B64 -> B64 -> B64 * B64 := fun _ _ x y => (x, y).
Theorem C83_disable_refuted : exists spline bbx bby f g, fst (pixmap B64 ident spline 40 40 bbx bby false DFrom 1 1) = PixMap B64 f /\ fst (pixmap B64 ident spline 40 40 bbx bby false DFrom 5 1) = PixMap B64 g /\
  fisfinite B64 (fst (f 2%Z 2%Z)) = true /\ fisnan B64 (fst (g 2%Z 2%Z)) = true.
Proof.
  exists (fun _ _ _ _ y x => x), (Some (10, 30)%Z), (Some (10, 30)%Z). do 2 eexists. split; [unfold pixmap; cbn [grid_range fst]; reflexivity|]. split; [|split].
  - unfold pixmap. cbn [grid_range fst]. match goal with |- context [forallb ?p ?g] => replace (forallb p g) with true by (vm_compute; reflexivity) end. reflexivity.
  - vm_compute. reflexivity.
  - vm_compute. reflexivity.
Qed.
Print Assumptions C83_boxes_restored.
Print Assumptions C83_full.
Print Assumptions C83_order.
Print Assumptions C83_grid.
Print Assumptions C83_affine.
Print Assumptions C83_fallback.
Print Assumptions C83_spacing_refuted.
Print Assumptions C83_tenth_refuted.
Print Assumptions C83_thin_refuted.
Print Assumptions C83_disable_refuted.
(** an interpolator meeting the hypothesis: the plane through the first grid cell *)
Definition ex_spline (o : Z) (ys xs : list RN) (v : list (list RN)) (y x : RN) : RN :=
  match ys, xs, v, x, y with
  | Some y0 :: Some y1 :: _, Some x0 :: Some x1 :: _, (Some a :: Some b :: _) :: (Some c :: _) :: _, Some x, Some y => Some (a + (b - a) / (x1 - x0) * (x - x0) + (c - a) / (y1 - y0) * (y - y0))
  | _, _, _, _, _ => None
  end.
Example ex_reproduces : reproduces ex_spline 1.
Proof.
  intros ys xs c Lx Ly Sx Sy x y _ _. destruct xs as [|x0 [|x1 xs]]; [cbn in Lx; lia|cbn in Lx; lia|]. destruct ys as [|y0 [|y1 ys]]; [cbn in Ly; lia|cbn in Ly; lia|]. inversion Sx as [|? ? _ Fx]. inversion Sy as [|? ? _ Fy]. subst. inversion Fx. inversion Fy. subst. cbn. destruct c as [[a b] d]. cbn. f_equal. field. lra.
Qed.
Example ex_affine : grid_range 40 (Some (3, 50)%Z) = (3, 39)%Z /\ grid_range 20 (Some (-1, 19)%Z) = (0, 19)%Z. Proof. split; reflexivity. Qed.
Example ex_npts : (npts 37 5, npts 20 5, npts 7 5)%Z = (10, 10, 7)%Z. Proof. reflexivity. Qed.
