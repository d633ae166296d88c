(** C89 (fiducial points), C90 (polygon simplification), in exact arithmetic *)
From Coq Require Import Reals Lra Lia.
From Verif Require Import Base AlModel RBase AlProps.
Import ListNotations.
Local Open Scope R_scope.

(** ** C89 *)
(** C's atan2 *)
Definition atan2 (y x : R) : R :=
  if Rlt_dec 0 x then atan (y / x) else
  if Rlt_dec x 0 then (if Rle_dec 0 y then atan (y / x) + PI else atan (y / x) - PI) else
  if Rlt_dec 0 y then PI / 2 else if Rlt_dec y 0 then - (PI / 2) else 0.
Definition rad (d : R) : R := d * PI / 180.
Definition deg (r : R) : R := r * 180 / PI.
Definition mod360 (d : R) : R := d - 360 * IZR (Int_part (d / 360)).
Lemma sqrt_scale x y : x <> 0 -> sqrt (x * x + y * y) = Rabs x * sqrt (1 + (y / x) * (y / x)).
Proof.
  intros H. rewrite <- (sqrt_Rsqr_abs x), <- sqrt_mult.
  - f_equal. unfold Rsqr. field. assumption.
  - apply Rle_0_sqr.
  - pose proof (Rle_0_sqr (y / x)). unfold Rsqr in *. lra.
Qed.
Lemma root_pos t : 0 < sqrt (1 + t * t). Proof. apply sqrt_lt_R0. pose proof (Rle_0_sqr t). unfold Rsqr in *. lra. Qed.
Lemma atan2_law y x : sqrt (x * x + y * y) * cos (atan2 y x) = x /\ sqrt (x * x + y * y) * sin (atan2 y x) = y.
Proof.
  unfold atan2. pose proof (root_pos (y / x)) as Hp. destruct (Rlt_dec 0 x) as [Hx|Hx].
  - rewrite sqrt_scale, cos_atan, sin_atan by lra. rewrite Rabs_right by lra. unfold Rsqr. split; field; lra.
  - destruct (Rlt_dec x 0) as [Hx'|Hx'].
    + assert (G : cos (if Rle_dec 0 y then atan (y / x) + PI else atan (y / x) - PI) = - cos (atan (y / x)) /\ sin (if Rle_dec 0 y then atan (y / x) + PI else atan (y / x) - PI) = - sin (atan (y / x))).
      { destruct (Rle_dec 0 y).
        - split; [apply neg_cos|apply neg_sin].
        - split; [rewrite cos_minus, cos_PI, sin_PI; ring|rewrite sin_minus, cos_PI, sin_PI; ring]. }
      destruct G as [-> ->]. rewrite sqrt_scale, cos_atan, sin_atan by lra. rewrite Rabs_left by lra. unfold Rsqr. split; field; lra.
    + assert (x = 0) by lra. subst. rewrite Rmult_0_l, Rplus_0_l. destruct (Rlt_dec 0 y); [|destruct (Rlt_dec y 0)].
      * rewrite sqrt_square by lra. rewrite cos_PI2, sin_PI2. split; ring.
      * replace (y * y) with (- y * - y) by ring. rewrite sqrt_square by lra. rewrite cos_neg, sin_neg, cos_PI2, sin_PI2. split; ring.
      * assert (y = 0) by lra. subst. rewrite Rmult_0_l, sqrt_0. split; ring.
Qed.
Lemma atan2_right y x : 0 <= x -> - (PI / 2) <= atan2 y x <= PI / 2.
Proof.
  intros H. unfold atan2. pose proof PI_RGT_0. destruct (Rlt_dec 0 x); [pose proof (atan_bound (y / x)); lra|]. destruct (Rlt_dec x 0); [lra|].
  destruct (Rlt_dec 0 y); [lra|]. destruct (Rlt_dec y 0); lra.
Qed.
(** the unit vector of a sky position in degrees *)
Definition unit (p : R * R) : R * R * R := (cos (rad (snd p)) * cos (rad (fst p)), cos (rad (snd p)) * sin (rad (fst p)), sin (rad (snd p))).
Definition fst3 (v : R * R * R) := fst (fst v).
Definition snd3 (v : R * R * R) := snd (fst v).
Definition trd3 (v : R * R * R) := snd v.
(** half way between the least and the greatest of some numbers *)
Definition midpoint (l : list R) (m : R) : Prop := exists a b, In a l /\ In b l /\ (forall x, In x l -> a <= x <= b) /\ m = (a + b) / 2.
Lemma mid_midpoint (l : list R) : match mid RF l with None => l = [] | Some m => midpoint l m end.
Proof.
  destruct l as [|x l]; cbn [mid]; [reflexivity|]. destruct (lmin_spec l x) as (H1 & H2 & H3). destruct (lmax_spec l x) as (K1 & K2 & K3).
  exists (lmin RF x l), (lmax RF x l). split; [destruct H1 as [->|H1]; [now left|now right]|]. split; [destruct K1 as [->|K1]; [now left|now right]|].
  split; [intros y [<-|Hy]; [now split|split; auto]|]. cbn [RF fdiv fadd fofZ]. unfold Rdiv. f_equal. apply Rplus_comm.
Qed.
Lemma midpoint_fun l m m' : midpoint l m -> midpoint l m' -> m = m'.
Proof.
  intros (a & b & Ha & Hb & Hl & ->) (a' & b' & Ha' & Hb' & Hl' & ->). pose proof (Hl a' Ha'). pose proof (Hl b' Hb'). pose proof (Hl' a Ha). pose proof (Hl' b Hb). lra.
Qed.
Lemma mod360_range d : 0 <= mod360 d < 360.
Proof. unfold mod360. destruct (base_Int_part (d / 360)) as [H1 H2]. unfold Rdiv in *. lra. Qed.
Lemma trig_mod d : cos (rad (mod360 d)) = cos (rad d) /\ sin (rad (mod360 d)) = sin (rad d).
Proof.
  unfold mod360, rad. set (z := Int_part _). replace ((d - 360 * IZR z) * PI / 180) with (d * PI / 180 + 2 * IZR (- z) * PI) by (rewrite opp_IZR; field).
  set (a := d * PI / 180). assert (G : forall n : nat, (cos (a + 2 * INR n * PI) = cos a /\ sin (a + 2 * INR n * PI) = sin a) /\ (cos (a - 2 * INR n * PI) = cos a /\ sin (a - 2 * INR n * PI) = sin a)).
  { intros n. split; [split; [apply cos_period|apply sin_period]|].
    split; [rewrite <- (cos_period (a - 2 * INR n * PI) n)|rewrite <- (sin_period (a - 2 * INR n * PI) n)]; f_equal; ring. }
  destruct (Z.le_ge_cases 0 (- z)) as [H|H].
  - rewrite <- (Z2Nat.id _ H), <- INR_IZR_INZ. apply G.
  - replace (a + 2 * IZR (- z) * PI) with (a - 2 * INR (Z.to_nat z) * PI) by (rewrite INR_IZR_INZ, Z2Nat.id, opp_IZR by lia; ring). apply G.
Qed.
Lemma rad_deg r : rad (deg r) = r. Proof. unfold rad, deg. field. apply PI_neq0. Qed.
Definition norm3 (v : R * R * R) : R := sqrt (fst3 v * fst3 v + snd3 v * snd3 v + trd3 v * trd3 v).
(** the fiducial points at the middle of the box around the vertices' unit vectors, with longitude in [0, 360) and latitude in [-90, 90];
    only an empty footprint has none *)
Theorem C89_direction (fp : list (R * R)) : match fiducial RF cos sin atan2 rad deg mod360 fp with
  | None => fp = []
  | Some (lon, lat) => 0 <= lon < 360 /\ -90 <= lat <= 90 /\
      exists m, midpoint (map (fun p => fst3 (unit p)) fp) (fst3 m) /\ midpoint (map (fun p => snd3 (unit p)) fp) (snd3 m) /\
        midpoint (map (fun p => trd3 (unit p)) fp) (trd3 m) /\
        norm3 m * fst3 (unit (lon, lat)) = fst3 m /\ norm3 m * snd3 (unit (lon, lat)) = snd3 m /\ norm3 m * trd3 (unit (lon, lat)) = trd3 m
  end.
Proof.
  pose proof (mid_midpoint (map (fun p => fst3 (unit p)) fp)) as Hx. pose proof (mid_midpoint (map (fun p => snd3 (unit p)) fp)) as Hy. pose proof (mid_midpoint (map (fun p => trd3 (unit p)) fp)) as Hz.
  assert (E : fiducial RF cos sin atan2 rad deg mod360 fp = do xm <- mid RF (map (fun p => fst3 (unit p)) fp); do ym <- mid RF (map (fun p => snd3 (unit p)) fp);
    do zm <- mid RF (map (fun p => trd3 (unit p)) fp); Some (mod360 (deg (atan2 ym xm)), deg (atan2 zm (sqrt (xm * xm + ym * ym))))) by reflexivity. rewrite E. clear E.
  destruct (mid RF (map (fun p => fst3 (unit p)) fp)) as [xm|] in Hx |- *; cbn [bind]; [|exact (map_eq_nil _ _ Hx)].
  destruct (mid RF (map (fun p => snd3 (unit p)) fp)) as [ym|] in Hy |- *; cbn [bind]; [|exact (map_eq_nil _ _ Hy)].
  destruct (mid RF (map (fun p => trd3 (unit p)) fp)) as [zm|] in Hz |- *; cbn [bind]; [|exact (map_eq_nil _ _ Hz)].
  change (F RF) with R in *. set (r := sqrt (xm * xm + ym * ym)). split; [apply mod360_range|]. split.
  { pose proof (atan2_right zm r (sqrt_pos _)). unfold deg. pose proof PI_RGT_0. assert (E : forall t, t * 180 / PI = (t / PI) * 180) by (intros; field; lra). rewrite E.
    assert (HA : - (1 / 2) <= atan2 zm r / PI <= 1 / 2).
    { split; [apply Rmult_le_reg_r with PI; [assumption|]; replace (atan2 zm r / PI * PI) with (atan2 zm r) by (field; lra); lra|].
      apply Rmult_le_reg_r with PI; [assumption|]; replace (atan2 zm r / PI * PI) with (atan2 zm r) by (field; lra); lra. }
    lra. }
  exists (xm, ym, zm). split; [exact Hx|]. split; [exact Hy|]. split; [exact Hz|]. unfold norm3, unit, fst3, snd3, trd3. cbn [fst snd].
  destruct (trig_mod (deg (atan2 ym xm))) as [-> ->]. rewrite !rad_deg. destruct (atan2_law ym xm) as [Lx Ly]. destruct (atan2_law zm r) as [Lr Lz]. fold r in Lx, Ly.
  assert (Hrr : r * r = xm * xm + ym * ym) by (apply sqrt_sqrt; pose proof (Rle_0_sqr xm); pose proof (Rle_0_sqr ym); unfold Rsqr in *; lra).
  rewrite Hrr in Lr, Lz. set (N := sqrt _) in *. split; [|split; [|exact Lz]]; rewrite <- Rmult_assoc, Lr; assumption.
Qed.
Print Assumptions C89_direction.
(** order, repetition and the grouping into footprints do not matter *)
Theorem C89_grouping fps fps' crval : (forall p, (exists fp, In fp fps /\ In p fp) <-> (exists fp, In fp fps' /\ In p fp)) ->
  calculate_fiducial RF cos sin atan2 rad deg mod360 fps crval = calculate_fiducial RF cos sin atan2 rad deg mod360 fps' crval.
Proof.
  intros H. destruct crval as [c|]; [reflexivity|]. cbn [calculate_fiducial]. assert (Hin : forall p, In p (concat fps) <-> In p (concat fps')).
  { intros p. rewrite !in_concat. apply H. } clear H. revert Hin. generalize (concat fps), (concat fps'). clear. intros a b Hin.
  assert (G : forall f : R * R -> R, mid RF (map f a) = mid RF (map f b)).
  { intros f. pose proof (mid_midpoint (map f a)) as Ha. pose proof (mid_midpoint (map f b)) as Hb.
    destruct (mid RF (map f a)) as [m|], (mid RF (map f b)) as [m'|].
    - f_equal. apply (midpoint_fun (map f b)); [|assumption]. destruct Ha as (u & v & Hu & Hv & Hl & ->). exists u, v.
      assert (K : forall x, In x (map f a) <-> In x (map f b)) by (intros x; rewrite !in_map_iff; split; intros (p & <- & Hp); exists p; split; try reflexivity; now apply Hin).
      split; [now apply K|]. split; [now apply K|]. split; [intros x Hx; apply Hl; now apply K|reflexivity].
    - apply map_eq_nil in Hb. subst b. destruct Ha as (u & v & Hu & _). apply in_map_iff in Hu. destruct Hu as (p & _ & Hp). apply Hin in Hp. destruct Hp.
    - apply map_eq_nil in Ha. subst a. destruct Hb as (u & v & Hu & _). apply in_map_iff in Hu. destruct Hu as (p & _ & Hp). apply Hin in Hp. destruct Hp.
    - reflexivity. }
  unfold fiducial. cbn [RF fmul]. change (F RF) with R in *. now rewrite !G.
Qed.
Print Assumptions C89_grouping.
(** one position is its own fiducial, whatever multiple of 360 its longitude carries *)
Theorem C89_single (p : R * R) : exists lon lat, fiducial RF cos sin atan2 rad deg mod360 [p] = Some (lon, lat) /\ unit (lon, lat) = unit p.
Proof.
  pose proof (C89_direction [p]) as H. destruct (fiducial RF cos sin atan2 rad deg mod360 [p]) as [[lon lat]|]; [|discriminate]. exists lon, lat. split; [reflexivity|].
  destruct H as (_ & _ & m & Hx & Hy & Hz & Ex & Ey & Ez). assert (G : forall a m, midpoint [a] m -> m = a) by (intros a n (u & v & [<-|[]] & [<-|[]] & _ & ->); lra).
  apply G in Hx. apply G in Hy. apply G in Hz. assert (Hn : norm3 m = 1).
  { unfold norm3. rewrite Hx, Hy, Hz. unfold unit, fst3, snd3, trd3. cbn [fst snd]. rewrite <- sqrt_1. f_equal.
    pose proof (sin2_cos2 (rad (fst p))) as H1. pose proof (sin2_cos2 (rad (snd p))) as H2. unfold Rsqr in *.
    generalize dependent (sin (rad (fst p))). generalize dependent (sin (rad (snd p))). generalize (cos (rad (fst p))). generalize (cos (rad (snd p))). intros cl ca sl H2 sa H1.
    transitivity (cl * cl * (sa * sa + ca * ca) + sl * sl); [ring|]. rewrite H1. lra. }
  rewrite Hn, Rmult_1_l in Ex, Ey, Ez. unfold fst3, snd3, trd3, unit in *. cbn [fst snd] in *. congruence.
Qed.
Print Assumptions C89_single.
(** a footprint at (0, 0) throughout: the fiducial is whatever memory held *)
Theorem C89_uninitialised_refuted : exists fps, concat fps <> [] /\ forall e, compute_fiducial RF cos sin atan2 rad deg mod360 e fps = Some e.
Proof.
  exists [[(0, 0)]]. split; [discriminate|]. intros e. unfold compute_fiducial. cbn. assert (E : Reqb 0 0 = true) by now apply Reqb_spec. now rewrite E.
Qed.
Print Assumptions C89_uninitialised_refuted.
Example C89_ex : exists r, fiducial RF cos sin atan2 rad deg mod360 [(10, 20); (30, 40)] = Some r. Proof. eexists. reflexivity. Qed.

(** ** C90: _simplify_by_angle with its default thresholds *)
Definition simplified : list (R * R) -> list (R * R) := simplify RF atan (5 / 100) (1 / 1000000) (1 / 1000000000000) (0, 0).
Lemma abs_lt_false x t : t <= Rabs x -> Rltb (Rabs x) t = false.
Proof. intros H. apply Bool.not_true_iff_false. rewrite Rltb_spec. lra. Qed.
Lemma atan_big x : 1 <= Rabs x -> 1 / 1000000 <= Rabs (atan x).
Proof.
  intros H. assert (G : forall y, 1 <= y -> 1 / 1000000 <= atan y).
  { intros y Hy. pose proof PI2_3_2. destruct (Req_dec y 1) as [->|Hn]; [rewrite atan_1; lra|]. pose proof (atan_increasing 1 y ltac:(lra)). rewrite atan_1 in *. lra. }
  destruct (Rle_or_lt 0 x) as [Hx|Hx].
  - rewrite Rabs_right in H by lra. specialize (G x H). rewrite Rabs_right; lra.
  - rewrite Rabs_left in H by lra. specialize (G (- x) H). rewrite atan_opp in G. rewrite Rabs_left; lra.
Qed.
Lemma atan_small x : Rabs (atan x) <= Rabs x.
Proof.
  assert (G : forall y, 0 <= y -> 0 <= atan y <= y).
  { intros y Hy. destruct (Req_dec y 0) as [->|Hn]; [rewrite atan_0; lra|]. pose proof (atan_increasing 0 y ltac:(lra)) as H. rewrite atan_0 in H. split; [lra|].
    destruct (MVT_cor2 atan (fun c => / (1 + c ^ 2)) 0 y ltac:(lra)) as (c & Hc & _); [intros c _; apply derivable_pt_lim_atan|].
    rewrite atan_0 in Hc. assert (/ (1 + c ^ 2) <= 1). { rewrite <- Rinv_1. apply Rinv_le_contravar; [lra|]. pose proof (pow2_ge_0 c). lra. }
    assert (0 < / (1 + c ^ 2)) by (apply Rinv_0_lt_compat; pose proof (pow2_ge_0 c); lra). nra. }
  destruct (Rle_or_lt 0 x) as [Hx|Hx].
  - specialize (G x Hx). rewrite !Rabs_right; lra.
  - specialize (G (- x) ltac:(lra)). rewrite atan_opp in G. rewrite !Rabs_left1; lra.
Qed.

Lemma flat_map_ext_in' {A B} (f g : A -> list B) l : (forall x, In x l -> f x = g x) -> flat_map f l = flat_map g l.
Proof. induction l as [|a l IH]; intros H; [reflexivity|]. cbn. rewrite H by now left. f_equal. apply IH. intros x Hx. apply H. now right. Qed.
Lemma flat_map_shift {B} (f : nat -> list B) k n : flat_map (fun i => f (k + i)%nat) (seq 0 n) = flat_map f (seq k n).
Proof. revert k. induction n as [|n IH]; intros k; [reflexivity|]. cbn [seq flat_map]. rewrite Nat.add_0_r. f_equal. rewrite <- IH, <- seq_shift, flat_map_concat_map, map_map, <- flat_map_concat_map. apply flat_map_ext_in'. intros i _. f_equal. lia. Qed.
(** starting the polygon at another vertex only turns the result *)
Theorem C90_rotation a b : exists a' b', simplified (a ++ b) = a' ++ b' /\ simplified (b ++ a) = b' ++ a'.
Proof.
  unfold simplified, simplify. set (na := length a). set (nb := length b). rewrite !app_length. fold na nb.
  set (K := fun (l : list (R * R)) n i => if drop RF atan (5 / 100) (1 / 1000000) (1 / 1000000000000) (nth ((i + n - 1) mod n) l (0, 0)) (nth i l (0, 0)) (nth ((i + 1) mod n) l (0, 0)) then [] else [nth i l (0, 0)]).
  exists (flat_map (K (a ++ b) (na + nb)%nat) (seq 0 na)), (flat_map (K (a ++ b) (na + nb)%nat) (seq na nb)). split.
  - rewrite <- flat_map_app. f_equal. apply seq_app.
  - change (flat_map (K (b ++ a) (nb + na)%nat) (seq 0 (nb + na)) = flat_map (K (a ++ b) (na + nb)%nat) (seq na nb) ++ flat_map (K (a ++ b) (na + nb)%nat) (seq 0 na)).
    assert (Hn : forall i, (i < na + nb)%nat -> nth i (b ++ a) (0, 0) = nth ((i + na) mod (na + nb)) (a ++ b) (0, 0)).
    { intros i Hi. destruct (Nat.lt_ge_cases i nb) as [H|H].
      - rewrite Nat.mod_small by lia. rewrite app_nth1 by exact H. rewrite app_nth2 by (fold na; lia). f_equal. fold na. lia.
      - replace ((i + na) mod (na + nb))%nat with (i - nb)%nat. { rewrite app_nth2 by exact H. rewrite app_nth1 by (fold na; lia). reflexivity. }
        apply (Nat.mod_unique _ _ 1); lia. }
    assert (HK : forall i, (i < na + nb)%nat -> K (b ++ a) (nb + na)%nat i = K (a ++ b) (na + nb)%nat ((i + na) mod (na + nb))%nat).
    { intros i Hi. unfold K. rewrite (Nat.add_comm nb na). set (n := (na + nb)%nat) in *. rewrite !Hn; try lia; try (apply Nat.mod_upper_bound; lia).
      replace (((i + n - 1) mod n + na) mod n)%nat with (((i + na) mod n + n - 1) mod n)%nat.
      2:{ rewrite Nat.add_mod_idemp_l by lia. destruct (Nat.lt_ge_cases (i + na) n) as [H|H].
          - rewrite (Nat.mod_small (i + na)) by lia. f_equal. lia.
          - rewrite (Nat.mod_eq (i + na)) by lia. replace ((i + na) / n)%nat with 1%nat by (apply (Nat.div_unique _ _ _ (i + na - n)); lia).
            replace (i + n - 1 + na)%nat with (i + na - n * 1 + n - 1 + 1 * n)%nat by lia. now rewrite Nat.mod_add by lia. }
      replace (((i + 1) mod n + na) mod n)%nat with (((i + na) mod n + 1) mod n)%nat by (rewrite !Nat.add_mod_idemp_l by lia; f_equal; lia). reflexivity. }
    rewrite (seq_app nb na), flat_map_app. cbn [Nat.add]. f_equal.
    + rewrite <- (flat_map_shift (K (a ++ b) (na + nb)%nat) na nb). apply flat_map_ext_in'. intros i Hi. apply in_seq in Hi. rewrite HK by lia. rewrite Nat.mod_small by lia. f_equal. lia.
    + rewrite <- (flat_map_shift (K (b ++ a) (nb + na)%nat) nb na). apply flat_map_ext_in'. intros i Hi. apply in_seq in Hi. rewrite HK by lia. f_equal. symmetry. apply (Nat.mod_unique _ _ 1); lia.
Qed.
Print Assumptions C90_rotation.
Example C90_rotation_ex : simplified ([(0, 0)] ++ [(1, 0); (0, 1)]) = simplified [(0, 0); (1, 0); (0, 1)]. Proof. reflexivity. Qed.

(** the vertices before and after the i-th, cyclically *)
Definition before (l : list (R * R)) i := nth ((i + length l - 1) mod length l) l (0, 0).
Definition after (l : list (R * R)) i := nth ((i + 1) mod length l) l (0, 0).
Definition dropped := drop RF atan (5 / 100) (1 / 1000000) (1 / 1000000000000).
Lemma simplified_in l p : In p (simplified l) <-> exists i, (i < length l)%nat /\ nth i l (0, 0) = p /\ dropped (before l i) p (after l i) = false.
Proof.
  unfold simplified, simplify. rewrite in_flat_map. split.
  - intros (i & Hi & Hp). apply in_seq in Hi. exists i. change (In p (if dropped (before l i) (nth i l (0, 0)) (after l i) then [] else [nth i l (0, 0)])) in Hp. destruct (dropped (before l i) (nth i l (0, 0)) (after l i)) eqn:E; [destruct Hp|].
    destruct Hp as [<-|[]]. split; [exact (proj2 Hi)|]. now split.
  - intros (i & Hi & <- & Hd). exists i. split; [apply in_seq; split; [lia|exact Hi]|]. change (In (nth i l (0, 0)) (if dropped (before l i) (nth i l (0, 0)) (after l i) then [] else [nth i l (0, 0)])). rewrite Hd. now left.
Qed.
Lemma dropped_unfold x0 y0 x1 y1 x2 y2 : dropped (x0, y0) (x1, y1) (x2, y2) =
  (Rltb (Rabs (x1 - x0)) (5 / 100) && Rltb (Rabs (y1 - y0)) (5 / 100) ||
   Rltb (Rabs (atan (((y2 - y1) / (x2 - x1 + 1 / 1000000000000) - (y1 - y0) / (x1 - x0 + 1 / 1000000000000)) /
     (1 + (y1 - y0) / (x1 - x0 + 1 / 1000000000000) * ((y2 - y1) / (x2 - x1 + 1 / 1000000000000)))))) (1 / 1000000))%bool.
Proof. reflexivity. Qed.
(** a corner between a horizontal and a vertical side, both at least 0.05 pixel long *)
Definition corner (p0 p1 p2 : R * R) : Prop :=
  (snd p0 = snd p1 /\ fst p1 = fst p2 /\ 5 / 100 <= Rabs (fst p1 - fst p0) /\ 5 / 100 <= Rabs (snd p2 - snd p1)) \/
  (fst p0 = fst p1 /\ snd p1 = snd p2 /\ 5 / 100 <= Rabs (snd p1 - snd p0) /\ 5 / 100 <= Rabs (fst p2 - fst p1)).
Lemma steep h : 5 / 100 <= Rabs h -> 1 <= Rabs (h / (1 / 1000000000000)).
Proof. intros H. replace (h / (1 / 1000000000000)) with (h * 1000000000000) by field. rewrite Rabs_mult, (Rabs_right 1000000000000) by lra. lra. Qed.
Lemma corner_kept p0 p1 p2 : corner p0 p1 p2 -> dropped p0 p1 p2 = false.
Proof.
  destruct p0 as [x0 y0], p1 as [x1 y1], p2 as [x2 y2]. unfold corner. cbn [fst snd]. rewrite dropped_unfold. intros [(-> & -> & Hw & Hh)|(-> & -> & Hh & Hw)].
  - rewrite (abs_lt_false _ _ Hw). cbn [andb orb]. apply abs_lt_false. apply atan_big. replace (y1 - y1) with 0 by ring. replace (x2 - x2 + 1 / 1000000000000) with (1 / 1000000000000) by ring.
    assert (E : 0 / (x2 - x0 + 1 / 1000000000000) = 0) by (unfold Rdiv; ring). rewrite E. replace ((_ - 0) / (1 + 0 * _)) with ((y2 - y1) / (1 / 1000000000000)) by (rewrite Rmult_0_l; field). now apply steep.
  - rewrite (abs_lt_false _ _ Hh), Bool.andb_false_r. cbn [orb]. apply abs_lt_false. apply atan_big. replace (y2 - y2) with 0 by ring. replace (x1 - x1 + 1 / 1000000000000) with (1 / 1000000000000) by ring.
    assert (E : 0 / (x2 - x1 + 1 / 1000000000000) = 0) by (unfold Rdiv; ring). rewrite E. replace ((0 - _) / (1 + _ * 0)) with (- ((y2 - y0) / (1 / 1000000000000))) by (rewrite Rmult_0_r; field). rewrite Rabs_Ropp. now apply steep.
Qed.
(** a polygon of horizontal and vertical sides of at least 0.05 pixel, turning at every vertex, is left as it is *)
Theorem C90_rectilinear l : (forall i, (i < length l)%nat -> corner (before l i) (nth i l (0, 0)) (after l i)) -> simplified l = l.
Proof.
  intros H. unfold simplified, simplify. transitivity (flat_map (fun i => [nth i l (0, 0)]) (seq 0 (length l))).
  - apply flat_map_ext_in'. intros i Hi. apply in_seq in Hi. change ((if dropped (before l i) (nth i l (0, 0)) (after l i) then [] else [nth i l (0, 0)]) = [nth i l (0, 0)]). rewrite corner_kept; [reflexivity|]. apply H. exact (proj2 Hi).
  - clear. rewrite flat_map_concat_map. rewrite <- (map_map (fun i => nth i l (0, 0)) (fun x => [x])). 
    assert (E : map (fun i => nth i l (0, 0)) (seq 0 (length l)) = l).
    { apply nth_ext with (d := (0, 0)) (d' := (0, 0)); [now rewrite map_length, seq_length|]. intros n Hn. rewrite map_length, seq_length in Hn.
      rewrite (nth_indep _ (0, 0) (nth 0%nat l (0, 0))) by (now rewrite map_length, seq_length). rewrite (map_nth (fun i => nth i l (0, 0)) (seq 0 (length l)) 0%nat n), seq_nth by assumption. reflexivity. }
    rewrite E. clear. induction l as [|a l IH]; [reflexivity|]. cbn. now rewrite IH.
Qed.
Print Assumptions C90_rectilinear.
Example C90_rectilinear_ex : simplified [(0, 0); (3, 0); (3, 2); (0, 2)] = [(0, 0); (3, 0); (3, 2); (0, 2)].
Proof.
  apply C90_rectilinear. intros i Hi. do 4 (destruct i as [|i]; [unfold before, after, corner; cbn [nth length Nat.add Nat.sub Nat.modulo Nat.divmod fst snd];
    first [left; repeat split; (unfold Rabs; destruct (Rcase_abs _); lra)|right; repeat split; (unfold Rabs; destruct (Rcase_abs _); lra)]|]). cbn in Hi. lia.
Qed.
(** a vertex in the middle of a straight side disappears *)
Theorem C90_straight l1 l2 x y a b t : let l := l1 ++ (x, y) :: (x + a, y + b) :: (x + a + t * a, y + b + t * b) :: l2 in
  NoDup l -> 0 < t -> 1 / 400 <= a * a + b * b -> 1 / 400 <= t * t * (a * a + b * b) ->
  a + 1 / 1000000000000 <> 0 -> t * a + 1 / 1000000000000 <> 0 -> ~ In (x + a, y + b) (simplified l).
Proof.
  intros l Hnd Ht H1 H2 Ha Hta. rewrite simplified_in. intros (i & Hi & Hp & Hd).
  assert (Hl : length l = (length l1 + 3 + length l2)%nat) by (unfold l; rewrite app_length; cbn; lia).
  assert (Hi' : i = S (length l1)).
  { apply (NoDup_nth l (0, 0)); [assumption|assumption|lia|]. rewrite Hp. unfold l. rewrite app_nth2 by lia. now replace (S (length l1) - length l1)%nat with 1%nat by lia. }
  subst i. assert (Eb : before l (S (length l1)) = (x, y)).
  { unfold before. replace (S (length l1) + length l - 1)%nat with (length l1 + 1 * length l)%nat by lia. rewrite Nat.mod_add, Nat.mod_small by lia. unfold l. rewrite app_nth2 by lia. now rewrite Nat.sub_diag. }
  assert (Ea : after l (S (length l1)) = (x + a + t * a, y + b + t * b)).
  { unfold after. rewrite Nat.mod_small by lia. unfold l. rewrite app_nth2 by lia. now replace (S (length l1) + 1 - length l1)%nat with 2%nat by lia. }
  rewrite Eb, Ea, dropped_unfold in Hd. apply Bool.orb_false_iff in Hd. destruct Hd as [_ Hd].
  apply Bool.not_true_iff_false in Hd. apply Hd. apply Rltb_spec. clear - Ht H1 H2 Ha Hta. eapply Rle_lt_trans; [apply atan_small|].
  replace (x + a - x) with a by ring. replace (y + b - y) with b by ring. replace (x + a + t * a - (x + a)) with (t * a) by ring. replace (y + b + t * b - (y + b)) with (t * b) by ring.
  set (e := 1 / 1000000000000) in *. assert (He : e = 1 / 1000000000000) by reflexivity. clearbody e.
  set (r := sqrt (a * a + b * b)). assert (Hr0 : 0 <= r) by apply sqrt_pos. assert (Hrr : r * r = a * a + b * b) by (apply sqrt_sqrt; nra). clearbody r.
  assert (Hr : 1 / 20 <= r) by nra. assert (Htr : 1 / 20 <= t * r) by (assert (0 <= t * r) by nra; nra).
  assert (HA : Rabs a <= r) by (unfold Rabs; destruct (Rcase_abs a); nra). assert (HB : Rabs b <= r) by (unfold Rabs; destruct (Rcase_abs b); nra).
  set (D := (a + e) * (t * a + e) + t * (b * b)). assert (ED : D = t * (r * r) + e * a * (1 + t) + e * e) by (unfold D; rewrite Hrr; ring).
  assert (HtR : 1 / 40 * ((1 + t) * r) <= t * (r * r)) by nra.
  assert (Hea : - (e * ((1 + t) * r)) <= e * a * (1 + t)).
  { assert (- r <= a) by (unfold Rabs in HA; destruct (Rcase_abs a); lra). assert (0 <= (1 + t) * (a + r)) by (apply Rmult_le_pos; lra). rewrite He. nra. }
  assert (HD : (1 / 40 - e) * ((1 + t) * r) <= D) by (rewrite ED; assert (0 <= e * e) by (rewrite He; lra); lra).
  assert (Hq : 0 < (1 + t) * r) by nra. assert (HDp : 0 < D) by (eapply Rlt_le_trans; [|exact HD]; apply Rmult_lt_0_compat; [rewrite He; lra|assumption]).
  replace ((t * b / (t * a + e) - b / (a + e)) / (1 + b / (a + e) * (t * b / (t * a + e)))) with (b * (e * (t - 1)) / D).
  2:{ assert (E1 : t * b / (t * a + e) - b / (a + e) = b * (e * (t - 1)) / ((a + e) * (t * a + e))) by (field; split; assumption).
      assert (E2 : 1 + b / (a + e) * (t * b / (t * a + e)) = D / ((a + e) * (t * a + e))) by (unfold D; field; split; assumption).
      rewrite E1, E2. field. repeat split; lra. }
  unfold Rdiv. rewrite Rabs_mult, (Rabs_right (/ D)) by (left; now apply Rinv_0_lt_compat). apply Rmult_lt_reg_r with D; [assumption|]. rewrite Rmult_assoc, Rinv_l, Rmult_1_r by lra.
  rewrite Rabs_mult, Rabs_mult, (Rabs_right e) by lra. assert (Ht1 : Rabs (t - 1) <= 1 + t) by (unfold Rabs; destruct (Rcase_abs _); lra).
  pose proof (Rabs_pos b). pose proof (Rabs_pos (t - 1)). assert (Hprod : Rabs b * Rabs (t - 1) <= (1 + t) * r) by nra.
  apply Rle_lt_trans with (e * ((1 + t) * r)); [rewrite He; nra|]. 
  apply Rlt_le_trans with (1 / 1000000 * ((1 / 40 - e) * ((1 + t) * r))); [|apply Rmult_le_compat_l; [lra|exact HD]].
  rewrite <- (Rmult_assoc (1 / 1000000)). apply Rmult_lt_compat_r; [assumption|]. rewrite He. lra.
Qed.
Print Assumptions C90_straight.
Example C90_straight_ex : ~ In (0 + 1, 0 + 0) (simplified ([] ++ (0, 0) :: (0 + 1, 0 + 0) :: (0 + 1 + 2 * 1, 0 + 0 + 2 * 0) :: [(1, 5)])).
Proof.
  apply C90_straight; try lra. cbn [app]. repeat constructor; cbn; intros H; repeat (destruct H as [H|H]; [injection H; intros; lra|]); exact H.
Qed.
(** both copies of a repeated corner disappear if the side before it is horizontal, though the code's comment promises to keep one *)
Theorem C90_duplicate_refuted : ~ In (10, 0) (simplified [(0, 0); (10, 0); (10, 0); (10, 10); (0, 10)]) /\
  In (10, 0) (simplified [(0, 0); (10, 0); (10, 10); (0, 10)]).
Proof.
  split.
  - rewrite simplified_in. intros (i & Hi & Hp & Hd). destruct i as [|[|[|[|[|i]]]]]; [| | | | |cbn in Hi; lia].
    + injection Hp. lra.
    + revert Hd. unfold before, after. cbn [nth length Nat.add Nat.sub Nat.modulo Nat.divmod fst snd]. rewrite dropped_unfold.
      match goal with |- context [atan ?z] => assert (E : z = 0) by (unfold Rdiv; ring) end. rewrite E, atan_0, Rabs_R0.
      assert (H : Rltb 0 (1 / 1000000) = true) by (apply Rltb_spec; lra). rewrite H, Bool.orb_true_r. discriminate.
    + revert Hd. unfold before, after. cbn [nth length Nat.add Nat.sub Nat.modulo Nat.divmod fst snd]. rewrite dropped_unfold.
      replace (0 - 0) with 0 by ring. replace (10 - 10) with 0 by ring. rewrite Rabs_R0. assert (H : Rltb 0 (5 / 100) = true) by (apply Rltb_spec; lra). rewrite H. discriminate.
    + injection Hp. lra.
    + injection Hp. lra.
  - rewrite C90_rectilinear; [right; now left|]. intros i Hi. do 4 (destruct i as [|i]; [unfold before, after, corner; cbn [nth length Nat.add Nat.sub Nat.modulo Nat.divmod fst snd];
      first [left; repeat split; (unfold Rabs; destruct (Rcase_abs _); lra)|right; repeat split; (unfold Rabs; destruct (Rcase_abs _); lra)]|]). cbn in Hi. lia.
Qed.
Print Assumptions C90_duplicate_refuted.
(** a polygon whose vertices all lie within 0.05 pixel of the next vanishes *)
Theorem C90_vanishes l : (forall i, (i < length l)%nat -> Rabs (fst (nth i l (0, 0)) - fst (before l i)) < 5 / 100 /\ Rabs (snd (nth i l (0, 0)) - snd (before l i)) < 5 / 100) ->
  simplified l = [].
Proof.
  intros H. destruct (simplified l) as [|p r] eqn:E; [reflexivity|exfalso]. assert (Hp : In p (simplified l)) by (rewrite E; now left). apply simplified_in in Hp.
  destruct Hp as (i & Hi & <- & Hd). specialize (H i Hi). destruct (before l i) as [x0 y0]. destruct (nth i l (0, 0)) as [x1 y1]. destruct (after l i) as [x2 y2]. cbn [fst snd] in H.
  rewrite dropped_unfold in Hd. destruct H as [Hx Hy]. apply Rltb_spec in Hx. apply Rltb_spec in Hy. rewrite Hx, Hy in Hd. discriminate.
Qed.
Print Assumptions C90_vanishes.
Example C90_vanishes_ex : simplified [(0, 0); (4 / 100, 0); (4 / 100, 4 / 100); (0, 4 / 100)] = [].
Proof. apply C90_vanishes. intros i Hi. do 4 (destruct i as [|i]; [unfold before; cbn; split; unfold Rabs; destruct (Rcase_abs _); lra|]). cbn in Hi. lia. Qed.
