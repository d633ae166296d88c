(** C128: outlier flags and the unit, zero point, sign and orientation of the images; raising a threshold. *)
From Coq Require Import Reals Lra.
From Verif Require Import Base BaseLemmas FLaws RBase RNBase OutlierModel OutlierProps.
From Verif Require ShProps3.
Local Open Scope R_scope.

(** ** Specification *)
(** every pixel multiplied by [u], moved by [a]; missing values stay missing *)
Definition times (u : R) (x : option R) : option R := option_map (Rmult u) x.
Definition plus (a : R) (x : option R) : option R := option_map (Rplus a) x.
Definition im (f : option R -> option R) (i : img RN) : img RN := fun r c => f (i r c).
(** errors are missing or not negative *)
Definition nonneg (x : option R) : Prop := match x with Some e => 0 <= e | None => True end.
(** the image turned upside down, mirrored, transposed *)
Definition upside_down {A} (nr : nat) (i : img A) : img A := fun r c => i (nr - 1 - r)%nat c.
Definition mirrored {A} (nc : nat) (i : img A) : img A := fun r c => i r (nc - 1 - c)%nat.
Definition transposed {A} (i : img A) : img A := fun r c => i c r.

Lemma t_ltb a b : Rltb a b = true <-> a < b. Proof. apply Rltb_spec. Qed.
Lemma ltb_eq a b c d : (a < b <-> c < d) -> Rltb a b = Rltb c d.
Proof. intro H. apply eq_iff_eq_true. rewrite !Rltb_spec. exact H. Qed.
Lemma n2n fm (x : option R) : nan_to_num RN fm (x : RN) = (Some (match x with Some e => e | None => 0 end) : RN).
Proof. destruct x; reflexivity. Qed.
Lemma fon (x : RN) : finite_or_nan RN x. Proof. destruct x; [left|right]; reflexivity. Qed.
(** the largest difference is one value, and not negative *)
Lemma largest_unique nr nc (a : img RN) r c v nr' nc' (a' : img RN) r' c' v' : largest_difference RN nr nc a r c v -> largest_difference RN nr' nc' a' r' c' v' ->
  (forall x y, neighbour nr nc r c x y -> exists x' y', neighbour nr' nc' r' c' x' y' /\ absdiff RN a r c x y = absdiff RN a' r' c' x' y') ->
  (forall x y, neighbour nr' nc' r' c' x y -> exists x' y', neighbour nr nc r c x' y' /\ absdiff RN a' r' c' x y = absdiff RN a r c x' y') -> v = v'.
Proof.
  assert (P : forall a0 r0 c0 r1 c1 (x : R), absdiff RN a0 r0 c0 r1 c1 = (Some x : RN) -> 0 <= x).
  { intros a0 r0 c0 r1 c1 x. unfold absdiff. cbn [fabs RN fsub rn2 option_map]. destruct (a0 r0 c0), (a0 r1 c1); cbn; intro E; try discriminate. injection E as <-. apply Rabs_pos. }
  assert (Q : forall nr nc (a : img RN) r c (x : R) nr' nc' (a' : img RN) r' c' (y : R), largest_difference RN nr nc a r c (Some x : RN) -> largest_difference RN nr' nc' a' r' c' (Some y : RN) ->
    (forall x y, neighbour nr' nc' r' c' x y -> exists x' y', neighbour nr nc r c x' y' /\ absdiff RN a' r' c' x y = absdiff RN a r c x' y') -> y <= x).
  { intros n1 n2 b r0 c0 x n3 n4 b' r1 c1 y (X1 & _ & X3) (Y1 & _) H. assert (X0 : 0 <= x) by (destruct X1 as [E|(u & w & _ & E)]; [injection E as ->; lra|apply (P _ _ _ _ _ _ (eq_sym E))]).
    destruct Y1 as [E|(u & w & N & E)]; [injection E as ->; exact X0|]. destruct (H u w N) as (u' & w' & N' & E'). specialize (X3 u' w' N'). rewrite <- E', <- E in X3. cbn [flt RN rncmp] in X3. apply Rnot_lt_le. rewrite <- Rltb_spec. congruence. }
  intros H1 H2 A B. destruct v as [x|], v' as [y|]; [|destruct H2 as (_ & ? & _); discriminate|destruct H1 as (_ & ? & _); discriminate..].
  f_equal. apply Rle_antisym; [apply (Q _ _ _ _ _ _ _ _ _ _ _ _ H2 H1 A)|apply (Q _ _ _ _ _ _ _ _ _ _ _ _ H1 H2 B)].
Qed.
Lemma deriv_largest nr nc (a : img RN) r c : (r < nr)%nat -> (c < nc)%nat -> a r c <> (None : RN) -> largest_difference RN nr nc a r c (abs_deriv RN nr nc a r c).
Proof. intros Hr Hc Ha. apply (C17_abs_deriv RN ShProps3.RN_laws); [assumption|assumption| |intros _; apply fon]. change (F RN) with (option R) in *. destruct (a r c); [reflexivity|congruence]. Qed.
Lemma deriv_nan nr nc (a : img RN) r c : a r c = (None : RN) -> abs_deriv RN nr nc a r c = (None : RN).
Proof. intro E. apply (C17_abs_deriv_nan RN ShProps3.RN_laws). rewrite E. reflexivity. Qed.
(** images whose differences are the same up to a factor *)
Lemma deriv_times nr nc (a : img RN) u r c : 0 < u -> (r < nr)%nat -> (c < nc)%nat -> abs_deriv RN nr nc (im (times u) a) r c = times u (abs_deriv RN nr nc a r c).
Proof.
  intros U Hr Hc. destruct (a r c : option R) as [x|] eqn:E; [|rewrite !deriv_nan by (unfold im; change (F RN) with (option R) in *; rewrite ?E; reflexivity); reflexivity].
  assert (N0 : a r c <> (None : RN)) by (change (F RN) with (option R) in *; rewrite E; discriminate).
  assert (N1 : im (times u) a r c <> (None : RN)) by (unfold im; change (F RN) with (option R) in *; rewrite E; discriminate).
  pose proof (deriv_largest nr nc a r c Hr Hc N0) as L0. pose proof (deriv_largest nr nc (im (times u) a) r c Hr Hc N1) as L1.
  assert (AD : forall x y, absdiff RN (im (times u) a) r c x y = times u (absdiff RN a r c x y)).
  { intros x' y'. unfold absdiff, im. change (F RN) with (option R). destruct (a r c), (a x' y'); cbn; try reflexivity. f_equal. rewrite <- Rmult_minus_distr_l, Rabs_mult, (Rabs_right u) by lra. reflexivity. }
  apply (largest_unique _ _ _ _ _ _ nr nc (im (times u) a) r c _ L1).
  - destruct L0 as (A & B & C). split; [|split].
    + destruct A as [->|(x' & y' & N & ->)]; [left; cbn; f_equal; ring|right; exists x', y'; rewrite AD; split; [exact N|reflexivity]].
    + change (F RN) with (option R) in *. destruct (abs_deriv RN nr nc a r c); [reflexivity|discriminate].
    + intros x' y' N. specialize (C x' y' N). rewrite AD. change (F RN) with (option R) in *. destruct (abs_deriv RN nr nc a r c) as [v|], (absdiff RN a r c x' y') as [d|]; try reflexivity. cbn [times option_map flt RN rncmp] in *. rewrite <- C. apply ltb_eq. split; nra.
  - intros x' y' N. exists x', y'. split; [exact N|reflexivity].
  - intros x' y' N. exists x', y'. split; [exact N|reflexivity].
Qed.
(** images with the same differences up to sign, on another grid *)
Lemma deriv_same nr nc nr' nc' (a a' : img RN) r c r' c' : (r < nr)%nat -> (c < nc)%nat -> (r' < nr')%nat -> (c' < nc')%nat -> (a r c = None <-> a' r' c' = None) ->
  (forall x y, neighbour nr nc r c x y -> exists x' y', neighbour nr' nc' r' c' x' y' /\ absdiff RN a r c x y = absdiff RN a' r' c' x' y') ->
  (forall x y, neighbour nr' nc' r' c' x y -> exists x' y', neighbour nr nc r c x' y' /\ absdiff RN a' r' c' x y = absdiff RN a r c x' y') ->
  abs_deriv RN nr nc a r c = abs_deriv RN nr' nc' a' r' c'.
Proof.
  intros Hr Hc Hr' Hc' E A B. destruct (a r c : option R) as [x|] eqn:E0.
  - assert (N0 : a r c <> (None : RN)) by (change (F RN) with (option R) in *; rewrite E0; discriminate). assert (N1 : a' r' c' <> (None : RN)) by (intro Q; apply E in Q; discriminate).
    apply (largest_unique nr nc a r c _ nr' nc' a' r' c' _ (deriv_largest nr nc a r c Hr Hc N0) (deriv_largest nr' nc' a' r' c' Hr' Hc' N1) A B).
  - rewrite !deriv_nan; [reflexivity|apply E; reflexivity|exact E0].
Qed.
Lemma deriv_nonneg nr nc (a : img RN) r c : (r < nr)%nat -> (c < nc)%nat -> nonneg (abs_deriv RN nr nc a r c).
Proof.
  intros Hr Hc. destruct (a r c : option R) as [x|] eqn:E; [|rewrite deriv_nan by exact E; exact I].
  assert (N0 : a r c <> (None : RN)) by (change (F RN) with (option R) in *; rewrite E; discriminate). destruct (deriv_largest nr nc a r c Hr Hc N0) as ([->|(u & w & _ & ->)] & _); [cbn; lra|].
  unfold absdiff. change (F RN) with (option R). destruct (a r c), (a u w); cbn; trivial. apply Rabs_pos.
Qed.
(** the flag of a pixel is decided by the deviations and thresholds in its window *)
Definition dev (sci blot : img RN) (backg : RN) : img RN := fun r c => fabs RN (fsub RN (fsub RN (sci r c) (blot r c)) backg).
Lemma flags_by nr nc fm sci err blot s1 s2 k1 k2 b nr' nc' sci' err' blot' s1' s2' k1' k2' b' r c r' c' : (r < nr)%nat -> (c < nc)%nat -> (r' < nr')%nat -> (c' < nc')%nat ->
  let ex s k x y := flt RN (threshold RN fm k s (abs_deriv RN nr nc blot) err x y) (dev sci blot b x y) in
  let ex' s k x y := flt RN (threshold RN fm k s (abs_deriv RN nr' nc' blot') err' x y) (dev sci' blot' b' x y) in
  (ex s2 k2 r c = true -> ex' s2' k2' r' c' = true) -> (forall x y, window3 nr nc r c x y -> ex s1 k1 x y = true -> exists x' y', window3 nr' nc' r' c' x' y' /\ ex' s1' k1' x' y' = true) ->
  flag_resampled_crs RN fm nr nc sci err blot s1 s2 k1 k2 b r c = true -> flag_resampled_crs RN fm nr' nc' sci' err' blot' s1' s2' k1' k2' b' r' c' = true.
Proof.
  intros Hr Hc Hr' Hc' ex ex' A B. unfold flag_resampled_crs. rewrite !andb_true_iff, !smooth3_spec by assumption. intros [(x & y & W & E) E2]. split; [exact (B x y W E)|exact (A E2)].
Qed.

(** ** Raising a threshold never adds an outlier *)
Theorem C128_threshold : forall fm (sci err blot : img RN) (s s' : R) r c, nonneg (err r c) -> s <= s' ->
  flag_crs RN fm sci err blot (Some s' : RN) r c = true -> flag_crs RN fm sci err blot (Some s : RN) r c = true.
Proof.
  intros fm sci err blot s s' r c E S. unfold flag_crs, fgt. rewrite n2n. cbn [fsub fabs RN fmul rn2]. destruct (sci r c), (blot r c); cbn; try discriminate. rewrite !Rltb_spec. intro H. destruct (err r c) as [e|]; cbn in *; [|lra].
  apply (Rmult_le_compat_r e) in S; [lra|exact E].
Qed.
Print Assumptions C128_threshold.
Theorem C128_resampled_threshold : forall fm nr nc (sci err blot : img RN) (s1 s2 k1 k2 s1' s2' k1' k2' b : R) r c, (r < nr)%nat -> (c < nc)%nat -> (forall x y, (x < nr)%nat -> (y < nc)%nat -> nonneg (err x y)) ->
  s1 <= s1' -> s2 <= s2' -> k1 <= k1' -> k2 <= k2' ->
  flag_resampled_crs RN fm nr nc sci err blot (Some s1' : RN) (Some s2' : RN) (Some k1' : RN) (Some k2' : RN) (Some b : RN) r c = true ->
  flag_resampled_crs RN fm nr nc sci err blot (Some s1 : RN) (Some s2 : RN) (Some k1 : RN) (Some k2 : RN) (Some b : RN) r c = true.
Proof.
  intros fm nr nc sci err blot s1 s2 k1 k2 s1' s2' k1' k2' b r c Hr Hc E S1 S2 K1 K2.
  assert (T : forall s s' k k' x y, (x < nr)%nat -> (y < nc)%nat -> s <= s' -> k <= k' -> flt RN (threshold RN fm (Some k' : RN) (Some s' : RN) (abs_deriv RN nr nc blot) err x y) (dev sci blot (Some b : RN) x y) = true ->
    flt RN (threshold RN fm (Some k : RN) (Some s : RN) (abs_deriv RN nr nc blot) err x y) (dev sci blot (Some b : RN) x y) = true).
  { intros s s' k k' x y X Y S K. unfold threshold. rewrite n2n. pose proof (deriv_nonneg nr nc blot x y X Y) as D. specialize (E x y X Y). change (F RN) with (option R) in *. destruct (dev sci blot (Some b : RN) x y) as [d|]; [|cbn; destruct (rn2 _ _ _); discriminate].
    destruct (abs_deriv RN nr nc blot x y) as [v|]; [|cbn; discriminate]. cbn. rewrite !Rltb_spec. cbn in D. intro H. apply (Rmult_le_compat_r v) in K; [|exact D]. destruct (err x y) as [e|]; cbn in *; [|lra]. apply (Rmult_le_compat_r e) in S; [lra|exact E]. }
  apply flags_by; try assumption; [apply T; assumption|]. intros x y W H. exists x, y. split; [exact W|]. destruct W as (X & Y & _). exact (T s1 s1' k1 k1' x y X Y S1 K1 H).
Qed.
Print Assumptions C128_resampled_threshold.

(** ** The unit of the images *)
Theorem C128_unit : forall fm (sci err blot : img RN) (u : R) (s : RN) r c, 0 < u ->
  flag_crs RN fm (im (times u) sci) (im (times u) err) (im (times u) blot) s r c = flag_crs RN fm sci err blot s r c.
Proof.
  intros fm sci err blot u s r c U. unfold flag_crs, fgt, im. rewrite !n2n. change (F RN) with (option R) in *. destruct (sci r c) as [a|], (blot r c) as [b|], s as [s|]; try reflexivity. cbn.
  rewrite <- Rmult_minus_distr_l, Rabs_mult, (Rabs_right u) by lra. set (d := Rabs (a - b)). destruct (err r c) as [e|]; cbn; apply ltb_eq; split; nra.
Qed.
Print Assumptions C128_unit.
Theorem C128_resampled_unit : forall fm nr nc (sci err blot : img RN) (u : R) (s1 s2 k1 k2 b : RN) r c, 0 < u -> (r < nr)%nat -> (c < nc)%nat ->
  flag_resampled_crs RN fm nr nc (im (times u) sci) (im (times u) err) (im (times u) blot) s1 s2 k1 k2 (times u b) r c = flag_resampled_crs RN fm nr nc sci err blot s1 s2 k1 k2 b r c.
Proof.
  intros fm nr nc sci err blot u s1 s2 k1 k2 b r c U Hr Hc.
  assert (T : forall s k x y, (x < nr)%nat -> (y < nc)%nat -> flt RN (threshold RN fm k s (abs_deriv RN nr nc (im (times u) blot)) (im (times u) err) x y) (dev (im (times u) sci) (im (times u) blot) (times u b) x y) =
    flt RN (threshold RN fm k s (abs_deriv RN nr nc blot) err x y) (dev sci blot b x y)).
  { intros s k x y X Y. unfold threshold. rewrite deriv_times by assumption. rewrite !n2n. unfold dev, im. change (F RN) with (option R) in *. destruct (abs_deriv RN nr nc blot x y) as [v|], s as [s|], k as [k|], (sci x y) as [p|], (blot x y) as [q|], b as [b|]; try reflexivity. cbn.
    replace (u * p - u * q - u * b) with (u * (p - q - b)) by ring. rewrite Rabs_mult, (Rabs_right u) by lra. set (d := Rabs (p - q - b)). destruct (err x y) as [e|]; cbn; apply ltb_eq; split; nra. }
  apply eq_iff_eq_true. split; apply flags_by; try assumption.
  - rewrite T by assumption. auto.
  - intros x y W H. exists x, y. split; [exact W|]. destruct W as (X & Y & _). rewrite T in H by assumption. exact H.
  - rewrite T by assumption. auto.
  - intros x y W H. exists x, y. split; [exact W|]. destruct W as (X & Y & _). rewrite T by assumption. exact H.
Qed.
Print Assumptions C128_resampled_unit.

(** ** The zero point: the same constant in image and reference, and a background in image and argument *)
Theorem C128_zero : forall fm (sci err blot : img RN) (a : R) (s : RN) r c, flag_crs RN fm (im (plus a) sci) err (im (plus a) blot) s r c = flag_crs RN fm sci err blot s r c.
Proof.
  intros fm sci err blot a s r c. unfold flag_crs, fgt, im. change (F RN) with (option R) in *. destruct (sci r c) as [x|], (blot r c) as [y|]; try reflexivity. cbn. replace (a + x - (a + y)) with (x - y) by ring. reflexivity.
Qed.
Print Assumptions C128_zero.
Theorem C128_resampled_zero : forall fm nr nc (sci err blot : img RN) (a d : R) (s1 s2 k1 k2 b : RN) r c, (r < nr)%nat -> (c < nc)%nat ->
  flag_resampled_crs RN fm nr nc (im (plus (a + d)) sci) err (im (plus a) blot) s1 s2 k1 k2 (plus d b) r c = flag_resampled_crs RN fm nr nc sci err blot s1 s2 k1 k2 b r c.
Proof.
  intros fm nr nc sci err blot a d s1 s2 k1 k2 b r c Hr Hc.
  assert (T : forall s k x y, (x < nr)%nat -> (y < nc)%nat -> flt RN (threshold RN fm k s (abs_deriv RN nr nc (im (plus a) blot)) err x y) (dev (im (plus (a + d)) sci) (im (plus a) blot) (plus d b) x y) =
    flt RN (threshold RN fm k s (abs_deriv RN nr nc blot) err x y) (dev sci blot b x y)).
  { intros s k x y X Y. unfold threshold. assert (AD : forall x' y', absdiff RN (im (plus a) blot) x y x' y' = absdiff RN blot x y x' y').
    { intros x' y'. unfold absdiff, im. change (F RN) with (option R). destruct (blot x y), (blot x' y'); try reflexivity. cbn. do 2 f_equal. ring. }
    rewrite (deriv_same nr nc nr nc (im (plus a) blot) blot x y x y X Y X Y).
    - f_equal. unfold dev, im. change (F RN) with (option R) in *. destruct (sci x y), (blot x y), b; try reflexivity. cbn. do 2 f_equal. ring.
    - unfold im. change (F RN) with (option R). destruct (blot x y); split; intro Q; try reflexivity; discriminate.
    - intros x' y' N. exists x', y'. split; [exact N|apply AD].
    - intros x' y' N. exists x', y'. split; [exact N|symmetry; apply AD]. }
  apply eq_iff_eq_true. split; apply flags_by; try assumption.
  - rewrite T by assumption. auto.
  - intros x y W H. exists x, y. split; [exact W|]. destruct W as (X & Y & _). rewrite T in H by assumption. exact H.
  - rewrite T by assumption. auto.
  - intros x y W H. exists x, y. split; [exact W|]. destruct W as (X & Y & _). rewrite T by assumption. exact H.
Qed.
Print Assumptions C128_resampled_zero.

(** ** The orientation of the images *)
Lemma flags_moved nr nc nr' nc' (f g : nat -> nat -> nat) fm (sci err blot sci' err' blot' : img RN) s1 s2 k1 k2 b r c :
  (forall x y, (x < nr)%nat -> (y < nc)%nat -> (f x y < nr')%nat /\ (g x y < nc')%nat /\ sci x y = sci' (f x y) (g x y) /\ err x y = err' (f x y) (g x y) /\ blot x y = blot' (f x y) (g x y)) ->
  (forall x y x' y', (x < nr)%nat -> (y < nc)%nat -> neighbour nr nc x y x' y' -> neighbour nr' nc' (f x y) (g x y) (f x' y') (g x' y')) ->
  (forall x y u v, (x < nr)%nat -> (y < nc)%nat -> neighbour nr' nc' (f x y) (g x y) u v -> exists x' y', neighbour nr nc x y x' y' /\ u = f x' y' /\ v = g x' y') ->
  (forall x y x' y', (x < nr)%nat -> (y < nc)%nat -> window3 nr nc x y x' y' -> window3 nr' nc' (f x y) (g x y) (f x' y') (g x' y')) -> (r < nr)%nat -> (c < nc)%nat ->
  flag_resampled_crs RN fm nr nc sci err blot s1 s2 k1 k2 b r c = true -> flag_resampled_crs RN fm nr' nc' sci' err' blot' s1 s2 k1 k2 b (f r c) (g r c) = true.
Proof.
  intros G N1 N2 W Hr Hc.
  assert (T : forall s k x y, (x < nr)%nat -> (y < nc)%nat -> flt RN (threshold RN fm k s (abs_deriv RN nr nc blot) err x y) (dev sci blot b x y) = flt RN (threshold RN fm k s (abs_deriv RN nr' nc' blot') err' (f x y) (g x y)) (dev sci' blot' b (f x y) (g x y))).
  { intros s k x y X Y. destruct (G x y X Y) as (F1 & F2 & ES & EE & EB). unfold threshold, dev. rewrite ES, EE, EB. f_equal. f_equal. f_equal. apply deriv_same; try assumption.
    - rewrite EB. reflexivity.
    - intros x' y' N. exists (f x' y'), (g x' y'). split; [apply N1; assumption|]. destruct N as (X' & Y' & _). destruct (G x' y' X' Y') as (_ & _ & _ & _ & EB'). unfold absdiff. rewrite EB, EB'. reflexivity.
    - intros u v N. destruct (N2 x y u v X Y N) as (x' & y' & N' & -> & ->). exists x', y'. split; [exact N'|]. destruct N' as (X' & Y' & _). destruct (G x' y' X' Y') as (_ & _ & _ & _ & EB'). unfold absdiff. rewrite EB, EB'. reflexivity. }
  destruct (G r c Hr Hc) as (F1 & F2 & _). apply flags_by; try assumption.
  - rewrite T by assumption. auto.
  - intros x y Wn H. exists (f x y), (g x y). split; [apply W; assumption|]. destruct Wn as (X & Y & _). rewrite T in H by assumption. exact H.
Qed.
Theorem C128_upside_down : forall fm nr nc (sci err blot : img RN) (s1 s2 k1 k2 b : RN) r c, (r < nr)%nat -> (c < nc)%nat ->
  flag_resampled_crs RN fm nr nc (upside_down nr sci) (upside_down nr err) (upside_down nr blot) s1 s2 k1 k2 b r c = flag_resampled_crs RN fm nr nc sci err blot s1 s2 k1 k2 b (nr - 1 - r)%nat c.
Proof.
  intros fm nr nc sci err blot s1 s2 k1 k2 b r c Hr Hc. set (f := fun x (_ : nat) => (nr - 1 - x)%nat). set (g := fun (_ y : nat) => y). apply eq_iff_eq_true. split.
  - apply (flags_moved nr nc nr nc f g); unfold f, g, neighbour, window3, upside_down; try assumption; try lia.
    + intros x y X Y. repeat split; lia.
    + intros x y u v X Y N. exists (nr - 1 - u)%nat, v. lia.
  - pose proof (flags_moved nr nc nr nc f g fm sci err blot (upside_down nr sci) (upside_down nr err) (upside_down nr blot) s1 s2 k1 k2 b (nr - 1 - r)%nat c) as H. unfold f, g in H. replace (nr - 1 - (nr - 1 - r))%nat with r in H by lia.
    apply H; unfold neighbour, window3, upside_down; try assumption; try lia.
    + intros x y X Y. replace (nr - 1 - (nr - 1 - x))%nat with x by lia. repeat split; lia.
    + intros x y u v X Y N. exists (nr - 1 - u)%nat, v. lia.
Qed.
Print Assumptions C128_upside_down.
Theorem C128_mirrored : forall fm nr nc (sci err blot : img RN) (s1 s2 k1 k2 b : RN) r c, (r < nr)%nat -> (c < nc)%nat ->
  flag_resampled_crs RN fm nr nc (mirrored nc sci) (mirrored nc err) (mirrored nc blot) s1 s2 k1 k2 b r c = flag_resampled_crs RN fm nr nc sci err blot s1 s2 k1 k2 b r (nc - 1 - c)%nat.
Proof.
  intros fm nr nc sci err blot s1 s2 k1 k2 b r c Hr Hc. set (f := fun (x _ : nat) => x). set (g := fun (_ y : nat) => (nc - 1 - y)%nat). apply eq_iff_eq_true. split.
  - apply (flags_moved nr nc nr nc f g); unfold f, g, neighbour, window3, mirrored; try assumption; try lia.
    + intros x y X Y. repeat split; lia.
    + intros x y u v X Y N. exists u, (nc - 1 - v)%nat. lia.
  - pose proof (flags_moved nr nc nr nc f g fm sci err blot (mirrored nc sci) (mirrored nc err) (mirrored nc blot) s1 s2 k1 k2 b r (nc - 1 - c)%nat) as H. unfold f, g in H. replace (nc - 1 - (nc - 1 - c))%nat with c in H by lia.
    apply H; unfold neighbour, window3, mirrored; try assumption; try lia.
    + intros x y X Y. replace (nc - 1 - (nc - 1 - y))%nat with y by lia. repeat split; lia.
    + intros x y u v X Y N. exists u, (nc - 1 - v)%nat. lia.
Qed.
Print Assumptions C128_mirrored.
Theorem C128_transposed : forall fm nr nc (sci err blot : img RN) (s1 s2 k1 k2 b : RN) r c, (r < nr)%nat -> (c < nc)%nat ->
  flag_resampled_crs RN fm nc nr (transposed sci) (transposed err) (transposed blot) s1 s2 k1 k2 b c r = flag_resampled_crs RN fm nr nc sci err blot s1 s2 k1 k2 b r c.
Proof.
  intros fm nr nc sci err blot s1 s2 k1 k2 b r c Hr Hc. set (f := fun (x y : nat) => y). set (g := fun (x _ : nat) => x). apply eq_iff_eq_true. split.
  - apply (flags_moved nc nr nr nc f g); unfold f, g, neighbour, window3, transposed; try assumption; try lia.
    + intros x y X Y. repeat split; lia.
    + intros x y u v X Y N. exists v, u. lia.
  - apply (flags_moved nr nc nc nr f g); unfold f, g, neighbour, window3, transposed; try assumption; try lia.
    + intros x y X Y. repeat split; lia.
    + intros x y u v X Y N. exists v, u. lia.
Qed.
Print Assumptions C128_transposed.

(** ** Examples *)
Example C128_threshold_ex : let i (v : R) : img RN := fun _ _ => Some v in nonneg (i 2 0%nat 0%nat) /\ flag_crs RN (Some 1000) (i 10) (i 2) (i 3) (Some 3 : RN) 0%nat 0%nat = true /\ flag_crs RN (Some 1000) (i 10) (i 2) (i 3) (Some 2 : RN) 0%nat 0%nat = true /\
  flag_crs RN (Some 1000) (i 10) (i 2) (i 3) (Some 4 : RN) 0%nat 0%nat = false.
Proof.
  intro i. assert (A : Rabs (10 - 3) = 7) by (rewrite Rabs_right; lra). split; [cbn; lra|].
  repeat split; cbn; rewrite A; [apply Rltb_spec; lra|apply Rltb_spec; lra|apply not_true_iff_false; rewrite Rltb_spec; lra].
Qed.
(** one row: 50, a missing value, 6; the reference has a missing value too.  The first pixel is flagged; the third has no seed in its window *)
Example C128_resampled_ex : let sci : img RN := fun _ c => nth c [Some 50; None; Some 6] None in let blot : img RN := fun _ c => nth c [Some 0; None; Some 0] None in let err : img RN := fun _ _ => Some 1 in
  flag_resampled_crs RN (Some 1000) 1 3 sci err blot (Some 10 : RN) (Some 5 : RN) (Some 1 : RN) (Some 1 : RN) (Some 0 : RN) 0%nat 0%nat = true /\
  flag_resampled_crs RN (Some 1000) 1 3 sci err blot (Some 10 : RN) (Some 5 : RN) (Some 1 : RN) (Some 1 : RN) (Some 0 : RN) 0%nat 2%nat = false /\
  flag_resampled_crs RN (Some 1000) 1 3 (mirrored 3 sci) (mirrored 3 err) (mirrored 3 blot) (Some 10 : RN) (Some 5 : RN) (Some 1 : RN) (Some 1 : RN) (Some 0 : RN) 0%nat 2%nat = true.
Proof.
  intros sci blot err. assert (A : flag_resampled_crs RN (Some 1000) 1 3 sci err blot (Some 10 : RN) (Some 5 : RN) (Some 1 : RN) (Some 1 : RN) (Some 0 : RN) 0%nat 0%nat = true).
  { apply C57_resampled_flags; [lia|lia|intros; apply fon|]. unfold exceeds. assert (B : Rabs (50 - 0 - 0) = 50) by (rewrite Rabs_right; lra).
    split; [cbn; rewrite B; apply Rltb_spec; lra|]. exists 0%nat, 0%nat. split; [unfold window3; lia|]. cbn. rewrite B. apply Rltb_spec. lra. }
  split; [exact A|]. split; [|rewrite (C128_mirrored (Some 1000) 1 3); [exact A|lia|lia]].
  apply not_true_iff_false. intro H. apply C57_resampled_flags in H; [|lia|lia|intros; apply fon]. destruct H as (_ & r & c & (R1 & C1 & _ & _ & C2 & C3) & H). assert (r = 0%nat) as -> by lia. assert (B : Rabs (6 - 0 - 0) = 6) by (rewrite Rabs_right; lra).
  assert (c = 1 \/ c = 2)%nat as [-> | ->] by lia; unfold exceeds in H; cbn in H; [discriminate|]. rewrite B in H. apply Rltb_spec in H. lra.
Qed.
