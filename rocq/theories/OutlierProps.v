(** C17, C57, C58: outlier flagging *)
From Verif Require Import Base BaseLemmas RBase FLaws OutlierModel.
From Coq Require Import Reals Lra SpecFloat ZifyBool ZifyNat.
Local Open Scope nat_scope.

(** ** Specification *)
(** the four in-image neighbours of a pixel *)
Definition neighbour (nr nc r c r' c' : nat) : Prop :=
  r' < nr /\ c' < nc /\
  ((r' = r /\ (c' = c + 1 \/ c = c' + 1)) \/ (c' = c /\ (r' = r + 1 \/ r = r' + 1))).
Definition absdiff (fo : FOps) (a : img fo) (r c r' c' : nat) : fo := fabs fo (fsub fo (a r c) (a r' c')).
(** [v] is the largest absolute difference to a neighbour (0 if there is none, NaNs ignored) *)
Definition largest_difference (fo : FOps) (nr nc : nat) (a : img fo) (r c : nat) (v : fo) : Prop :=
  (v = fzero fo \/ exists r' c', neighbour nr nc r c r' c' /\ v = absdiff fo a r c r' c') /\
  fisnan fo v = false /\
  forall r' c', neighbour nr nc r c r' c' -> flt fo v (absdiff fo a r c r' c') = false.
(** a NaN error counts as 0 *)
Definition error_of (fo : FOps) (e : fo) : fo := if fisnan fo e then fzero fo else e.
Definition finite_or_nan (fo : FOps) (e : fo) : Prop := fisfinite fo e = true \/ fisnan fo e = true.
(** pixels of the 3x3 window that lie in the image *)
Definition window3 (nr nc r c r' c' : nat) : Prop :=
  r' < nr /\ c' < nc /\ r <= r' + 1 /\ r' <= r + 1 /\ c <= c' + 1 /\ c' <= c + 1.

(** ** flag_crs *)
Theorem C17_flag_crs : forall (fo : FOps), FLaws fo -> forall fmax sci err blot snr r c,
  finite_or_nan fo (err r c) ->
  (flag_crs fo fmax sci err blot snr r c = true <->
   flt fo (fmul fo snr (error_of fo (err r c))) (fabs fo (fsub fo (sci r c) (blot r c))) = true).
Proof.
  intros fo L fmax sci err blot snr r c H. unfold flag_crs, fgt, nan_to_num, error_of.
  destruct (fisnan fo (err r c)) eqn:E; [reflexivity|]. destruct H as [->|H]; [reflexivity|congruence].
Qed.
Theorem C17_flag_crs_never_nan : forall (fo : FOps), FLaws fo -> forall fmax sci err blot snr r c,
  fisnan fo (sci r c) = true \/ fisnan fo (blot r c) = true \/ fisnan fo snr = true ->
  flag_crs fo fmax sci err blot snr r c = false.
Proof.
  intros fo L fmax sci err blot snr r c H. unfold flag_crs, fgt. destruct H as [H|[H|H]].
  - apply (lt_nan_r fo L). rewrite (abs_nan fo L). apply (sub_nan_l fo L); exact H.
  - apply (lt_nan_r fo L). rewrite (abs_nan fo L). apply (sub_nan_r fo L); exact H.
  - apply (lt_nan_l fo L). apply (mul_nan_l fo L); exact H.
Qed.
(** in exact arithmetic *)
Theorem C17_flag_crs_exact : forall fmax (sci err blot : img RF) snr r c,
  flag_crs RF fmax sci err blot snr r c = true <-> (Rabs (sci r c - blot r c) > snr * err r c)%R.
Proof.
  intros. rewrite (C17_flag_crs RF RF_laws) by (left; reflexivity). cbn. rewrite Rltb_spec. reflexivity.
Qed.
Definition cst (x : Z) : img B32 := fun _ _ => fofZ B32 x.
Example C17_flag_crs_ex :
  flag_crs B32 (fofZ B32 1000000) (cst 10) (cst 2) (cst 3) (fofZ B32 3) 0 0 = true /\
  flag_crs B32 (fofZ B32 1000000) (cst 9) (cst 2) (cst 3) (fofZ B32 3) 0 0 = false /\
  flag_crs B32 (fofZ B32 1000000) (cst 9) (fun _ _ => fnan B32) (cst 3) (fofZ B32 3) 0 0 = true /\
  flag_crs B32 (fofZ B32 1000000) (fun _ _ => fnan B32) (cst 2) (cst 3) (fofZ B32 3) 0 0 = false /\
  FLaws B32 /\ finite_or_nan B32 (cst 2 0 0).
Proof. do 4 (split; [vm_compute; reflexivity|]). split; [apply ieee_laws|left; reflexivity]. Qed.
Print Assumptions C17_flag_crs.
Print Assumptions C17_flag_crs_never_nan.
Print Assumptions C17_flag_crs_exact.
(** An infinite error does not suppress the flag: it is replaced by the largest finite number. *)
Theorem C17_infinite_error_refuted : exists fmax sci err blot snr,
  fisfinite B32 fmax = true /\
  flag_crs B32 fmax sci err blot snr 0 0 = true /\
  flt B32 (fmul B32 snr (err 0 0)) (fabs B32 (fsub B32 (sci 0 0) (blot 0 0))) = false.
Proof.
  exists (S754_finite false 16777215 104), (fun _ _ => S754_infinity false), (fun _ _ => S754_infinity false),
    (cst 0), (fofZ B32 1). vm_compute. repeat split; reflexivity.
Qed.
Print Assumptions C17_infinite_error_refuted.

(** ** the derivative image *)
Section Deriv.
  Variable fo : FOps. Variable L : FLaws fo.
  Definition step (v d : fo) : fo := if flt fo v d then d else v.
  Lemma step_lt v d x : fisnan fo v = false -> flt fo v x = false -> flt fo (step v d) x = false.
  Proof. intros Hv Hx. unfold step. destruct (flt fo v d) eqn:E; [|exact Hx].
    apply (nflt_trans fo L d v x Hv); [|exact Hx]. apply (flt_asym fo L); exact E. Qed.
  Lemma step_ge v d : fisnan fo v = false -> flt fo (step v d) d = false.
  Proof. intros Hv. unfold step. destruct (flt fo v d) eqn:E; [apply (flt_irrefl fo L)|exact E]. Qed.
  Lemma step_nan v d : fisnan fo v = false -> fisnan fo (step v d) = false.
  Proof. intro Hv. unfold step. destruct (flt fo v d) eqn:E; [|exact Hv].
    apply (flt_notnan fo L) in E. apply E. Qed.
  Lemma step_choice v d : step v d = v \/ step v d = d.
  Proof. unfold step. destruct (flt fo v d); auto. Qed.
End Deriv.

Theorem C17_abs_deriv : forall (fo : FOps), FLaws fo -> forall nr nc (a : img fo) r c,
  r < nr -> c < nc -> fisnan fo (a r c) = false ->
  (0 < r -> finite_or_nan fo (absdiff fo a r c (r - 1) c)) ->
  largest_difference fo nr nc a r c (abs_deriv fo nr nc a r c).
Proof.
  intros fo L nr nc a r c Hr Hc Ha Hup.
  unfold abs_deriv. unfold deriv4, putmask, fgt. fold (step fo).
  set (v1 := deriv1 fo a (deriv0 fo a) r c).
  set (v2 := deriv2 fo nr a (deriv1 fo a (deriv0 fo a)) r c).
  set (v3 := deriv3 fo a (deriv2 fo nr a (deriv1 fo a (deriv0 fo a))) r c).
  set (up := absdiff fo a r c (r - 1) c) in *. set (lf := absdiff fo a r c r (c - 1)).
  set (dn := absdiff fo a r c (r + 1) c). set (rt := absdiff fo a r c r (c + 1)).
  assert (Eup : 0 < r -> row_diff fo a (r - 1) c = up).
  { intro. unfold row_diff, up, absdiff. replace (r - 1 + 1) with r by lia. reflexivity. }
  assert (Elf : 0 < c -> col_diff fo a r (c - 1) = lf).
  { intro. unfold col_diff, lf, absdiff. replace (c - 1 + 1) with c by lia. reflexivity. }
  assert (Edn : row_diff fo a r c = dn) by (unfold row_diff, dn, absdiff; apply (abs_sub_comm fo L)).
  assert (Ert : col_diff fo a r c = rt) by (unfold col_diff, rt, absdiff; apply (abs_sub_comm fo L)).
  assert (Z0 : fisnan fo (fzero fo) = false) by (apply (finite_not_nan fo L), (zero_finite fo L)).
  (* invariant: not NaN, 0 or an in-image difference, not below the listed differences *)
  assert (I1 : fisnan fo v1 = false /\ (v1 = fzero fo \/ (0 < r /\ v1 = up)) /\ (0 < r -> flt fo v1 up = false)).
  { unfold v1, deriv1, deriv0, putmask. rewrite Ha. destruct (Nat.ltb_spec 0 r) as [L0|L0].
    - rewrite (Eup L0). destruct (fisfinite fo up) eqn:F0.
      + split; [apply (finite_not_nan fo L); exact F0|]. split; [auto|]. intros _; apply (flt_irrefl fo L).
      + split; [exact Z0|]. split; [auto|]. intros _. destruct (Hup L0) as [K|K]; [congruence|].
        apply (lt_nan_r fo L); exact K.
    - split; [exact Z0|]. split; [auto|]. lia. }
  destruct I1 as (N1 & C1 & U1).
  assert (E2 : v2 = if Nat.ltb (r + 1) nr then step fo v1 dn else v1).
  { unfold v2, deriv2, putmask, fgt. rewrite Edn. reflexivity. }
  assert (I2 : fisnan fo v2 = false /\ (v2 = fzero fo \/ (0 < r /\ v2 = up) \/ (r + 1 < nr /\ v2 = dn)) /\
     (0 < r -> flt fo v2 up = false) /\ (r + 1 < nr -> flt fo v2 dn = false)).
  { rewrite E2. destruct (Nat.ltb_spec (r + 1) nr) as [L0|L0].
    - split; [apply step_nan; assumption|]. split; [destruct (step_choice fo v1 dn) as [->| ->]; tauto|].
      split; [intro; apply step_lt; auto|intro; apply step_ge; auto].
    - split; [exact N1|]. split; [tauto|]. split; [exact U1|intro Hx; exfalso; clear - Hx L0; lia]. }
  destruct I2 as (N2 & C2 & U2 & D2).
  assert (E3 : v3 = if Nat.ltb 0 c then step fo v2 lf else v2).
  { unfold v3, deriv3, putmask, fgt. fold v2. destruct (Nat.ltb_spec 0 c) as [L0|L0]; [rewrite (Elf L0)|]; reflexivity. }
  assert (I3 : fisnan fo v3 = false /\
     (v3 = fzero fo \/ (0 < r /\ v3 = up) \/ (r + 1 < nr /\ v3 = dn) \/ (0 < c /\ v3 = lf)) /\
     (0 < r -> flt fo v3 up = false) /\ (r + 1 < nr -> flt fo v3 dn = false) /\ (0 < c -> flt fo v3 lf = false)).
  { rewrite E3. destruct (Nat.ltb_spec 0 c) as [L0|L0].
    - split; [apply step_nan; assumption|]. split; [destruct (step_choice fo v2 lf) as [->| ->]; tauto|].
      split; [intro; apply step_lt; auto|]. split; [intro; apply step_lt; auto|intro; apply step_ge; auto].
    - split; [exact N2|]. split; [tauto|]. split; [exact U2|]. split; [exact D2|intro Hx; exfalso; clear - Hx L0; lia]. }
  destruct I3 as (N3 & C3 & U3 & D3 & L3).
  set (v4 := if Nat.ltb (c + 1) nc then step fo v3 rt else v3).
  assert (E4 : (if Nat.ltb (c + 1) nc then if flt fo v3 (col_diff fo a r c) then col_diff fo a r c else v3 else v3) = v4)
    by (rewrite Ert; reflexivity).
  fold v3. rewrite E4.
  assert (I4 : fisnan fo v4 = false /\
     (v4 = fzero fo \/ (0 < r /\ v4 = up) \/ (r + 1 < nr /\ v4 = dn) \/ (0 < c /\ v4 = lf) \/ (c + 1 < nc /\ v4 = rt)) /\
     (0 < r -> flt fo v4 up = false) /\ (r + 1 < nr -> flt fo v4 dn = false) /\ (0 < c -> flt fo v4 lf = false)
     /\ (c + 1 < nc -> flt fo v4 rt = false)).
  { unfold v4. destruct (Nat.ltb_spec (c + 1) nc) as [L0|L0].
    - split; [apply step_nan; assumption|]. split; [destruct (step_choice fo v3 rt) as [->| ->]; tauto|].
      split; [intro; apply step_lt; auto|]. split; [intro; apply step_lt; auto|].
      split; [intro; apply step_lt; auto|intro; apply step_ge; auto].
    - split; [exact N3|]. split; [tauto|]. split; [exact U3|]. split; [exact D3|]. split; [exact L3|intro Hx; exfalso; clear - Hx L0; lia]. }
  destruct I4 as (N4 & C4 & U4 & D4 & L4 & R4). clear C1 C2 C3 U1 U2 D2 U3 D3 L3 N1 N2 N3 E2 E3 E4.
  clearbody v4. clear v1 v2 v3. split; [|split; [exact N4|clear C4]].
  - destruct C4 as [->|[[P ->]|[[P ->]|[[P ->]|[P ->]]]]]; [left; reflexivity|right..].
    + exists (r - 1), c. split; [unfold neighbour; lia|reflexivity].
    + exists (r + 1), c. split; [unfold neighbour; lia|reflexivity].
    + exists r, (c - 1). split; [unfold neighbour; lia|reflexivity].
    + exists r, (c + 1). split; [unfold neighbour; lia|reflexivity].
  - intros r' c' (H1 & H2 & [[-> [->| ->]]|[-> [->| ->]]]).
    + apply R4; exact H2.
    + replace (absdiff fo a r (c' + 1) r c') with lf; [apply L4; lia|].
      unfold lf. replace (c' + 1 - 1) with c' by lia. reflexivity.
    + apply D4; exact H1.
    + replace (absdiff fo a (r' + 1) c r' c) with up; [apply U4; lia|].
      unfold up. replace (r' + 1 - 1) with r' by lia. reflexivity.
Qed.
Print Assumptions C17_abs_deriv.

(** NaN pixels of the input stay NaN. *)
Theorem C17_abs_deriv_nan : forall (fo : FOps), FLaws fo -> forall nr nc (a : img fo) r c,
  fisnan fo (a r c) = true -> abs_deriv fo nr nc a r c = fnan fo.
Proof.
  intros fo L nr nc a r c Ha.
  assert (D : forall x y, fisnan fo x = true \/ fisnan fo y = true -> fisnan fo (fabs fo (fsub fo x y)) = true).
  { intros x y H. rewrite (abs_nan fo L). destruct H; [apply (sub_nan_l fo L)|apply (sub_nan_r fo L)]; assumption. }
  assert (FN : forall x, fisnan fo x = true -> fisfinite fo x = false).
  { intros x Hx. destruct (fisfinite fo x) eqn:E; [|reflexivity]. apply (finite_not_nan fo L) in E. congruence. }
  assert (V1 : deriv1 fo a (deriv0 fo a) r c = fnan fo).
  { unfold deriv1, deriv0, putmask. rewrite Ha. destruct (Nat.ltb_spec 0 r); [|reflexivity].
    unfold row_diff. replace (r - 1 + 1) with r by lia. rewrite FN; [reflexivity|]. apply D; auto. }
  assert (V2 : deriv2 fo nr a (deriv1 fo a (deriv0 fo a)) r c = fnan fo).
  { unfold deriv2, putmask, fgt. rewrite V1. destruct (Nat.ltb _ _); [|reflexivity].
    rewrite (lt_nan_r fo L); [reflexivity|]. apply D; auto. }
  assert (V3 : deriv3 fo a (deriv2 fo nr a (deriv1 fo a (deriv0 fo a))) r c = fnan fo).
  { unfold deriv3, putmask, fgt. rewrite V2. destruct (Nat.ltb_spec 0 c); [|reflexivity].
    rewrite (lt_nan_r fo L); [reflexivity|]. unfold col_diff. replace (c - 1 + 1) with c by lia. apply D; auto. }
  unfold abs_deriv, deriv4, putmask, fgt. rewrite V3. destruct (Nat.ltb _ _); [|reflexivity].
  rewrite (lt_nan_r fo L); [reflexivity|]. apply D; auto.
Qed.
Print Assumptions C17_abs_deriv_nan.

(** In exact arithmetic the value is the maximum. *)
Theorem C17_abs_deriv_exact : forall nr nc (a : img RF) r c, r < nr -> c < nc ->
  (forall r' c', neighbour nr nc r c r' c' -> (Rabs (a r c - a r' c') <= abs_deriv RF nr nc a r c)%R) /\
  ((exists r' c', neighbour nr nc r c r' c') ->
   exists r' c', neighbour nr nc r c r' c' /\ abs_deriv RF nr nc a r c = Rabs (a r c - a r' c')).
Proof.
  intros nr nc a r c Hr Hc.
  destruct (C17_abs_deriv RF RF_laws nr nc a r c Hr Hc eq_refl (fun _ => or_introl eq_refl)) as (H1 & _ & H2).
  assert (H3 : forall r' c', neighbour nr nc r c r' c' -> (Rabs (a r c - a r' c') <= abs_deriv RF nr nc a r c)%R).
  { intros r' c' Hn. specialize (H2 r' c' Hn). apply Rltb_false in H2. exact H2. }
  split; [exact H3|]. intros (r' & c' & Hn). destruct H1 as [H1|H1]; [|exact H1].
  exists r', c'. split; [exact Hn|]. specialize (H3 r' c' Hn). pose proof (Rabs_pos (a r c - a r' c')).
  rewrite H1 in *. change (fzero RF) with 0%R in *. lra.
Qed.
Print Assumptions C17_abs_deriv_exact.

Definition ex_a : img B32 := fun r c => if (Nat.eqb r 1 && Nat.eqb c 1)%bool then fnan B32 else fofZ B32 (Z.of_nat (r * r + 10 * c)).
Example C17_abs_deriv_ex : abs_deriv B32 3 3 ex_a 0 0 = fofZ B32 10 /\ abs_deriv B32 3 3 ex_a 2 1 = fofZ B32 10 /\
  abs_deriv B32 3 3 ex_a 1 1 = fnan B32 /\ fisnan B32 (ex_a 2 1) = false /\
  finite_or_nan B32 (absdiff B32 ex_a 2 1 1 1).
Proof. repeat split; try (vm_compute; reflexivity). right; reflexivity. Qed.

(** With infinities the downward and upward directions are not treated alike: the pixel below an
    infinite one does not see it. *)
Theorem C17_infinite_pixel_refuted : exists (a : img B32) nr nc r c, r < nr /\ c < nc /\
  fisnan B32 (a r c) = false /\ ~ largest_difference B32 nr nc a r c (abs_deriv B32 nr nc a r c).
Proof.
  exists (fun r _ => if Nat.eqb r 0 then S754_infinity false else fzero B32), 2, 1, 1, 0.
  split; [lia|]. split; [lia|]. split; [reflexivity|]. intros (_ & _ & H).
  specialize (H 0 0 ltac:(unfold neighbour; lia)). vm_compute in H. discriminate H.
Qed.
Print Assumptions C17_infinite_pixel_refuted.

(** ** C57: resampled flagging *)
Lemma clamp_spec n i : 0 < n -> clamp n i < n.
Proof. unfold clamp. lia. Qed.
Lemma smooth3_spec nr nc m r c : r < nr -> c < nc ->
  (smooth3 nr nc m r c = true <-> exists r' c', window3 nr nc r c r' c' /\ m r' c' = true).
Proof.
  intros Hr Hc. unfold smooth3.
  set (M := fun dr dc => m (clamp nr (Z.of_nat r + dr)) (clamp nc (Z.of_nat c + dc))).
  assert (K : Nat.ltb 0 (fold_left (fun acc dr => fold_left (fun acc dc => if M dr dc then S acc else acc) [-1; 0; 1]%Z acc) [-1; 0; 1]%Z 0) = true
     <-> exists dr dc, In dr [-1;0;1]%Z /\ In dc [-1;0;1]%Z /\ M dr dc = true).
  { assert (C1 : forall dr l acc, fold_left (fun acc dc => if M dr dc then S acc else acc) l acc
       = acc + length (filter (M dr) l)).
    { intros dr l. induction l as [|x l IH]; intro acc; cbn [fold_left filter]; [cbn; lia|].
      rewrite IH. destruct (M dr x); cbn [length]; lia. }
    assert (C2 : forall l2 l acc, 0 < fold_left (fun acc dr => fold_left (fun acc dc => if M dr dc then S acc else acc) l2 acc) l acc
       <-> 0 < acc \/ exists dr dc, In dr l /\ In dc l2 /\ M dr dc = true).
    { intros l2 l. induction l as [|x l IH]; intro acc; cbn [fold_left].
      - split; [auto|]. intros [H|(dr & _ & [] & _)]; exact H.
      - rewrite IH, C1. split.
        + intros [H|(dr & dc & H1 & H2)]; [|right; exists dr, dc; cbn; tauto].
          destruct (filter (M x) l2) as [|y ys] eqn:E; [cbn in H; left; lia|].
          right. exists x, y. assert (Hy : In y (filter (M x) l2)) by (rewrite E; left; reflexivity).
          apply filter_In in Hy. cbn; tauto.
        + intros [H|(dr & dc & [<-|H1] & H2 & H3)]; [left; lia| |right; exists dr, dc; tauto].
          left. assert (Hy : In dc (filter (M x) l2)) by (apply filter_In; tauto).
          destruct (filter (M x) l2); [destruct Hy|cbn; lia]. }
    rewrite Nat.ltb_lt, C2. split; [intros [H|H]; [lia|exact H]|auto]. }
  unfold M in K. rewrite K. split.
  - intros (dr & dc & H1 & H2 & H). eexists _, _; split; [|exact H]. unfold window3, clamp.
    cbn in H1, H2. lia.
  - intros (r' & c' & (H1 & H2 & H3 & H4 & H5 & H6) & H).
    exists (Z.of_nat r' - Z.of_nat r)%Z, (Z.of_nat c' - Z.of_nat c)%Z.
    split; [cbn; lia|]. split; [cbn; lia|].
    replace (clamp nr (Z.of_nat r + (Z.of_nat r' - Z.of_nat r))) with r' by (unfold clamp; lia).
    replace (clamp nc (Z.of_nat c + (Z.of_nat c' - Z.of_nat c))) with c' by (unfold clamp; lia). exact H.
Qed.

(** the deviation exceeds [scale * derivative + snr * error] *)
Definition exceeds (fo : FOps) nr nc (sci err blot : img fo) (scale snr backg : fo) (r c : nat) : Prop :=
  flt fo (fadd fo (fmul fo scale (abs_deriv fo nr nc blot r c)) (fmul fo snr (error_of fo (err r c))))
         (fabs fo (fsub fo (fsub fo (sci r c) (blot r c)) backg)) = true.

Theorem C57_resampled_flags : forall (fo : FOps) fmax nr nc sci err blot snr1 snr2 scale1 scale2 backg r c,
  r < nr -> c < nc -> (forall r c, r < nr -> c < nc -> finite_or_nan fo (err r c)) ->
  (flag_resampled_crs fo fmax nr nc sci err blot snr1 snr2 scale1 scale2 backg r c = true <->
   exceeds fo nr nc sci err blot scale2 snr2 backg r c /\
   exists r' c', window3 nr nc r c r' c' /\ exceeds fo nr nc sci err blot scale1 snr1 backg r' c').
Proof.
  intros fo fmax nr nc sci err blot snr1 snr2 scale1 scale2 backg r c Hr Hc He.
  assert (E : forall r c, r < nr -> c < nc -> nan_to_num fo fmax (err r c) = error_of fo (err r c)).
  { intros r' c' H1 H2. unfold nan_to_num, error_of. destruct (fisnan fo (err r' c')) eqn:E; [reflexivity|].
    destruct (He r' c' H1 H2) as [->|K]; [reflexivity|congruence]. }
  unfold flag_resampled_crs. rewrite andb_true_iff, smooth3_spec by assumption.
  unfold threshold, exceeds, fgt. rewrite (E r c Hr Hc). rewrite and_comm. apply and_iff_compat_l.
  split; intros (r' & c' & W & H); exists r', c'; (split; [exact W|]);
    destruct W as (W1 & W2 & _); rewrite ?E in * by assumption; exact H.
Qed.
Print Assumptions C57_resampled_flags.

(** A pixel whose own science, reference or derivative value is NaN is never flagged. *)
Theorem C57_never_nan : forall (fo : FOps), FLaws fo ->
  forall fmax nr nc sci err blot snr1 snr2 scale1 scale2 backg r c,
  fisnan fo (sci r c) = true \/ fisnan fo (blot r c) = true ->
  flag_resampled_crs fo fmax nr nc sci err blot snr1 snr2 scale1 scale2 backg r c = false.
Proof.
  intros fo L fmax nr nc sci err blot snr1 snr2 scale1 scale2 backg r c H.
  unfold flag_resampled_crs. apply andb_false_iff. right. apply (lt_nan_r fo L).
  rewrite (abs_nan fo L). apply (sub_nan_l fo L). destruct H; [apply (sub_nan_l fo L)|apply (sub_nan_r fo L)]; assumption.
Qed.
Print Assumptions C57_never_nan.
(** one bright pixel at (1,1): it is flagged together with the pixels that pass the second threshold *)
Definition ex_sci : img B32 := fun r c => if (Nat.eqb r 1 && Nat.eqb c 1)%bool then fofZ B32 50 else if Nat.eqb r 0 then fofZ B32 6 else fzero B32.
Example C57_ex :
  flag_resampled_crs B32 (fofZ B32 1000000) 3 3 ex_sci (cst 1) (cst 0) (fofZ B32 10) (fofZ B32 5) (fofZ B32 1) (fofZ B32 1) (fzero B32) 0 2 = true /\
  flag_resampled_crs B32 (fofZ B32 1000000) 3 3 ex_sci (cst 1) (cst 0) (fofZ B32 10) (fofZ B32 5) (fofZ B32 1) (fofZ B32 1) (fzero B32) 2 2 = false /\
  flag_resampled_crs B32 (fofZ B32 1000000) 3 4 ex_sci (cst 1) (cst 0) (fofZ B32 10) (fofZ B32 5) (fofZ B32 1) (fofZ B32 1) (fzero B32) 0 3 = false /\
  finite_or_nan B32 (cst 1 0 0).
Proof. repeat split; try (vm_compute; reflexivity). left; reflexivity. Qed.

(** ** C58: median filter *)
(** the image extended by zeros *)
Definition zero_ext (fo : FOps) (nr nc : nat) (a : img fo) (r c : Z) : fo :=
  if (Z.leb 0 r && Z.ltb r (Z.of_nat nr) && Z.leb 0 c && Z.ltb c (Z.of_nat nc))%Z
  then a (Z.to_nat r) (Z.to_nat c) else fzero fo.
Definition window (fo : FOps) (nr nc kr kc : nat) (a : img fo) (r c : nat) : list fo :=
  flat_map (fun i => map (fun j =>
     zero_ext fo nr nc a (Z.of_nat r + Z.of_nat i - Z.of_nat (kr / 2)) (Z.of_nat c + Z.of_nat j - Z.of_nat (kc / 2)))
     (seq 0 kc)) (seq 0 kr).

Theorem C58_medfilt : forall (fo : FOps) med nr nc hr hc (a : img fo),
  0 < nr -> 0 < nc ->
  exists out, medfilt fo med nr nc (2 * hr + 1) (2 * hc + 1) a = Some (nr, nc, out) /\
  forall r c, r < nr -> c < nc -> out r c = med (window fo nr nc (2 * hr + 1) (2 * hc + 1) a r c).
Proof.
  intros fo med nr nc hr hc a Hr Hc. unfold medfilt, window_shape.
  assert (E : forall h, (2 * h + 1) / 2 = h).
  { intro h. symmetry. apply Nat.div_unique with (r := 1); lia. }
  rewrite !E.
  destruct (Nat.ltb_spec (nr + 2 * hr) (2 * hr + 1)); [lia|]. cbn [bind].
  destruct (Nat.ltb_spec (nc + 2 * hc) (2 * hc + 1)); [lia|]. cbn [bind].
  replace (nr + 2 * hr - (2 * hr + 1) + 1) with nr by lia. replace (nc + 2 * hc - (2 * hc + 1) + 1) with nc by lia.
  eexists; split; [reflexivity|]. intros r c _ _. cbn beta. unfold window. rewrite !E. f_equal.
  apply flat_map_ext. intro i. apply map_ext. intro j. unfold padded, zero_ext.
  destruct (Nat.leb_spec hr (r + i)); destruct (Z.leb_spec 0 (Z.of_nat r + Z.of_nat i - Z.of_nat hr)); try lia; cbn [andb]; try reflexivity.
  destruct (Nat.ltb_spec (r + i) (nr + hr)); destruct (Z.ltb_spec (Z.of_nat r + Z.of_nat i - Z.of_nat hr) (Z.of_nat nr)); try lia; cbn [andb]; try reflexivity.
  destruct (Nat.leb_spec hc (c + j)); destruct (Z.leb_spec 0 (Z.of_nat c + Z.of_nat j - Z.of_nat hc)); try lia; cbn [andb]; try reflexivity.
  destruct (Nat.ltb_spec (c + j) (nc + hc)); destruct (Z.ltb_spec (Z.of_nat c + Z.of_nat j - Z.of_nat hc) (Z.of_nat nc)); try lia; try reflexivity.
  f_equal; lia.
Qed.
Print Assumptions C58_medfilt.
(** An even kernel axis makes the output one longer than the input along that axis. *)
Theorem C58_even_kernel_shape : forall (fo : FOps) med nr nc hr hc (a : img fo), 0 < hr -> 0 < hc ->
  exists out, medfilt fo med nr nc (2 * hr) (2 * hc) a = Some (nr + 1, nc + 1, out).
Proof.
  intros fo med nr nc hr hc a Hr Hc. unfold medfilt, window_shape.
  assert (E : forall h, (2 * h) / 2 = h) by (intro h; rewrite Nat.mul_comm; apply Nat.div_mul; lia).
  rewrite !E.
  destruct (Nat.ltb_spec (nr + 2 * hr) (2 * hr)); [lia|]. cbn [bind].
  destruct (Nat.ltb_spec (nc + 2 * hc) (2 * hc)); [lia|]. cbn [bind].
  replace (nr + 2 * hr - 2 * hr + 1) with (nr + 1) by lia. replace (nc + 2 * hc - 2 * hc + 1) with (nc + 1) by lia.
  eexists. reflexivity.
Qed.
Print Assumptions C58_even_kernel_shape.
Example C58_ex : match medfilt B32 (fun l => nth 0 l (fnan B32)) 2 3 3 1 (fun r c => fofZ B32 (Z.of_nat (10 * r + c))) with
  | Some (nr, nc, out) => nr = 2 /\ nc = 3 /\ out 0 1 = fzero B32 /\ out 1 2 = fofZ B32 2
  | None => False end.
Proof. vm_compute. repeat split; reflexivity. Qed.
