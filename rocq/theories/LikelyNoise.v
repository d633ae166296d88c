(** The covariance table of the likelihood fit is the covariance of the differences, and it is positive definite. *)
From Verif Require Import Base RBase LikelyModel LikelySpec LikelyProofs LikelyFit.
From Coq Require Import Reals Lra Lia Sorted.
Local Open Scope R_scope.

Lemma Rsum_ext' {A} (f g : A -> R) l : (forall x, In x l -> f x = g x) -> Rsum (map f l) = Rsum (map g l).
Proof. induction l as [|x l IH]; intro H; [reflexivity|]. cbn [map]. rewrite !Rsum_cons, (H x (or_introl eq_refl)), IH; [reflexivity|]. intros; apply H; right; assumption. Qed.
Lemma Rsum_swap' {A B} (f : A -> B -> R) l m : Rsum (map (fun x => Rsum (map (f x) m)) l) = Rsum (map (fun y => Rsum (map (fun x => f x y) l)) m).
Proof.
  induction l as [|x l IH]; cbn [map]; rewrite ?Rsum_cons, ?Rsum_nil.
  - symmetry. transitivity (Rsum (map (fun _ : B => 0) m)); [reflexivity|]. rewrite Rsum_const. ring.
  - rewrite IH, <- Rsum_plus. apply Rsum_ext'. intros y _. rewrite Rsum_cons. reflexivity.
Qed.
Lemma Sn_Rsum n f : Sn n f = Rsum (map f (seq 0 n)).
Proof. induction n as [|n IH]; [reflexivity|]. rewrite seq_S, map_app, Rsum_app. cbn [Sn map]. rewrite IH, Rsum_cons, Rsum_nil, Nat.add_0_l. ring. Qed.
Lemma Rsum_flat_map {A B} (f : B -> R) (g : A -> list B) l : Rsum (map f (flat_map g l)) = Rsum (map (fun x => Rsum (map f (g x))) l).
Proof. induction l as [|x l IH]; [reflexivity|]. cbn [flat_map map]. rewrite map_app, Rsum_app, IH. reflexivity. Qed.
Lemma suml_Rsum (l : list R) : suml RF l = Rsum l.
Proof.
  unfold suml. change (fzero RF) with 0. cbn [fadd RF]. replace (Rsum l) with (0 + Rsum l) by ring. generalize 0.
  induction l as [|x l IH]; intro z; [cbn; eqR; ring|]. cbn [fold_left]. rewrite IH, Rsum_cons. eqR. ring.
Qed.
Lemma lnat_INR k : lnat RF k = INR k. Proof. unfold lnat. cbn. rewrite INR_IZR_INZ. reflexivity. Qed.
Lemma mean_Rmean (l : list R) : mean_t RF l = Rmean l.
Proof. unfold mean_t, Rmean. rewrite suml_Rsum, lnat_INR. reflexivity. Qed.

(** ** tau *)
Lemma min_sum_sorted l : StronglySorted Rlt l -> forall s,
  Rsum (map (fun x => Rsum (map (fun y => Rmin x y) l)) l) =
  Rsum (map (fun kt => IZR (2 * Z.of_nat (s + length l) + 1 - 2 * (Z.of_nat (fst kt) + 1)) * snd kt) (combine (seq s (length l)) l)).
Proof.
  induction 1 as [|x l Hs IH Hx]; intro s; [reflexivity|]. cbn [length seq combine map]. rewrite !Rsum_cons. cbn [fst snd map].
  rewrite ?Rsum_cons. rewrite (Rmin_left x x) by lra. rewrite Forall_forall in Hx.
  rewrite (Rsum_ext' (fun y => Rmin x y) (fun _ => x)) by (intros y Hy; apply Rmin_left; pose proof (Hx y Hy); lra). rewrite Rsum_const.
  rewrite (Rsum_ext' (fun x0 => Rsum _) (fun x0 => x + Rsum (map (fun y => Rmin x0 y) l))).
  2:{ intros y Hy. cbn [map]. rewrite Rsum_cons. rewrite Rmin_right by (pose proof (Hx y Hy); lra). reflexivity. }
  rewrite (Rsum_plus (fun _ => x)), Rsum_const. rewrite (IH (S s)). replace (S s + length l)%nat with (s + S (length l))%nat by lia.
  replace (2 * Z.of_nat (s + S (length l)) + 1 - 2 * (Z.of_nat s + 1))%Z with (2 * Z.of_nat (length l) + 1)%Z by lia.
  rewrite plus_IZR, mult_IZR, <- INR_IZR_INZ. ring.
Qed.
Lemma tau_pcov (l : list R) : StronglySorted Rlt l -> tau RF l = pcovR l l.
Proof.
  intro H. unfold tau, pcovR. rewrite suml_Rsum, lnat_INR, mult_INR. toF. f_equal. rewrite (min_sum_sorted l H 0). cbn [plus]. reflexivity.
Qed.
Lemma pcov_sym a b : pcovR a b = pcovR b a.
Proof.
  unfold pcovR. rewrite (Rsum_swap' (fun x y => Rmin x y) a b). rewrite (Rmult_comm (INR (length b))). f_equal.
  apply Rsum_ext'. intros y _. apply Rsum_ext'. intros x _. apply Rmin_comm.
Qed.
Lemma pcov_before a b : a <> [] -> b <> [] -> (forall x y, In x a -> In y b -> x < y) -> pcovR a b = Rmean a.
Proof.
  intros A B H. unfold pcovR, Rmean.
  assert (INR (length a) <> 0) by (apply not_0_INR; destruct a; [congruence|discriminate]).
  assert (INR (length b) <> 0) by (apply not_0_INR; destruct b; [congruence|discriminate]).
  rewrite (Rsum_ext' _ (fun x => INR (length b) * x)).
  - rewrite (Rsum_scal (fun x => x)), map_id. field. auto.
  - intros x Hx. rewrite (Rsum_ext' _ (fun _ => x)) by (intros y Hy; apply Rmin_left; pose proof (H x y Hx Hy); lra). apply Rsum_const.
Qed.
(** ** Good read times *)
Lemma sorted_app_inv (l m : list R) : StronglySorted Rlt (l ++ m) -> StronglySorted Rlt l /\ StronglySorted Rlt m /\ (forall x y, In x l -> In y m -> x < y).
Proof.
  induction l as [|a l IH]; intro H; cbn [app] in *.
  - repeat split; [constructor|exact H|]. intros x y [].
  - inversion H as [|? ? H1 H2]; subst. destruct (IH H1) as [A [B C]]. rewrite Forall_forall in H2. repeat split; [constructor; [exact A|]|exact B|].
    + apply Forall_forall. intros x Hx. apply H2. apply in_or_app; left; exact Hx.
    + intros x y [<-|Hx] Hy; [apply H2, in_or_app; right; exact Hy|apply C; assumption].
Qed.
Lemma good_tail a l : good_times (a :: l) -> good_times l.
Proof. intros [A B]. split; [inversion A; assumption|]. cbn [concat] in B. apply sorted_app_inv in B. tauto. Qed.
Lemma good_ne times g : good_times times -> (g < length times)%nat -> nth g times [] <> [].
Proof. intros [A _] H. rewrite Forall_forall in A. apply A, nth_In, H. Qed.
Lemma good_sorted times g : good_times times -> StronglySorted Rlt (nth g times []).
Proof.
  revert g. induction times as [|a l IH]; intros g G; [destruct g; constructor|].
  destruct g as [|g]; cbn [nth]; [destruct G as [_ B]; cbn [concat] in B; apply sorted_app_inv in B; tauto|apply IH, (good_tail a), G].
Qed.
Lemma good_before times g h : good_times times -> (g < h)%nat -> (h < length times)%nat -> forall x y, In x (nth g times []) -> In y (nth h times []) -> x < y.
Proof.
  revert g h. induction times as [|a l IH]; intros g h G L H x y Hx Hy; [cbn in H; lia|].
  destruct h as [|h]; [lia|]. cbn [nth length] in *. destruct g as [|g].
  - destruct G as [_ B]. cbn [concat] in B. apply sorted_app_inv in B. destruct B as [_ [_ C]]. apply C; [exact Hx|].
    apply in_concat. exists (nth h l []). split; [apply nth_In; lia|exact Hy].
  - apply (IH g h (good_tail a l G)); [lia|lia|exact Hx|exact Hy].
Qed.
Lemma mean_between l : l <> [] -> forall u v, (forall x, In x l -> u <= x <= v) -> u <= Rmean l <= v.
Proof.
  intros N u v H. unfold Rmean. assert (P : 0 < INR (length l)) by (apply lt_0_INR; destruct l; [congruence|cbn; lia]).
  assert (Q : INR (length l) * u <= Rsum l <= INR (length l) * v).
  { clear N P. induction l as [|x l IH]; [cbn; lra|]. cbn [length]. rewrite S_INR, Rsum_cons. pose proof (H x (or_introl eq_refl)). assert (INR (length l) * u <= Rsum l <= INR (length l) * v) by (apply IH; intros; apply H; right; assumption). lra. }
  split; [apply (Rmult_le_reg_r (INR (length l))); [exact P|]|apply (Rmult_le_reg_r (INR (length l))); [exact P|]]; unfold Rdiv; rewrite Rmult_assoc, Rinv_l, Rmult_1_r by lra; lra.
Qed.
Lemma good_dt times i : good_times times -> (S i < length times)%nat -> 0 < Rmean (nth (S i) times []) - Rmean (nth i times []).
Proof.
  intros G H. pose proof (good_ne times i G ltac:(lia)) as A. pose proof (good_ne times (S i) G H) as B. pose proof (good_before times i (S i) G ltac:(lia) H) as C.
  set (a := nth i times []) in *. set (b := nth (S i) times []) in *.
  assert (M : exists m, In m a /\ forall x, In x a -> x <= m).
  { clear - A. induction a as [|x l IH]; [congruence|]. destruct l as [|y l]; [exists x; split; [left; reflexivity|intros z [<-|[]]; lra]|].
    destruct IH as [m [I L]]; [discriminate|]. destruct (Rle_dec x m) as [E|E].
    - exists m. split; [right; exact I|]. intros z [<-|Hz]; [exact E|apply L, Hz].
    - exists x. split; [left; reflexivity|]. intros z [<-|Hz]; [lra|]. pose proof (L z Hz). lra. }
  destruct M as [m [Im Lm]].
  assert (Ma : Rmean a <= m).
  { assert (exists u, forall x, In x a -> u <= x).
    { clear. induction a as [|x l IH]; [exists 0; intros x []|]. destruct IH as [u U]. exists (Rmin x u). intros z [<-|Hz]; [apply Rmin_l|]. pose proof (U z Hz). pose proof (Rmin_r x u). lra. }
    destruct H0 as [u U]. apply (mean_between a A u m). intros x Hx. split; [apply U, Hx|apply Lm, Hx]. }
  assert (exists u, m < u /\ forall y, In y b -> u <= y).
  { assert (Cm : forall y, In y b -> m < y) by (intros; apply C; assumption). clear - Cm B. induction b as [|x l IH]; [congruence|].
    destruct l as [|z l]; [exists x; split; [apply Cm; left; reflexivity|intros y [<-|[]]; lra]|].
    destruct IH as [u [U1 U2]]; [discriminate|intros; apply Cm; right; assumption|]. pose proof (Cm x (or_introl eq_refl)).
    exists (Rmin x u). split; [apply Rmin_glb_lt; assumption|]. intros y [<-|Hy]; [apply Rmin_l|]. pose proof (U2 y Hy). pose proof (Rmin_r x u). lra. }
  destruct H0 as [u [U1 U2]].
  assert (exists v, forall y, In y b -> y <= v).
  { clear. induction b as [|x l IH]; [exists 0; intros x []|]. destruct IH as [v V]. exists (Rmax x v). intros z [<-|Hz]; [apply Rmax_l|]. pose proof (V z Hz). pose proof (Rmax_r x v). lra. }
  destruct H0 as [v V]. pose proof (mean_between b B u v (fun y Hy => conj (U2 y Hy) (V y Hy))). lra.
Qed.
(** ** The table *)
Section Table.
  Variables (times : list (list R)) (guess gain rn : R).
  Hypothesis G : good_times times.
  Let c := pixel_cov RF (mk_covar RF times) guess gain rn.
  Let rate := guess / gain.
  Let m g := Rmean (nth g times []). Let t g := pcovR (nth g times []) (nth g times []). Let N g := INR (length (nth g times [])).
  Lemma N_ne g : (g < length times)%nat -> N g <> 0.
  Proof. intro H. apply not_0_INR. pose proof (good_ne times g G H). destruct (nth g times []); [congruence|discriminate]. Qed.
  Lemma K_same g : group_cov rate rn times g g = rate * t g + rn * rn / N g.
  Proof. unfold group_cov. rewrite Nat.eqb_refl. reflexivity. Qed.
  Lemma K_lt g h : (g < h)%nat -> (h < length times)%nat -> group_cov rate rn times g h = rate * m g.
  Proof.
    intros L H. unfold group_cov. destruct (Nat.eqb_spec g h); [lia|]. rewrite Rplus_0_r.
    rewrite (pcov_before (nth g times []) (nth h times []) (good_ne times g G ltac:(lia)) (good_ne times h G H) (good_before times g h G L H)). reflexivity.
  Qed.
  Lemma K_sym g h : group_cov rate rn times g h = group_cov rate rn times h g.
  Proof. unfold group_cov. rewrite pcov_sym, (Nat.eqb_sym h g). destruct (Nat.eqb_spec g h) as [->|]; reflexivity. Qed.
  Lemma alpha_is i : p_alpha RF c i = (rate * (t i + t (S i) - 2 * m i) + rn * rn * (1 / N i + 1 / N (S i))) / ((m (S i) - m i) * (m (S i) - m i)).
  Proof.
    unfold c, p_alpha, pixel_cov, mk_covar. cbn [p_ap p_ar c_ap c_ar c_dt]. rewrite !mean_Rmean, !tau_pcov by (apply good_sorted, G). rewrite !lnat_INR.
    change (@eq R (rate * ((t i + t (S i) - 2 * m i) / ((m (S i) - m i) * (m (S i) - m i))) + rn * rn * ((1 / N i + 1 / N (S i)) / ((m (S i) - m i) * (m (S i) - m i))))
      ((rate * (t i + t (S i) - 2 * m i) + rn * rn * (1 / N i + 1 / N (S i))) / ((m (S i) - m i) * (m (S i) - m i)))).
    unfold Rdiv. ring.
  Qed.
  Lemma beta_is i : (S (S i) < length times)%nat -> p_beta RF c i = (rate * (m (S i) - t (S i)) - rn * rn / N (S i)) / ((m (S i) - m i) * (m (S (S i)) - m (S i))).
  Proof.
    intro H. pose proof (N_ne (S i) ltac:(lia)). pose proof (good_dt times i G ltac:(lia)) as D1. pose proof (good_dt times (S i) G H) as D2. fold (m i) (m (S i)) (m (S (S i))) in D1, D2.
    unfold c, p_beta, pixel_cov, mk_covar. cbn [p_bp p_br c_bp c_br c_dt]. rewrite !mean_Rmean, !tau_pcov by (apply good_sorted, G). rewrite !lnat_INR.
    change (@eq R (rate * ((m (S i) - t (S i)) / ((m (S (S i)) - m (S i)) * (m (S i) - m i))) + rn * rn * (-1 / (N (S i) * (m (S (S i)) - m (S i)) * (m (S i) - m i))))
      ((rate * (m (S i) - t (S i)) - rn * rn / N (S i)) / ((m (S i) - m i) * (m (S (S i)) - m (S i))))).
    field. repeat split; lra.
  Qed.
  Lemma cov_is_tri i j : (S i < length times)%nat -> (S j < length times)%nat -> diff_cov rate rn times i j = tri (p_alpha RF c) (p_beta RF c) i j.
  Proof.
    assert (W : forall i j, (i <= j)%nat -> (S i < length times)%nat -> (S j < length times)%nat -> diff_cov rate rn times i j = tri (p_alpha RF c) (p_beta RF c) i j).
    { clear i j. intros i j L Hi Hj. unfold diff_cov, tri. fold (m i) (m (S i)) (m j) (m (S j)). destruct (Nat.eqb_spec i j) as [<-|Ne].
      - rewrite alpha_is, (K_sym (S i) i), (K_lt i (S i)), !K_same by lia. unfold Rdiv. ring.
      - destruct (Nat.eqb_spec j (S i)) as [->|N1].
        + rewrite beta_is by lia. rewrite (K_lt (S i) (S (S i))), (K_lt i (S (S i))), (K_lt i (S i)), K_same by lia. unfold Rdiv. ring.
        + destruct (Nat.eqb_spec i (S j)); [lia|]. rewrite (K_lt (S i) (S j)), (K_lt (S i) j), (K_lt i (S j)), (K_lt i j) by lia. unfold Rdiv. ring. }
    intros Hi Hj. destruct (Nat.le_ge_cases i j) as [L|L]; [apply W; assumption|]. rewrite tri_sym. rewrite <- W by assumption.
    unfold diff_cov. rewrite (K_sym (S i) (S j)), (K_sym (S i) j), (K_sym i (S j)), (K_sym i j). fold (m i) (m (S i)) (m j) (m (S j)). rewrite (Rmult_comm (m (S i) - m i)). unfold Rdiv. ring.
  Qed.
End Table.
(** ** Positive definiteness *)
(** the kernel min(s,t) *)
Definition ker (s : R) (L : list (R * R)) : R := Rsum (map (fun p => Rsum (map (fun q => snd p * snd q * (Rmin (fst p) (fst q) - s)) L)) L).
Lemma ker_nonneg L : StronglySorted Rlt (map fst L) -> forall s, (forall p, In p L -> s <= fst p) -> 0 <= ker s L.
Proof.
  induction L as [|[t w] L IH]; intros Hs s H; [unfold ker; cbn; lra|].
  cbn [map fst] in Hs. inversion Hs as [|? ? H1 H2]; subst. rewrite Forall_forall in H2.
  assert (Ht : s <= t) by (apply (H (t, w)); left; reflexivity).
  assert (I := IH H1 t). assert (0 <= ker t L) as Q.
  { apply I. intros p Hp. left. apply H2. apply in_map, Hp. }
  set (W := w + Rsum (map snd L)).
  assert (E : ker s ((t, w) :: L) = (t - s) * (W * W) + ker t L); [|rewrite E; apply Rplus_le_le_0_compat; [apply Rmult_le_pos; [lra|apply Rle_0_sqr]|exact Q]].
  unfold ker. cbn [map fst snd]. rewrite Rsum_cons. cbn [map fst snd]. rewrite Rsum_cons, Rmin_left by lra.
  rewrite (Rsum_ext' (fun q => w * snd q * (Rmin t (fst q) - s)) (fun q => w * (t - s) * snd q)).
  2:{ intros q Hq. rewrite Rmin_left; [ring|]. left. apply H2, in_map, Hq. }
  rewrite Rsum_scal.
  rewrite (Rsum_ext' (fun p => Rsum _) (fun p => (w * (t - s) * snd p + (t - s) * Rsum (map snd L) * snd p) + Rsum (map (fun q => snd p * snd q * (Rmin (fst p) (fst q) - t)) L))).
  2:{ intros p Hp. cbn [map fst snd]. rewrite Rsum_cons. rewrite Rmin_right by (left; apply H2, in_map, Hp).
      rewrite (Rsum_ext' (fun q => snd p * snd q * (Rmin (fst p) (fst q) - s)) (fun q => (t - s) * snd p * snd q + snd p * snd q * (Rmin (fst p) (fst q) - t))) by (intros; ring).
      rewrite Rsum_plus, Rsum_scal. ring. }
  rewrite !Rsum_plus, !Rsum_scal. unfold W. ring.
Qed.
Lemma ker_balanced L s : Rsum (map snd L) = 0 -> ker s L = Rsum (map (fun p => Rsum (map (fun q => snd p * snd q * Rmin (fst p) (fst q)) L)) L).
Proof.
  intro Z. unfold ker. apply Rsum_ext'. intros p _.
  rewrite (Rsum_ext' _ (fun q => snd p * snd q * Rmin (fst p) (fst q) + (- s * snd p) * snd q)) by (intros; ring). rewrite Rsum_plus, Rsum_scal, Z. ring.
Qed.
Lemma lower (L : list (R * R)) : exists s, forall p, In p L -> s <= fst p.
Proof. induction L as [|x l IH]; [exists 0; intros x []|]. destruct IH as [u U]. exists (Rmin (fst x) u). intros z [<-|Hz]; [apply Rmin_l|]. pose proof (U z Hz). pose proof (Rmin_r (fst x) u). lra. Qed.
(** summation by parts *)
Definition zed (n : nat) (y : nat -> R) (g : nat) : R := (match g with O => 0 | S k => y k end) - (if Nat.ltb g n then y g else 0).
Lemma by_parts n y f : Sn n (fun i => y i * (f (S i) - f i)) = Sn (S n) (fun g => zed n y g * f g).
Proof.
  assert (H : forall k, (k <= n)%nat -> Sn k (fun g => zed n y g * f g) = Sn k (fun i => y i * (f (S i) - f i)) - (match k with O => 0 | S j => y j * f (S j) end)).
  { induction k as [|k IH]; intro Hk; [cbn; ring|]. cbn [Sn]. rewrite IH by lia. unfold zed. destruct (Nat.ltb_spec k n); [|lia]. destruct k; ring. }
  cbn [Sn]. rewrite H by lia. unfold zed. rewrite Nat.ltb_irrefl. destruct n; ring.
Qed.
Lemma zed_sum n y : Sn (S n) (zed n y) = 0.
Proof. rewrite (Sn_ext _ _ (fun g => zed n y g * 1)) by (intros; ring). rewrite <- (by_parts n y (fun _ => 1)). apply Sn_zero. intros; ring. Qed.
Lemma zed_zero n y : (forall g, (g < S n)%nat -> zed n y g = 0) -> forall i, (i < n)%nat -> y i = 0.
Proof.
  intros H i. induction i as [|i IH]; intro L.
  - pose proof (H 0%nat ltac:(lia)) as E. unfold zed in E. destruct (Nat.ltb_spec 0 n); [lra|lia].
  - pose proof (H (S i) ltac:(lia)) as E. unfold zed in E. destruct (Nat.ltb_spec (S i) n); [|lia]. rewrite IH in E by lia. lra.
Qed.
Lemma map_nth_seq {A} (d : A) l : map (fun g => nth g l d) (seq 0 (length l)) = l.
Proof.
  apply (nth_ext _ _ (nth (length l) l d) d); [rewrite map_length, seq_length; reflexivity|]. intros i Hi. rewrite map_length, seq_length in Hi.
  rewrite (map_nth (fun g => nth g l d)), seq_nth by exact Hi. reflexivity.
Qed.
Lemma poisson_nonneg times z : good_times times -> Sn (length times) z = 0 ->
  0 <= Sn (length times) (fun g => Sn (length times) (fun h => z g * z h * pcovR (nth g times []) (nth h times []))).
Proof.
  intros G Z.
  set (L := flat_map (fun g => map (fun t => (t, z g / INR (length (nth g times [])))) (nth g times [])) (seq 0 (length times))).
  assert (F : map fst L = concat times).
  { unfold L. rewrite flat_map_concat_map, concat_map, map_map.
    rewrite (map_ext _ (fun g => nth g times [])) by (intro g; rewrite map_map; cbn [fst]; apply map_id). f_equal. apply map_nth_seq. }
  assert (NZ : forall g, In g (seq 0 (length times)) -> INR (length (nth g times [])) <> 0).
  { intros g Hg. apply in_seq in Hg. apply not_0_INR. pose proof (good_ne times g G ltac:(lia)). destruct (nth g times []); [congruence|discriminate]. }
  assert (B : Rsum (map snd L) = 0).
  { unfold L. rewrite Rsum_flat_map. rewrite (Rsum_ext' _ z); [rewrite <- Sn_Rsum; exact Z|]. intros g Hg. rewrite map_map. cbn [snd]. rewrite Rsum_const. field. apply NZ, Hg. }
  destruct (lower L) as [s Hs]. pose proof (ker_nonneg L ltac:(rewrite F; apply G) s Hs) as K. rewrite ker_balanced in K by exact B.
  match goal with |- 0 <= ?x => replace x with (Rsum (map (fun p => Rsum (map (fun q => snd p * snd q * Rmin (fst p) (fst q)) L)) L)); [exact K|] end.
  unfold L at 2. rewrite Rsum_flat_map, Sn_Rsum. apply Rsum_ext'. intros g Hg. rewrite map_map. cbn [fst snd].
  rewrite (Rsum_ext' _ (fun x => Rsum (map (fun h => Rsum (map (fun y => z g / INR (length (nth g times [])) * (z h / INR (length (nth h times []))) * Rmin x y) (nth h times []))) (seq 0 (length times))))).
  2:{ intros x _. unfold L. rewrite Rsum_flat_map. apply Rsum_ext'. intros h _. rewrite map_map. reflexivity. }
  rewrite Rsum_swap', Sn_Rsum. apply Rsum_ext'. intros h Hh. unfold pcovR.
  rewrite (Rsum_ext' _ (fun x => z g / INR (length (nth g times [])) * (z h / INR (length (nth h times []))) * Rsum (map (fun y => Rmin x y) (nth h times [])))) by (intros; apply Rsum_scal).
  rewrite Rsum_scal. field. split; apply NZ; assumption.
Qed.
Lemma noise_posdef times rate rn : good_times times -> 0 <= rate -> rn <> 0 -> posdef (length times - 1) (diff_cov rate rn times).
Proof.
  intros G Hr Hn x [i0 [Hi0 X0]]. set (n := (length times - 1)%nat) in *.
  assert (Len : length times = S n) by lia.
  set (dt := fun k => Rmean (nth (S k) times []) - Rmean (nth k times [])).
  assert (DT : forall k, (k < n)%nat -> 0 < dt k) by (intros; apply good_dt; [exact G|lia]).
  set (y := fun i => x i / dt i). set (K := group_cov rate rn times). set (z := zed n y).
  assert (E : quad n (fun _ => true) (diff_cov rate rn times) x x = Sn (S n) (fun g => Sn (S n) (fun h => z g * z h * K g h))).
  { unfold quad, Su.
    rewrite (Sn_ext n _ (fun i => y i * (Sn (S n) (fun h => z h * K (S i) h) - Sn (S n) (fun h => z h * K i h)))).
    - rewrite (by_parts n y (fun g => Sn (S n) (fun h => z h * K g h))). fold z. apply Sn_ext. intros g _. rewrite <- Sn_scal. apply Sn_ext. intros; ring.
    - intros i Hi. unfold z. rewrite <- !by_parts.
      transitivity (y i * Sn n (fun j => y j * (K (S i) (S j) - K (S i) j) + -1 * (y j * (K i (S j) - K i j)))); [|rewrite Sn_plus, Sn_scal; ring].
      rewrite <- !Sn_scal. apply Sn_ext. intros j Hj. unfold diff_cov, y. fold (dt i) (dt j). fold K. pose proof (DT i Hi). pose proof (DT j Hj). field. lra. }
  rewrite E.
  rewrite (Sn_ext _ _ (fun g => rate * Sn (S n) (fun h => z g * z h * pcovR (nth g times []) (nth h times [])) + rn * rn / INR (length (nth g times [])) * (z g * z g))).
  2:{ intros g Hg. rewrite <- Sn_scal. unfold K, group_cov.
      rewrite (Sn_ext _ _ (fun h => rate * (z g * z h * pcovR (nth g times []) (nth h times [])) + (if Nat.eqb g h then z g * z h * (rn * rn / INR (length (nth g times []))) else 0))) by (intros h _; destruct (Nat.eqb g h); ring).
      rewrite Sn_plus. f_equal. rewrite (Sn_single _ g) by (exact Hg || (intros h _ Ne; destruct (Nat.eqb_spec g h); [congruence|reflexivity])). rewrite Nat.eqb_refl. ring. }
  rewrite Sn_plus, Sn_scal.
  assert (Pp : 0 <= Sn (S n) (fun g => Sn (S n) (fun h => z g * z h * pcovR (nth g times []) (nth h times [])))).
  { rewrite <- Len. apply (poisson_nonneg times z G). rewrite Len. apply zed_sum. }
  assert (NP : forall g, (g < S n)%nat -> 0 < rn * rn / INR (length (nth g times []))).
  { intros g Hg. apply Rdiv_lt_0_compat; [apply Rsqr_pos_lt, Hn|]. apply lt_0_INR. pose proof (good_ne times g G ltac:(lia)). destruct (nth g times []); [congruence|cbn; lia]. }
  apply Rplus_le_lt_0_compat; [apply Rmult_le_pos; assumption|].
  destruct (Classical_Prop.classic (exists g, (g < S n)%nat /\ z g <> 0)) as [[g [Hg Zg]]|Nz].
  - apply (Sn_pos _ _ g); [|exact Hg|apply Rmult_lt_0_compat; [apply NP, Hg|apply Rsqr_pos_lt, Zg]].
    intros h Hh. apply Rmult_le_pos; [left; apply NP, Hh|apply Rle_0_sqr].
  - exfalso. assert (Y : y i0 = 0).
    { apply (zed_zero n y); [|exact Hi0]. intros g Hg. apply Classical_Prop.NNPP. intro Ne. apply Nz. exists g. split; assumption. }
    unfold y in Y. pose proof (DT i0 Hi0). apply X0. apply (Rmult_eq_reg_r (/ dt i0)); [unfold Rdiv in Y; lra|apply Rinv_neq_0_compat; lra].
Qed.
Lemma posdef_ext n V W : (forall i j, (i < n)%nat -> (j < n)%nat -> V i j = W i j) -> posdef n V -> posdef n W.
Proof.
  intros H P x Hx. replace (quad n (fun _ => true) W x x) with (quad n (fun _ => true) V x x); [apply P, Hx|].
  apply Sn_ext. intros i Hi. f_equal. apply Sn_ext. intros j Hj. rewrite H by assumption. reflexivity.
Qed.
Lemma table_posdef times guess gain rn : good_times times -> 0 <= guess / gain -> rn <> 0 ->
  let c := pixel_cov RF (mk_covar RF times) guess gain rn in posdef (length times - 1) (tri (p_alpha RF c) (p_beta RF c)).
Proof.
  intros G Hr Hn c. apply (posdef_ext _ (diff_cov (guess / gain) rn times)); [|apply noise_posdef; assumption].
  intros i j Hi Hj. apply cov_is_tri; [exact G|lia|lia].
Qed.
