(** C127: resampling variance arrays. *)
From Verif Require Import Base BaseLemmas RBase RNBase ResModel ResSpec ResProofs ResVar Cas22Fit RvModel.
From Coq Require Import Reals Lra Lia.
Local Open Scope R_scope.

(** *** what is assumed of drizzle *)
(** [driz] shows at an output pixel [k] times the weighted mean, with positive weights, of the input pixels it lists for that
    output pixel; NaN where it lists none, or where one of them is NaN *)
Definition averaging (k : R) (cover : nat -> list (nat * R)) (driz : (nat -> option R) -> nat -> option R) : Prop :=
  (forall p i a, In (i, a) (cover p) -> 0 < a) /\
  forall x p, (cover p = [] -> driz x p = None) /\ (forall i a, In (i, a) (cover p) -> x i = None -> driz x p = None) /\
    (forall y : nat -> R, cover p <> [] -> (forall i a, In (i, a) (cover p) -> x i = Some (y i)) ->
      driz x p = Some (k * (Rsum (map (fun ia => snd ia * y (fst ia)) (cover p)) / Rsum (map snd (cover p))))).
(** an array of the model's own shape with at least one pixel *)
Definition usable {fo : FOps} (v : option (arr fo)) (sci : list nat) : Prop := exists a, v = Some a /\ a_shape a = sci /\ ~ In 0%nat (a_shape a).

Lemma size_pos {fo : FOps} (a : arr fo) : a_size fo a = 0%nat <-> In 0%nat (a_shape a).
Proof.
  unfold a_size. induction (a_shape a) as [|d l IH]; cbn [fold_right]; [split; [discriminate|intros []]|]. rewrite Nat.eq_mul_0, IH. cbn [In]. tauto.
Qed.
(** which arrays are used: those of the model's own shape; both tests of the code agree *)
Theorem C127_used (fo : FOps) driz (v : option (arr fo)) sci : (resample_one fo driz v sci <> None <-> usable v sci) /\ (check_var fo v sci = true <-> usable v sci).
Proof.
  unfold resample_one, check_var, usable. destruct v as [a|].
  - destruct (Nat.eqb_spec (a_size fo a) 0) as [Z|Z].
    + split; (split; [congruence|intros [b [E [S N]]]; injection E as <-; apply size_pos in Z; contradiction]).
    + unfold shape_eqb. destruct (list_eq_dec Nat.eq_dec (a_shape a) sci) as [E|E]; cbn [negb].
      * split; (split; [intros _; exists a; rewrite <- (@size_pos fo); auto|intros _; congruence]).
      * split; (split; [congruence|intros [b [Eb [S N]]]; injection Eb as <-; contradiction]).
  - split; (split; [congruence|intros [a [E _]]; discriminate]).
Qed.
(** *** one output pixel of one array *)
Section Pixel.
  Context (k : R) (cover : nat -> list (nat * R)) (driz : (nat -> option R) -> nat -> option R) (A : averaging k cover driz).
  Context (a : arr RN) (sci : list nat) (U : usable (Some a) sci) (p : nat).
  Lemma wsum_pos : cover p <> [] -> 0 < Rsum (map snd (cover p)).
  Proof.
    destruct A as [P _]. specialize (P p). destruct (cover p) as [|[i w] l]; [congruence|intros _]. apply (Rsum_pos snd _ (i, w)); [|left; reflexivity|exact (P i w (or_introl eq_refl))].
    intros [j x] I. apply Rlt_le, (P j x I).
  Qed.
  Lemma one : exists out, resample_one RN driz (Some a) sci = Some out /\ out p = rn2 Rmult (driz (fun i => fsqrt RN (a_val a i)) p) (driz (fun i => fsqrt RN (a_val a i)) p).
  Proof.
    destruct (C127_used RN driz (Some a) sci) as [H _]. apply H in U as N. cbn [resample_one] in *. destruct (Nat.eqb (a_size RN a) 0); [congruence|]. destruct (negb (shape_eqb (a_shape a) sci)); [congruence|]. eexists. split; reflexivity.
  Qed.
  Lemma known (v : nat -> R) : cover p <> [] -> (forall i w, In (i, w) (cover p) -> a_val a i = Some (v i) /\ 0 <= v i) ->
    exists out, resample_one RN driz (Some a) sci = Some out /\
      out p = Some (k * k * ((Rsum (map (fun ia => snd ia * sqrt (v (fst ia))) (cover p)) / Rsum (map snd (cover p))) * (Rsum (map (fun ia => snd ia * sqrt (v (fst ia))) (cover p)) / Rsum (map snd (cover p))))).
  Proof.
    intros N K. destruct one as [out [E O]]. exists out. split; [exact E|]. rewrite O. destruct A as [_ D]. destruct (D (fun i => fsqrt RN (a_val a i)) p) as (_ & _ & D3).
    rewrite (D3 (fun i => sqrt (v i)) N); [cbn [rn2]; f_equal; ring|]. intros i w I. destruct (K i w I) as [-> P]. cbn [fsqrt RN]. unfold Rltb. destruct (Rlt_dec (v i) 0); [lra|reflexivity].
  Qed.
  (** the resampled variance lies between the smallest and the largest variance that reach the pixel, times the square of the
      scale, and never exceeds the weighted mean of the variances *)
  Theorem C127_bounds (v : nat -> R) (lo hi : R) : cover p <> [] -> 0 <= lo -> (forall i w, In (i, w) (cover p) -> a_val a i = Some (v i) /\ lo <= v i <= hi) ->
    exists out x, resample_one RN driz (Some a) sci = Some out /\ out p = Some x /\ k * k * lo <= x <= k * k * hi /\
      x <= k * k * (Rsum (map (fun ia => snd ia * v (fst ia)) (cover p)) / Rsum (map snd (cover p))).
  Proof.
    intros N L K. destruct (known v N) as [out [E O]]; [intros i w I; destruct (K i w I); split; [assumption|lra]|]. exists out. eexists. split; [exact E|]. split; [exact O|]. pose proof (wsum_pos N) as W. destruct A as [P _].
    set (s := Rsum (map (fun ia => snd ia * sqrt (v (fst ia))) (cover p))). set (w := Rsum (map snd (cover p))) in *. set (q := Rsum (map (fun ia => snd ia * v (fst ia)) (cover p))).
    assert (KK : 0 <= k * k) by nra.
    assert (B1 : sqrt lo * w <= s). { unfold w, s. rewrite <- Rsum_scal. apply Rsum_le. intros [i x] I. cbn [fst snd]. destruct (K i x I) as [_ [K1 _]]. pose proof (P p i x I). pose proof (sqrt_le_1_alt _ _ K1). nra. }
    assert (B2 : s <= sqrt hi * w). { unfold w, s. rewrite <- Rsum_scal. apply Rsum_le. intros [i x] I. cbn [fst snd]. destruct (K i x I) as [_ [_ K1]]. pose proof (P p i x I). pose proof (sqrt_le_1_alt _ _ K1). nra. }
    assert (H0 : 0 <= hi). { destruct (cover p) as [|[i x] l]; [congruence|]. destruct (K i x (or_introl eq_refl)). lra. }
    assert (Q1 : sqrt lo <= s / w) by (apply (Rmult_le_reg_r w); [exact W|]; unfold Rdiv; rewrite Rmult_assoc, Rinv_l, Rmult_1_r; [exact B1|lra]).
    assert (Q2 : s / w <= sqrt hi) by (apply (Rmult_le_reg_r w); [exact W|]; unfold Rdiv; rewrite Rmult_assoc, Rinv_l, Rmult_1_r; [exact B2|lra]).
    pose proof (sqrt_pos lo). pose proof (sqrt_sqrt lo L) as S1. pose proof (sqrt_sqrt hi H0) as S2. set (m := s / w) in *.
    split; [split; apply Rmult_le_compat_l; try exact KK; nra|]. apply Rmult_le_compat_l; [exact KK|].
    assert (J : 0 <= Rsum (map (fun ia => snd ia * ((sqrt (v (fst ia)) - m) * (sqrt (v (fst ia)) - m))) (cover p))).
    { apply Rsum_nonneg. intros [i x] I. cbn [fst snd]. pose proof (P p i x I). apply Rmult_le_pos; [lra|]. apply Rle_0_sqr. }
    rewrite (Rsum_ext _ (fun ia => snd ia * v (fst ia) + ((-2 * m) * (snd ia * sqrt (v (fst ia))) + (m * m) * snd ia))) in J.
    2:{ intros [i x] I. cbn [fst snd]. destruct (K i x I) as [_ [K1 _]]. rewrite <- (sqrt_sqrt (v i)) at 3; [ring|lra]. }
    rewrite !Rsum_plus, !Rsum_scal in J. fold s w q in J. change (map (fun x : nat * R => snd x) (cover p)) with (map (@snd nat R) (cover p)) in J. fold w in J.
    assert (Sm : s = m * w) by (unfold m; field; lra). rewrite Sm in J.
    apply (Rmult_le_reg_r w); [exact W|]. unfold Rdiv at 1. rewrite (Rmult_assoc q), Rinv_l by lra. nra.
  Qed.
  (** a uniform variance comes out as that variance, times the square of the scale *)
  Theorem C127_uniform (v : R) : cover p <> [] -> 0 <= v -> (forall i w, In (i, w) (cover p) -> a_val a i = Some v) ->
    exists out, resample_one RN driz (Some a) sci = Some out /\ out p = Some (k * k * v).
  Proof.
    intros N L K. destruct (C127_bounds (fun _ => v) v v N L) as (out & x & E & O & B & _); [intros i w I; split; [exact (K i w I)|lra]|]. exists out. split; [exact E|]. rewrite O. f_equal. lra.
  Qed.
  (** no value without coverage, nor when a negative or missing variance reaches the pixel *)
  Theorem C127_missing : cover p = [] \/ (exists i w, In (i, w) (cover p) /\ (a_val a i = None \/ exists x, a_val a i = Some x /\ x < 0)) ->
    exists out, resample_one RN driz (Some a) sci = Some out /\ out p = None.
  Proof.
    intro H. destruct one as [out [E O]]. exists out. split; [exact E|]. rewrite O. destruct A as [_ D]. destruct (D (fun i => fsqrt RN (a_val a i)) p) as (D1 & D2 & _).
    destruct H as [H|(i & w & I & H)]; [rewrite (D1 H); reflexivity|]. rewrite (D2 i w I); [reflexivity|]. destruct H as [->|(x & -> & X)]; cbn [fsqrt RN]; [reflexivity|]. unfold Rltb. destruct (Rlt_dec x 0); [reflexivity|contradiction].
  Qed.
  (** variances [c] times as large come out [c] times as large *)
  Theorem C127_scales (a' : arr RN) (v : nat -> R) (c : R) : 0 <= c -> usable (Some a') sci -> cover p <> [] ->
    (forall i w, In (i, w) (cover p) -> a_val a i = Some (v i) /\ 0 <= v i /\ a_val a' i = Some (c * v i)) ->
    exists out out' x, resample_one RN driz (Some a) sci = Some out /\ resample_one RN driz (Some a') sci = Some out' /\ out p = Some x /\ out' p = Some (c * x).
  Proof.
    intros Hc U' N K. destruct (known v N) as [out [E O]]; [intros i w I; destruct (K i w I) as (? & ? & _); auto|].
    assert (T : exists out', resample_one RN driz (Some a') sci = Some out' /\ out' p = rn2 Rmult (driz (fun i => fsqrt RN (a_val a' i)) p) (driz (fun i => fsqrt RN (a_val a' i)) p)).
    { destruct (C127_used RN driz (Some a') sci) as [H _]. apply H in U' as N'. cbn [resample_one] in *. destruct (Nat.eqb (a_size RN a') 0); [congruence|]. destruct (negb (shape_eqb (a_shape a') sci)); [congruence|]. eexists. split; reflexivity. }
    destruct T as [out' [E' O']]. exists out, out'. eexists. split; [exact E|]. split; [exact E'|]. split; [exact O|]. rewrite O'. destruct A as [_ D]. destruct (D (fun i => fsqrt RN (a_val a' i)) p) as (_ & _ & D3).
    rewrite (D3 (fun i => sqrt c * sqrt (v i)) N).
    - rewrite (Rsum_ext _ (fun ia => sqrt c * (snd ia * sqrt (v (fst ia))))); [|intros; ring]. rewrite Rsum_scal. cbn [rn2]. f_equal. rewrite <- (sqrt_sqrt c Hc) at 3. pose proof (wsum_pos N). field. lra.
    - intros i w I. destruct (K i w I) as (_ & P & ->). cbn [fsqrt RN]. unfold Rltb. assert (0 <= c * v i) by (apply Rmult_le_pos; assumption). destruct (Rlt_dec (c * v i) 0); [lra|]. f_equal. apply sqrt_mult; assumption.
  Qed.
End Pixel.
Print Assumptions C127_used.
Print Assumptions C127_bounds.
Print Assumptions C127_uniform.
Print Assumptions C127_missing.
Print Assumptions C127_scales.

(** *** from the input variance arrays to the combined variance *)
Lemma contrib_in c n p (l : list (rmodel RN)) wv : In wv (concat (map (contrib c n p) l)) -> 0 < fst wv /\ 0 <= snd wv /\ exists m a, In m l /\ m_var _ m n = Some a /\ a p = Some (snd wv) /\ fst wv = wgt c m p.
Proof.
  intro I. apply in_concat in I. destruct I as [q [Iq I]]. apply in_map_iff in Iq. destruct Iq as [m [<- Im]]. unfold contrib in I. destruct (m_var _ m n) as [a|] eqn:V; [|destruct I]. change (F RN) with (option R) in *.
  destruct (a p) as [x|] eqn:X; [|destruct I]. destruct (Rle_dec 0 x); [|destruct I]. destruct (Rlt_dec 0 (wgt c m p)); [|destruct I]. destruct I as [<-|[]]. cbn [fst snd]. repeat (split; [assumption|]). exists m, a. auto.
Qed.
Lemma vscale_pos c r : (forall x, r = Some x -> 0 < x) -> 0 < vscale c r.
Proof. intro H. unfold vscale. destruct r as [x|]; [|lra]. specialize (H x eq_refl). destruct (c_imaging _ c); [apply Rinv_0_lt_compat; nra|exact H]. Qed.
Lemma sq_sum_le (l : list (R * R)) : (forall wv, In wv l -> 0 < fst wv) -> 0 <= Rsum (map fst l) /\ Rsum (map (fun wv => fst wv * fst wv) l) <= Rsum (map fst l) * Rsum (map fst l).
Proof.
  induction l as [|x l IH]; intro P; [cbn [map]; rewrite !Rsum_nil; lra|]. destruct IH as [I1 I2]; [intros y I; apply P; right; exact I|]. pose proof (P x (or_introl eq_refl)). cbn [map]. rewrite !Rsum_cons. split; nra.
Qed.
Lemma wtot (l : list (R * R)) : l <> [] -> (forall wv, In wv l -> 0 < fst wv) -> 0 < Rsum (map fst l).
Proof. intros N P. destruct l as [|x l]; [congruence|]. apply (Rsum_pos fst _ x); [intros y I; apply Rlt_le, P, I|left; reflexivity|apply P; left; reflexivity]. Qed.
Lemma combined_bounds (sc hi : R) l x : 0 <= sc -> (forall wv, In wv l -> 0 < fst wv /\ 0 <= snd wv <= hi) -> combined sc l = Some x -> 0 <= x <= sc * hi.
Proof.
  intros S P C. assert (W : 0 < Rsum (map fst l)) by (apply wtot; [intros ->; discriminate|intros wv I; apply P, I]). assert (C' : x = sc * Rsum (map (fun wv => fst wv * fst wv * snd wv) l) / (Rsum (map fst l) * Rsum (map fst l))) by (destruct l; [discriminate|injection C as <-; reflexivity]).
  destruct (sq_sum_le l) as [_ Q]; [intros wv I; apply P, I|].
  assert (H0 : 0 <= hi). { destruct l as [|y l]; [discriminate|]. destruct (P y (or_introl eq_refl)). lra. }
  assert (B0 : 0 <= Rsum (map (fun wv => fst wv * fst wv * snd wv) l)). { apply Rsum_nonneg. intros wv I. destruct (P wv I) as [? [? ?]]. apply Rmult_le_pos; nra. }
  assert (B1 : Rsum (map (fun wv => fst wv * fst wv * snd wv) l) <= hi * Rsum (map (fun wv => fst wv * fst wv) l)).
  { rewrite <- Rsum_scal. apply Rsum_le. intros wv I. destruct (P wv I) as [? [? ?]]. assert (0 < fst wv * fst wv) by nra. nra. }
  set (w := Rsum (map fst l)) in *. set (q := Rsum (map (fun wv => fst wv * fst wv * snd wv) l)) in *. set (z := Rsum (map (fun wv => fst wv * fst wv) l)) in *. assert (WW : 0 < w * w) by nra. subst x.
  assert (Qb : 0 <= q / (w * w) <= hi). { split; [apply Rmult_le_pos; [exact B0|apply Rlt_le, Rinv_0_lt_compat, WW]|]. apply (Rmult_le_reg_r (w * w)); [exact WW|]. unfold Rdiv. rewrite Rmult_assoc, Rinv_l, Rmult_1_r by lra. nra. }
  replace (sc * q / (w * w)) with (sc * (q / (w * w))) by (field; nra). destruct Qb as [Q0 Q1]. split; [apply Rmult_le_pos; assumption|apply Rmult_le_compat_l; assumption].
Qed.
(** the read-noise variances that are positive numbers, at an output pixel *)
Definition rn_vars (p : nat) (l : list (rmodel RN)) : list R :=
  flat_map (fun m : rmodel RN => match m_var RN m 0%nat with Some a => match (a p : option R) with Some x => if Rlt_dec 0 x then [x] else [] | None => [] end | None => [] end) l.
Section Runs.
  Context {D : Type} (dadd : D -> rmodel RN -> D) (dinit : option D -> D).
  Notation add_all := (add_all RN D dadd). Notation finalize := (finalize RN D). Notation create := (create RN D dinit).
  (** C45 with inverse-variance weights: the combined read-noise variance is the scale over the sum of the inverse variances *)
  Theorem C45_inverse (c : rcfg RN) (l : list (rmodel RN)) (r : option R) : c_var _ c = true -> c_wt _ c = Ivm -> Forall (accepted c) l ->
    match c_ratio _ c with Some r => Some r | None => first_some (m_ratio _) l end = option_map Some r -> (forall x, r = Some x -> 0 < x) ->
    exists s s' e, add_all c (create c) l = (s, None) /\ finalize c s = (s', e) /\
      forall v p, In (0%nat, v) (o_vars _ _ (s_out _ _ s')) -> v p = match rn_vars p l with [] => None | xs => Some (vscale c r / Rsum (map Rinv xs)) end.
  Proof.
    intros Cv Cw A Rr Rp. destruct (C45_combined dadd dinit c l r Cv A Rr Rp) as (s & s' & e & E1 & E2 & _ & E3). exists s, s', e. split; [exact E1|]. split; [exact E2|]. intros v p I. rewrite (E3 0%nat v p I).
    assert (Q : concat (map (contrib c 0 p) l) = map (fun x => (/ x, x)) (rn_vars p l)).
    { clear - Cw. unfold rn_vars. induction l as [|m l IH]; [reflexivity|]. cbn [map concat flat_map]. rewrite map_app. rewrite <- IH. f_equal. unfold contrib, wgt. rewrite Cw. destruct (m_var _ m 0%nat) as [a|]; [|reflexivity]. change (F RN) with (option R) in *.
      destruct (a p) as [x|]; [|reflexivity]. unfold Rltb. destruct (Rlt_dec 0 x) as [X|X].
      - destruct (Rle_dec 0 x); [|lra]. destruct (Rlt_dec 0 (/ x)) as [_|Y]; [reflexivity|]. exfalso. apply Y, Rinv_0_lt_compat, X.
      - destruct (Rle_dec 0 x); [|reflexivity]. destruct (Rlt_dec 0 0); [lra|reflexivity]. }
    rewrite Q. clear Q. assert (P : forall x, In x (rn_vars p l) -> 0 < x).
    { intros x Ix. unfold rn_vars in Ix. apply in_flat_map in Ix. destruct Ix as [m [_ Ix]]. destruct (m_var _ m 0%nat) as [a|]; [|destruct Ix]. change (F RN) with (option R) in *. destruct (a p) as [y|]; [|destruct Ix]. destruct (Rlt_dec 0 y); [|destruct Ix]. destruct Ix as [<-|[]]. assumption. }
    destruct (rn_vars p l) as [|x xs] eqn:Z; [reflexivity|]. transitivity (Some (vscale c r * Rsum (map (fun wv => fst wv * fst wv * snd wv) (map (fun x => (/ x, x)) (x :: xs))) / (Rsum (map fst (map (fun x => (/ x, x)) (x :: xs))) * Rsum (map fst (map (fun x => (/ x, x)) (x :: xs)))))); [reflexivity|]. f_equal.
    rewrite (map_map _ fst), (map_map _ (fun wv => fst wv * fst wv * snd wv)).
    assert (W : 0 < Rsum (map Rinv (x :: xs))).
    { apply (Rsum_pos Rinv _ x); [|left; reflexivity|apply Rinv_0_lt_compat, P; left; reflexivity]. intros y Iy. apply Rlt_le, Rinv_0_lt_compat, P, Iy. }
    replace (Rsum (map (fun y => fst (/ y, y)) (x :: xs))) with (Rsum (map Rinv (x :: xs))) by reflexivity.
    replace (Rsum (map (fun y => fst (/ y, y) * fst (/ y, y) * snd (/ y, y)) (x :: xs))) with (Rsum (map Rinv (x :: xs))); [field; lra|].
    apply Rsum_ext. intros y Iy. cbn [fst snd]. specialize (P y Iy). field. lra.
  Qed.
  (** an input model with its arrays, and what drizzle does with it *)
  Record raw := { r_m : rmodel RN; r_driz : (nat -> option R) -> nat -> option R; r_arrays : nat -> option (arr RN); r_sci : list nat; r_k : R; r_cover : nat -> list (nat * R) }.
  Definition built (x : raw) : rmodel RN := with_arrays RN (r_m x) (r_driz x) (r_arrays x) (r_sci x).
  Lemma built_var x n : m_var _ (built x) n = resample_one RN (r_driz x) (r_arrays x n) (r_sci x).
  Proof.
    cbn [built with_arrays m_var]. unfold drizzled. destruct (C127_used RN (r_driz x) (r_arrays x n) (r_sci x)) as [H1 H2]. destruct (check_var RN (r_arrays x n) (r_sci x)); [reflexivity|].
    destruct (resample_one RN (r_driz x) (r_arrays x n) (r_sci x)) as [o|]; [|reflexivity]. assert (false = true) by (apply H2, H1; discriminate). discriminate.
  Qed.
  (** C127, the finished product: no combined variance is negative or exceeds the largest input variance of that array that
      reaches the pixel, times the squared drizzle scale and the scale of variances *)
  Theorem C127_product_bounds (c : rcfg RN) (l : list raw) (r : option R) (n : nat) (p : nat) (hi K : R) : c_var _ c = true -> Forall (accepted c) (map built l) ->
    match c_ratio _ c with Some r => Some r | None => first_some (m_ratio _) (map built l) end = option_map Some r -> (forall x, r = Some x -> 0 < x) ->
    (forall x, In x l -> averaging (r_k x) (r_cover x) (r_driz x) /\ r_k x * r_k x <= K) -> 0 <= hi ->
    (forall x a i w v, In x l -> r_arrays x n = Some a -> In (i, w) (r_cover x p) -> a_val a i = Some v -> v <= hi) ->
    exists s s' e, add_all c (create c) (map built l) = (s, None) /\ finalize c s = (s', e) /\
      forall v y, In (n, v) (o_vars _ _ (s_out _ _ s')) -> v p = Some y -> 0 <= y <= vscale c r * (K * hi).
  Proof.
    intros Cv A Rr Rp H Hh B. destruct (C45_combined dadd dinit c (map built l) r Cv A Rr Rp) as (s & s' & e & E1 & E2 & _ & E3). exists s, s', e. split; [exact E1|]. split; [exact E2|]. intros v y I Y. rewrite (E3 n v p I) in Y.
    apply (combined_bounds _ (K * hi) _ _ (Rlt_le _ _ (vscale_pos c r Rp))) in Y; [exact Y|]. intros wv Iw. apply contrib_in in Iw. destruct Iw as (W & V & m & o & Im & Mo & Op & _). split; [exact W|]. split; [exact V|].
    apply in_map_iff in Im. destruct Im as [x [<- Ix]]. rewrite built_var in Mo. destruct (H x Ix) as [Av Kx]. destruct (C127_used RN (r_driz x) (r_arrays x n) (r_sci x)) as [U _].
    assert (U' : usable (r_arrays x n) (r_sci x)) by (apply U; rewrite Mo; discriminate). destruct (r_arrays x n) as [a|] eqn:Ra; [|destruct U' as [a [E _]]; discriminate].
    set (y' := fun i => match (a_val a i : option R) with Some z => z | None => 0 end).
    assert (N : r_cover x p <> []). { intro Z. destruct (C127_missing (r_k x) _ _ Av a _ U' p (or_introl Z)) as (o' & Eo & Oo). rewrite Mo in Eo. injection Eo as <-. congruence. }
    assert (Kn : forall i w, In (i, w) (r_cover x p) -> a_val a i = Some (y' i) /\ 0 <= y' i <= hi).
    { intros i w Ii. unfold y'. destruct (a_val a i : option R) as [z|] eqn:Z.
      - split; [reflexivity|]. split; [|exact (B x a i w z Ix eq_refl Ii Z) || exact (B x a i w z Ix Ra Ii Z)]. destruct (Rle_lt_dec 0 z) as [|Zn]; [assumption|]. exfalso. destruct (C127_missing (r_k x) _ _ Av a _ U' p) as (o' & Eo & Oo); [right; exists i, w; split; [exact Ii|right; exists z; auto]|]. rewrite Mo in Eo. injection Eo as <-. congruence.
      - exfalso. destruct (C127_missing (r_k x) _ _ Av a _ U' p) as (o' & Eo & Oo); [right; exists i, w; split; [exact Ii|left; exact Z]|]. rewrite Mo in Eo. injection Eo as <-. congruence. }
    destruct (C127_bounds (r_k x) _ _ Av a _ U' p y' 0 hi N (Rle_refl 0) Kn) as (o' & z & Eo & Oz & [_ Zb] & _). rewrite Mo in Eo. injection Eo as <-. rewrite Op in Oz. injection Oz as ->. eapply Rle_trans; [exact Zb|]. apply Rmult_le_compat_r; assumption.
  Qed.
  (** C127, equal exposures: N exposures of one exposure time and one uniform variance give that variance over N *)
  Theorem C127_product_uniform (c : rcfg RN) (l : list raw) (r : option R) (n : nat) (p : nat) (v t k : R) : l <> [] -> c_var _ c = true -> c_wt _ c = Exptime -> 0 < t -> 0 <= v ->
    (forall x, In x l -> m_keys _ (r_m x) = true /\ m_dim2 _ (r_m x) = true /\ m_meas _ (r_m x) = Some (Some t : RN) /\ averaging k (r_cover x) (r_driz x) /\ r_cover x p <> [] /\
       exists a, r_arrays x n = Some a /\ usable (Some a) (r_sci x) /\ forall i w, In (i, w) (r_cover x p) -> a_val a i = Some v) ->
    match c_ratio _ c with Some r => Some r | None => first_some (m_ratio _) (map built l) end = option_map Some r -> (forall x, r = Some x -> 0 < x) ->
    exists s s' e, add_all c (create c) (map built l) = (s, None) /\ finalize c s = (s', e) /\
      forall u, In (n, u) (o_vars _ _ (s_out _ _ s')) -> u p = Some (vscale c r * (k * k * v) / INR (length l)).
  Proof.
    intros Nl Cv Cw Ht Hv H Rr Rp. assert (A : Forall (accepted c) (map built l)).
    { apply Forall_forall. intros m Im. apply in_map_iff in Im. destruct Im as [x [<- Ix]]. destruct (H x Ix) as (H1 & H2 & H3 & _). split; [exact H1|]. split; [exact H2|]. intros _. rewrite Cw. left. cbn [built with_arrays m_meas]. rewrite H3. discriminate. }
    destruct (C45_combined dadd dinit c (map built l) r Cv A Rr Rp) as (s & s' & e & E1 & E2 & _ & E3). exists s, s', e. split; [exact E1|]. split; [exact E2|]. intros u I. rewrite (E3 n u p I).
    assert (Q : concat (map (contrib c n p) (map built l)) = map (fun _ => (t, k * k * v)) l).
    { clear - H Cw Ht Hv. induction l as [|x l IH]; [reflexivity|]. cbn [map concat]. rewrite IH by (intros y Iy; apply H; right; exact Iy). destruct (H x (or_introl eq_refl)) as (_ & _ & M & Av & Nc & a & Ra & Us & Ka). unfold contrib. rewrite built_var, Ra.
      destruct (C127_uniform k _ _ Av a _ Us p v Nc Hv Ka) as (o & Eo & Op). change (F RN) with (option R) in *. rewrite Eo, Op. unfold wgt. rewrite Cw. cbn [built with_arrays m_meas]. rewrite M. destruct (Rle_dec 0 (k * k * v)) as [_|Z]; [|exfalso; apply Z, Rmult_le_pos; [nra|exact Hv]]. destruct (Rlt_dec 0 t); [|lra]. reflexivity. }
    rewrite Q. set (g := fun _ : raw => (t, k * k * v)). transitivity (Some (vscale c r * Rsum (map (fun wv => fst wv * fst wv * snd wv) (map g l)) / (Rsum (map fst (map g l)) * Rsum (map fst (map g l))))); [destruct l; [congruence|reflexivity]|]. f_equal.
    rewrite (map_map g fst), (map_map g (fun wv => fst wv * fst wv * snd wv)). unfold g. cbn [fst snd]. rewrite !Rsum_const.
    assert (0 < INR (length l)) by (apply lt_0_INR; destruct l; [congruence|cbn; lia]). field. lra.
  Qed.
End Runs.
Print Assumptions C45_inverse.
Print Assumptions C127_product_bounds.
Print Assumptions C127_product_uniform.

(** *** examples: two input pixels on the first output pixel, a third one on the second, scale 2 *)
Definition exd (x : nat -> option R) (p : nat) : option R :=
  match p with
  | 0%nat => match x 0%nat, x 1%nat with Some a, Some b => Some (2 * ((a + 3 * b) / 4)) | _, _ => None end
  | 1%nat => option_map (fun a => 2 * a) (x 2%nat)
  | _ => None
  end.
Definition exco (p : nat) : list (nat * R) := match p with 0%nat => [(0%nat, 1); (1%nat, 3)] | 1%nat => [(2%nat, 1)] | _ => [] end.
Definition exa (v : nat -> R) : arr RN := {| a_shape := [1; 3]%nat; a_val := fun i => match i with 0%nat => Some (v 0%nat) : RN | 1%nat => Some (v 1%nat) : RN | _ => None : RN end |}.
Example exd_averaging : averaging 2 exco exd.
Proof.
  split.
  - intros p i a. destruct p as [|[|p]]; cbn [exco In]; intro H; repeat destruct H as [H|H]; try injection H as _ <-; try contradiction; lra.
  - intros x p. destruct p as [|[|p]]; cbn [exco exd]; (split; [try discriminate; reflexivity|]); split.
    + intros i a [H|[H|[]]] E; injection H as <- <-; rewrite E; [reflexivity|destruct (x 0%nat); reflexivity].
    + intros y _ K. rewrite (K 0%nat 1), (K 1%nat 3) by (cbn; auto). cbn [map fst snd]. rewrite !Rsum_cons, !Rsum_nil. f_equal. field.
    + intros i a [H|[]] E. injection H as <- <-. rewrite E. reflexivity.
    + intros y _ K. rewrite (K 2%nat 1) by (cbn; auto). cbn [map fst snd option_map]. rewrite !Rsum_cons, !Rsum_nil. f_equal. field.
    + intros i a [].
    + intros y N. congruence.
Qed.
Definition exv2 (i : nat) : R := match i with 0%nat => 4 | _ => 16 end.
Example exa_usable : usable (Some (exa exv2)) [1; 3]%nat /\ ~ usable (Some (exa exv2)) [3; 1]%nat /\ ~ usable (@None (arr RN)) [1; 3]%nat.
Proof. split; [eexists; split; [reflexivity|split; [reflexivity|cbn; intros [H|[H|[]]]; discriminate]]|]. split; intros [a [E [S _]]]; [injection E as <-; discriminate|discriminate]. Qed.
Example exa_bounds : exco 0 <> [] /\ (forall i w, In (i, w) (exco 0) -> a_val (exa exv2) i = Some (exv2 i) /\ 4 <= exv2 i <= 16).
Proof. split; [discriminate|]. intros i w [H|[H|[]]]; injection H as <- _; cbn; (split; [reflexivity|lra]). Qed.
Example exa_missing : exists i w, In (i, w) (exco 1) /\ a_val (exa exv2) i = None.
Proof. exists 2%nat, 1. split; [left; reflexivity|reflexivity]. Qed.
(** errors 2 and 4 with weights 1 and 3 give 7/2; the variance is 49 *)
Example exa_value : exists out, resample_one RN exd (Some (exa exv2)) [1; 3]%nat = Some out /\ out 0%nat = Some 49 /\ out 1%nat = None.
Proof.
  eexists. split; [reflexivity|]. split; [|reflexivity]. cbn [exd exa a_val exv2 fsqrt RN fmul]. unfold Rltb. destruct (Rlt_dec 4 0); [lra|]. destruct (Rlt_dec 16 0); [lra|]. replace (sqrt 4) with 2 by (replace 4 with (2 * 2) by lra; symmetry; apply sqrt_square; lra).
  replace (sqrt 16) with 4 by (replace 16 with (4 * 4) by lra; symmetry; apply sqrt_square; lra). cbn [rn2]. apply (f_equal Some). lra.
Qed.
Definition exrm (g : nat) : rmodel RN :=
  {| m_group := g; m_start := Some 0 : RN; m_end := Some 1 : RN; m_exp := Some (Some 5 : RN); m_meas := Some (Some 7 : RN); m_dur := None; m_keys := true; m_dim2 := true; m_ratio := Some (Some 3 : RN); m_var := fun _ => None |}.
Definition exraw (g : nat) (v : nat -> R) : raw := {| r_m := exrm g; r_driz := exd; r_arrays := fun _ => Some (exa v); r_sci := [1; 3]%nat; r_k := 2; r_cover := exco |}.
Definition exrc (w : wtype) : rcfg RN := {| c_var := true; c_wt := w; c_names := [0%nat; 1%nat]; c_imaging := true; c_ratio := None |}.
Example ex_product_bounds : let l := [exraw 1 exv2; exraw 2 (fun _ => 9)] in c_var _ (exrc Ivm) = true /\ Forall (accepted (exrc Ivm)) (map built l) /\
  match c_ratio _ (exrc Ivm) with Some r => Some r | None => first_some (m_ratio _) (map built l) end = option_map Some (Some 3) /\ (forall x, Some 3 = Some x -> 0 < x) /\
  (forall x, In x l -> averaging (r_k x) (r_cover x) (r_driz x) /\ r_k x * r_k x <= 4) /\ 0 <= 16 /\
  (forall x a i w v, In x l -> r_arrays x 0 = Some a -> In (i, w) (r_cover x 0) -> a_val a i = Some v -> v <= 16).
Proof.
  cbn zeta. split; [reflexivity|]. split; [repeat constructor; cbn; auto; discriminate|]. split; [reflexivity|]. split; [intros x H; injection H as <-; lra|]. split; [|split; [lra|]].
  - intros x [<-|[<-|[]]]; (split; [exact exd_averaging|cbn; lra]).
  - intros x a i w v [<-|[<-|[]]] H; injection H as <-; intros [H|[H|[]]]; injection H as <- _; cbn; intro H; injection H as <-; lra.
Qed.
Example ex_product_uniform : let l := [exraw 1 (fun _ => 9); exraw 2 (fun _ => 9)] in l <> [] /\ c_wt _ (exrc Exptime) = Exptime /\ forall x, In x l -> m_keys _ (r_m x) = true /\ m_dim2 _ (r_m x) = true /\ m_meas _ (r_m x) = Some (Some 7 : RN) /\
  averaging 2 (r_cover x) (r_driz x) /\ r_cover x 0 <> [] /\ exists a, r_arrays x 0 = Some a /\ usable (Some a) (r_sci x) /\ forall i w, In (i, w) (r_cover x 0) -> a_val a i = Some 9.
Proof.
  cbn zeta. split; [discriminate|]. split; [reflexivity|]. intros x [<-|[<-|[]]]; (do 3 (split; [reflexivity|]); split; [exact exd_averaging|]; split; [discriminate|]; exists (exa (fun _ => 9)); split; [reflexivity|]; split; [eexists; split; [reflexivity|split; [reflexivity|cbn; intros [H|[H|[]]]; discriminate]]|]; intros i w [H|[H|[]]]; injection H as <- _; reflexivity).
Qed.
(** C45_inverse: the two read-noise variances of the first pixel, inverse-variance weights *)
Example ex_inverse : c_wt _ exvc = Ivm /\ Forall (accepted exvc) exvl /\ rn_vars 7 exvl = [1/2; 1/4].
Proof.
  split; [reflexivity|]. split; [apply exv_ok|]. unfold exvl. cbn [rn_vars flat_map exv m_var app]. destruct (Rlt_dec 0 (1 / 2)); [|lra]. destruct (Rlt_dec 0 (1 / 4)); [|lra]. destruct (Rlt_dec 0 0); [lra|]. reflexivity.
Qed.
