(** C137: more images, and the two kinds of weights, in the combined variance. *)
From Verif Require Import Base BaseLemmas RBase RNBase ResModel ResSpec ResProofs ResVar Cas22Fit RvModel RvProps.
From Coq Require Import Reals Lra Lia.
Local Open Scope R_scope.

Lemma rn_vars_pos p l x : In x (rn_vars p l) -> 0 < x.
Proof.
  intro Ix. unfold rn_vars in Ix. apply in_flat_map in Ix. destruct Ix as [m [_ Ix]]. destruct (m_var _ m 0%nat) as [a|]; [|destruct Ix]. change (F RN) with (option R) in *. destruct (a p) as [y|]; [|destruct Ix]. destruct (Rlt_dec 0 y); [|destruct Ix]. destruct Ix as [<-|[]]. assumption.
Qed.
Lemma rn_vars_app p l k : rn_vars p (l ++ k) = rn_vars p l ++ rn_vars p k.
Proof. unfold rn_vars. apply flat_map_app. Qed.
Lemma inv_pos xs : (forall x, In x xs -> 0 < x) -> 0 <= Rsum (map Rinv xs) /\ (xs <> [] -> 0 < Rsum (map Rinv xs)).
Proof.
  induction xs as [|x xs IH]; intro P; [cbn [map]; rewrite Rsum_nil; split; [lra|congruence]|]. destruct IH as [I _]; [intros y Y; apply P; right; exact Y|]. pose proof (Rinv_0_lt_compat x (P x (or_introl eq_refl))). cbn [map]. rewrite Rsum_cons. split; [lra|intros _; lra].
Qed.
Lemma Rsum_map_app (f : R -> R) l k : Rsum (map f (l ++ k)) = Rsum (map f l) + Rsum (map f k).
Proof. induction l as [|x l IH]; cbn [app map]; rewrite ?Rsum_nil, ?Rsum_cons, ?IH; lra. Qed.

(** *** inverse-variance weights are the best ones *)
Lemma amgm a b c : 0 <= a -> 0 <= b -> c * c <= a * b -> 2 * c <= a + b.
Proof.
  intros A B C. destruct (Rle_lt_dec (2 * c) (a + b)) as [H|H]; [exact H|exfalso]. assert ((a + b) * (a + b) < 2 * c * (2 * c)) by (apply Rmult_le_0_lt_compat; lra). pose proof (Rle_0_sqr (a - b)) as Z. unfold Rsqr in Z. lra.
Qed.
Lemma cauchy (l : list (R * R)) : (forall wv, In wv l -> 0 < fst wv /\ 0 < snd wv) ->
  0 <= Rsum (map (fun wv => fst wv * fst wv * snd wv) l) /\ 0 <= Rsum (map (fun wv => / snd wv) l) /\
  Rsum (map fst l) * Rsum (map fst l) <= Rsum (map (fun wv => fst wv * fst wv * snd wv) l) * Rsum (map (fun wv => / snd wv) l).
Proof.
  induction l as [|[w x] l IH]; intro P; [cbn [map]; rewrite !Rsum_nil; lra|]. destruct IH as (Q0 & I0 & C); [intros y Y; apply P; right; exact Y|]. destruct (P (w, x) (or_introl eq_refl)) as [W X]. cbn [fst snd] in W, X. cbn [map fst snd]. rewrite !Rsum_cons.
  set (Q := Rsum (map (fun wv => fst wv * fst wv * snd wv) l)) in *. set (I := Rsum (map (fun wv => / snd wv) l)) in *. set (V := Rsum (map fst l)) in *. pose proof (Rinv_0_lt_compat x X) as Y.
  assert (W2 : 0 < w * w * x) by (apply Rmult_lt_0_compat; nra). split; [lra|]. split; [lra|].
  assert (A : 2 * (w * V) <= Q * / x + w * w * x * I).
  { apply amgm; [apply Rmult_le_pos; lra|apply Rmult_le_pos; lra|]. replace (Q * / x * (w * w * x * I)) with (w * w * (Q * I)) by (field; lra). replace (w * V * (w * V)) with (w * w * (V * V)) by ring. apply Rmult_le_compat_l; [nra|exact C]. }
  replace ((w * w * x + Q) * (/ x + I)) with (w * w + Q * / x + w * w * x * I + Q * I) by (field; lra). nra.
Qed.

(** the read-noise variance a finished run shows *)
Definition shows {D} (s : rstate RN D) (n p : nat) (x : option R) : Prop := exists v, In (n, v) (o_vars _ _ (s_out _ _ s)) /\ v p = x.
Definition ratio_of (c : rcfg RN) (l : list (rmodel RN)) := match c_ratio _ c with Some r => Some r | None => first_some (m_ratio _) l end.
(** a run that adds all models without an exception and ends in [s] *)
Definition finishes {D} dadd dinit (c : rcfg RN) (l : list (rmodel RN)) (s : rstate RN D) : Prop :=
  exists t, add_all RN D dadd c (create RN D dinit c) l = (t, None) /\ fst (finalize RN D c t) = s.

Section Runs.
  Context {D : Type} (dadd : D -> rmodel RN -> D) (dinit : option D -> D).
  Lemma finishes_inverse c l r s p x : c_var _ c = true -> c_wt _ c = Ivm -> Forall (accepted c) l -> ratio_of c l = option_map Some r -> (forall x, r = Some x -> 0 < x) ->
    finishes dadd dinit c l s -> shows s 0 p x -> x = match rn_vars p l with [] => None | xs => Some (vscale c r / Rsum (map Rinv xs)) end.
  Proof.
    intros Cv Cw A Rr Rp (t & E & Fi) (v & Iv & Vp). destruct (C45_inverse dadd dinit c l r Cv Cw A Rr Rp) as (s1 & s2 & e & E1 & E2 & H). rewrite E in E1. injection E1 as <-. rewrite E2 in Fi. cbn [fst] in Fi. subst s2. rewrite <- Vp. exact (H v p Iv).
  Qed.
  Lemma finishes_combined c l r s n p x : c_var _ c = true -> Forall (accepted c) l -> ratio_of c l = option_map Some r -> (forall x, r = Some x -> 0 < x) ->
    finishes dadd dinit c l s -> shows s n p x -> x = combined (vscale c r) (concat (map (contrib c n p) l)).
  Proof.
    intros Cv A Rr Rp (t & E & Fi) (v & Iv & Vp). destruct (C45_combined dadd dinit c l r Cv A Rr Rp) as (s1 & s2 & e & E1 & E2 & _ & H). rewrite E in E1. injection E1 as <-. rewrite E2 in Fi. cbn [fst] in Fi. subst s2. rewrite <- Vp. exact (H n v p Iv).
  Qed.
  (** every run finishes and shows something for each of the configured names *)
  Lemma finishes_exists c l r n p : c_var _ c = true -> Forall (accepted c) l -> ratio_of c l = option_map Some r -> (forall x, r = Some x -> 0 < x) -> In n (c_names _ c) ->
    exists s x, finishes dadd dinit c l s /\ shows s n p x.
  Proof.
    intros Cv A Rr Rp Hn. destruct (C45_combined dadd dinit c l r Cv A Rr Rp) as (s1 & s2 & e & E1 & E2 & N & H). rewrite <- N in Hn. apply in_map_iff in Hn. destruct Hn as [[n' v] [Q I]]. cbn in Q. subst n'. exists s2, (v p). split; [exists s1; rewrite E2; split; [exact E1|reflexivity]|exists v; split; [exact I|reflexivity]].
  Qed.

  (** inverse-variance weights: further images never raise the read-noise variance of a pixel, and lower it exactly when one of
      them has a positive read-noise variance there *)
  Theorem C137_more (c : rcfg RN) (l k : list (rmodel RN)) (r : option R) s s' p v x' : c_var _ c = true -> c_wt _ c = Ivm -> Forall (accepted c) (l ++ k) ->
    ratio_of c l = option_map Some r -> ratio_of c (l ++ k) = option_map Some r -> (forall x, r = Some x -> 0 < x) ->
    finishes dadd dinit c l s -> finishes dadd dinit c (l ++ k) s' -> shows s 0 p (Some v) -> shows s' 0 p x' ->
    exists v', x' = Some v' /\ 0 < v' <= v /\
      (v' < v <-> exists m a y, In m k /\ m_var _ m 0%nat = Some a /\ a p = Some y /\ 0 < y).
  Proof.
    intros Cv Cw A R1 R2 Rp F1 F2 S1 S2. assert (A1 : Forall (accepted c) l) by (apply Forall_app in A; apply A).
    pose proof (finishes_inverse c l r s p _ Cv Cw A1 R1 Rp F1 S1) as V1. pose proof (finishes_inverse c (l ++ k) r s' p _ Cv Cw A R2 Rp F2 S2) as V2. rewrite rn_vars_app in V2.
    pose proof (vscale_pos c r Rp) as Sc. destruct (inv_pos (rn_vars p l) (rn_vars_pos p l)) as [_ Pl]. destruct (inv_pos (rn_vars p k) (rn_vars_pos p k)) as [Pk Pk'].
    assert (Nl : rn_vars p l <> []) by (intro Z; rewrite Z in V1; discriminate). specialize (Pl Nl).
    assert (V1' : v = vscale c r / Rsum (map Rinv (rn_vars p l))) by (destruct (rn_vars p l); [congruence|injection V1 as ->; reflexivity]).
    assert (V2' : x' = Some (vscale c r / (Rsum (map Rinv (rn_vars p l)) + Rsum (map Rinv (rn_vars p k))))).
    { rewrite V2, <- Rsum_map_app. destruct (rn_vars p l); [congruence|reflexivity]. }
    exists (vscale c r / (Rsum (map Rinv (rn_vars p l)) + Rsum (map Rinv (rn_vars p k)))). split; [exact V2'|]. set (I := Rsum (map Rinv (rn_vars p l))) in *. set (J := Rsum (map Rinv (rn_vars p k))) in *. subst v.
    assert (Inv : 0 < / (I + J) <= / I) by (split; [apply Rinv_0_lt_compat; lra|apply Rinv_le_contravar; lra]). split; [unfold Rdiv; split; [apply Rmult_lt_0_compat; lra|apply Rmult_le_compat_l; lra]|]. split.
    - intro Lt. destruct (rn_vars p k) as [|y ys] eqn:Z; [subst J; cbn [map] in Lt; rewrite Rsum_nil, Rplus_0_r in Lt; lra|]. assert (Iy : In y (rn_vars p k)) by (rewrite Z; left; reflexivity). pose proof (rn_vars_pos p k y Iy) as Y0. unfold rn_vars in Iy. apply in_flat_map in Iy. destruct Iy as [m [Im Iy]].
      destruct (m_var RN m 0%nat) as [a|] eqn:Va; [|destruct Iy]. change (F RN) with (option R) in *. destruct (a p) as [z|] eqn:Az; [|destruct Iy]. destruct (Rlt_dec 0 z); [|destruct Iy]. destruct Iy as [<-|[]]. exists m, a, z. repeat split; assumption.
    - intros (m & a & y & Im & Va & Ay & Y). assert (Iy : In y (rn_vars p k)). { unfold rn_vars. apply in_flat_map. exists m. split; [exact Im|]. rewrite Va. change (F RN) with (option R) in *. rewrite Ay. destruct (Rlt_dec 0 y); [left; reflexivity|contradiction]. }
      assert (J0 : 0 < J) by (apply Pk'; intro Z; rewrite Z in Iy; destruct Iy). unfold Rdiv. apply Rmult_lt_compat_l; [exact Sc|]. apply Rinv_lt_contravar; [apply Rmult_lt_0_compat; lra|lra].
  Qed.

  (** of the two kinds of weights the inverse-variance ones give the smaller read-noise variance *)
  Theorem C137_best (ci ct : rcfg RN) (l : list (rmodel RN)) (r : option R) s s' p x v' : c_var _ ci = true -> c_var _ ct = true -> c_wt _ ci = Ivm -> c_wt _ ct = Exptime -> c_imaging _ ci = c_imaging _ ct ->
    Forall (accepted ci) l -> Forall (accepted ct) l -> ratio_of ci l = option_map Some r -> ratio_of ct l = option_map Some r -> (forall x, r = Some x -> 0 < x) ->
    (forall m a, In m l -> m_var _ m 0%nat = Some a -> a p <> Some 0) ->
    finishes dadd dinit ci l s -> finishes dadd dinit ct l s' -> shows s 0 p x -> shows s' 0 p (Some v') ->
    exists v, x = Some v /\ 0 < v <= v'.
  Proof.
    intros Cv Cv' Cw Cw' Im A A' R1 R2 Rp Nz F1 F2 S1 S2. pose proof (finishes_inverse ci l r s p _ Cv Cw A R1 Rp F1 S1) as V1. pose proof (finishes_combined ct l r s' 0 p _ Cv' A' R2 Rp F2 S2) as V2.
    pose proof (vscale_pos ci r Rp) as Sc. assert (Vs : vscale ct r = vscale ci r) by (unfold vscale; rewrite Im; reflexivity). rewrite Vs in V2.
    set (q := concat (map (contrib ct 0 p) l)) in *.
    assert (P : forall wv, In wv q -> 0 < fst wv /\ 0 < snd wv).
    { intros wv I. destruct (contrib_in ct 0 p l wv I) as (W & Y & m & a & Hm & Ha & Hp & _). split; [exact W|]. destruct (Req_dec (snd wv) 0) as [Z|Z]; [|lra]. exfalso. rewrite Z in Hp. exact (Nz m a Hm Ha Hp). }
    assert (Le : Rsum (map (fun wv => / snd wv) q) <= Rsum (map Rinv (rn_vars p l)) /\ (q <> [] -> rn_vars p l <> [])).
    { subst q. clear - Nz. induction l as [|m l IH]; [cbn; split; [lra|congruence]|]. destruct IH as [I1 I2]; [intros m' a H; apply Nz; right; exact H|]. specialize (Nz m). unfold rn_vars in *. cbn [map concat flat_map].
      assert (M : contrib ct 0 p m = [] \/ exists w y, contrib ct 0 p m = [(w, y)] /\ match m_var RN m 0%nat with Some a => match (a p : option R) with Some x => if Rlt_dec 0 x then [x] else [] | None => [] end | None => [] end = [y]).
      { unfold contrib. destruct (m_var RN m 0%nat) as [a|] eqn:Va; [|left; reflexivity]. specialize (Nz a (or_introl eq_refl) eq_refl). change (F RN) with (option R) in *. destruct (a p) as [z|]; [|left; reflexivity]. destruct (Rle_dec 0 z) as [Z|Z]; [|left; reflexivity]. destruct (Rlt_dec 0 (wgt ct m p)); [|left; reflexivity].
        right. exists (wgt ct m p), z. split; [reflexivity|]. destruct (Rlt_dec 0 z) as [|Z']; [reflexivity|]. exfalso. apply Nz. f_equal. lra. }
      destruct M as [->|(w & y & -> & ->)].
      - cbn [app]. rewrite Rsum_map_app. assert (G : 0 <= Rsum (map Rinv (match m_var RN m 0%nat with Some a => match (a p : option R) with Some x => if Rlt_dec 0 x then [x] else [] | None => [] end | None => [] end))).
        { apply (inv_pos _). intros x Hx. apply (rn_vars_pos p [m]). unfold rn_vars. cbn [flat_map]. rewrite app_nil_r. exact Hx. }
        split; [lra|]. intro N. specialize (I2 N). intro Z. apply app_eq_nil in Z. apply I2, Z.
      - cbn [app map snd]. rewrite !Rsum_cons. split; [lra|discriminate]. }
    destruct Le as [Le Ne]. assert (Nq : q <> []) by (intro Z; rewrite Z in V2; discriminate). specialize (Ne Nq). destruct (cauchy q P) as (Q0 & I0 & C).
    assert (W : 0 < Rsum (map fst q)) by (apply wtot; [exact Nq|intros wv I; apply P, I]).
    assert (V2' : v' = vscale ci r * Rsum (map (fun wv => fst wv * fst wv * snd wv) q) / (Rsum (map fst q) * Rsum (map fst q))) by (destruct q; [congruence|injection V2 as ->; reflexivity]).
    destruct (inv_pos (rn_vars p l) (rn_vars_pos p l)) as [_ Pl]. specialize (Pl Ne). exists (vscale ci r / Rsum (map Rinv (rn_vars p l))). split; [rewrite V1; destruct (rn_vars p l); [congruence|reflexivity]|].
    set (I := Rsum (map Rinv (rn_vars p l))) in *. set (Q := Rsum (map (fun wv => fst wv * fst wv * snd wv) q)) in *. set (V := Rsum (map fst q)) in *. set (H := Rsum (map (fun wv => / snd wv) q)) in *.
    split; [unfold Rdiv; apply Rmult_lt_0_compat; [exact Sc|apply Rinv_0_lt_compat, Pl]|]. subst v'. unfold Rdiv. rewrite Rmult_assoc. apply Rmult_le_compat_l; [lra|].
    apply (Rmult_le_reg_r (I * (V * V))); [apply Rmult_lt_0_compat; nra|]. replace (/ I * (I * (V * V))) with (V * V) by (field; lra). replace (Q * / (V * V) * (I * (V * V))) with (Q * I) by (field; lra). eapply Rle_trans; [exact C|]. apply Rmult_le_compat_l; assumption.
  Qed.
End Runs.

(** exposure-time weights: a second, noisier image of the same exposure time raises the variance; and inverse-variance weights,
    taken from the read noise, do not protect the other variances *)
Definition b4' (z : Z) : B64 := fofZ B64 z.
Definition exy (g : nat) (rn po : Z) : rmodel B64 :=
  {| m_group := g; m_start := b4' 0; m_end := b4' 1; m_exp := Some (b4' 10); m_meas := Some (b4' 10); m_dur := None; m_keys := true; m_dim2 := true; m_ratio := None;
     m_var := fun n => match n with 0%nat => Some (fun _ => b4' rn) | _ => Some (fun _ => b4' po) end |}.
Definition exyc (w : wtype) : rcfg B64 := {| c_var := true; c_wt := w; c_names := [0%nat; 1%nat]; c_imaging := true; c_ratio := None |}.
Definition final_of (w : wtype) (n : nat) (l : list (rmodel B64)) : option B64 :=
  let '(s, e) := add_all B64 nat (fun d _ => S d) (exyc w) (create B64 nat (fun _ => 0%nat) (exyc w)) l in
  match e with Some _ => None | None => option_map (fun nv => snd nv 0%nat) (find (fun nv => Nat.eqb (fst nv) n) (o_vars _ _ (s_out _ _ (fst (finalize B64 nat (exyc w) s))))) end.
Definition larger (a b : option B64) : bool := match a, b with Some x, Some y => fgt B64 x y | _, _ => false end.
Theorem C137_exposure_refuted : exists a b, larger (final_of Exptime 0 [a; b]) (final_of Exptime 0 [a]) = true.
Proof. exists (exy 1 1 1), (exy 2 100 1). vm_compute. reflexivity. Qed.
Theorem C137_poisson_refuted : exists a b, larger (final_of Ivm 1 [a; b]) (final_of Ivm 1 [a]) = true.
Proof. exists (exy 1 1 1), (exy 2 1 100). vm_compute. reflexivity. Qed.
Print Assumptions C137_more.
Print Assumptions C137_best.
Print Assumptions C137_exposure_refuted.
Print Assumptions C137_poisson_refuted.

(** *** examples *)
Definition exz (g : nat) (rn : option R) : rmodel RN :=
  {| m_group := g; m_start := Some 0 : RN; m_end := Some 1 : RN; m_exp := Some (Some 5 : RN); m_meas := Some (Some 7 : RN); m_dur := None; m_keys := true; m_dim2 := true; m_ratio := Some (Some 2 : RN); m_var := fun _ => Some (fun _ => rn : RN) |}.
Definition exzc (w : wtype) : rcfg RN := {| c_var := true; c_wt := w; c_names := [0%nat; 1%nat]; c_imaging := true; c_ratio := None |}.
Definition exzl := [exz 1 (Some 3); exz 2 None]. Definition exzk := [exz 3 (Some 6)].
Definition exdd (d : nat) (m : rmodel RN) : nat := S d. Definition exdi (o : option nat) : nat := 0%nat.
Lemma exz_acc w : Forall (accepted (exzc w)) (exzl ++ exzk).
Proof. destruct w; repeat constructor; cbn; auto; try discriminate; left; discriminate. Qed.
(** variance 3, and a missing one; a third image of variance 6: 3/4 becomes 1/2 *)
Example ex_more : exists s s', finishes exdd exdi (exzc Ivm) exzl s /\ finishes exdd exdi (exzc Ivm) (exzl ++ exzk) s' /\ shows s 0 5 (Some (3/4)) /\ shows s' 0 5 (Some (1/2)) /\
  ratio_of (exzc Ivm) exzl = option_map Some (Some 2) /\ ratio_of (exzc Ivm) (exzl ++ exzk) = option_map Some (Some 2) /\ Forall (accepted (exzc Ivm)) (exzl ++ exzk).
Proof.
  assert (Rp : forall x, Some 2 = Some x -> 0 < x) by (intros x H; injection H as <-; lra). assert (A1 : Forall (accepted (exzc Ivm)) exzl) by (pose proof (exz_acc Ivm) as A; apply Forall_app in A; apply A).
  destruct (finishes_exists exdd exdi (exzc Ivm) exzl (Some 2) 0 5 eq_refl A1 eq_refl Rp (or_introl eq_refl)) as (s & x & Fs & Sh). destruct (finishes_exists exdd exdi (exzc Ivm) (exzl ++ exzk) (Some 2) 0 5 eq_refl (exz_acc Ivm) eq_refl Rp (or_introl eq_refl)) as (s' & x' & Fs' & Sh').
  pose proof (finishes_inverse exdd exdi (exzc Ivm) exzl (Some 2) s 5 x eq_refl eq_refl A1 eq_refl Rp Fs Sh) as X. pose proof (finishes_inverse exdd exdi (exzc Ivm) (exzl ++ exzk) (Some 2) s' 5 x' eq_refl eq_refl (exz_acc Ivm) eq_refl Rp Fs' Sh') as X'.
  assert (V : rn_vars 5 exzl = [3] /\ rn_vars 5 exzk = [6]). { unfold exzl, exzk, rn_vars. cbn [flat_map exz m_var app]. destruct (Rlt_dec 0 3); [|lra]. destruct (Rlt_dec 0 6); [|lra]. split; reflexivity. }
  rewrite rn_vars_app in X'. destruct V as [Va Vb]. rewrite ?Va, ?Vb in *. cbn [app] in X'. rewrite !map_cons in *. cbn [map] in *. rewrite ?Rsum_cons, ?Rsum_nil in *. unfold vscale in *. cbn [exzc c_imaging] in *.
  exists s, s'. split; [exact Fs|]. split; [exact Fs'|]. split; [replace (Some (3 / 4)) with x; [exact Sh|rewrite X; f_equal; field]|]. split; [replace (Some (1 / 2)) with x'; [exact Sh'|rewrite X'; f_equal; field]|]. split; [reflexivity|]. split; [reflexivity|apply exz_acc].
Qed.
(** and the hypotheses of C137_best on the same three images: the exposure-time weights show 9/16, the inverse-variance ones 1/2 *)
Example ex_best : exists s s', finishes exdd exdi (exzc Ivm) (exzl ++ exzk) s /\ finishes exdd exdi (exzc Exptime) (exzl ++ exzk) s' /\ (exists x, shows s 0 5 x) /\ shows s' 0 5 (Some (9/16)) /\
  (forall m a, In m (exzl ++ exzk) -> m_var _ m 0%nat = Some a -> a 5%nat <> Some 0).
Proof.
  assert (Rp : forall x, Some 2 = Some x -> 0 < x) by (intros x H; injection H as <-; lra).
  destruct (finishes_exists exdd exdi (exzc Ivm) (exzl ++ exzk) (Some 2) 0 5 eq_refl (exz_acc Ivm) eq_refl Rp (or_introl eq_refl)) as (s & x & Fs & Sh). destruct (finishes_exists exdd exdi (exzc Exptime) (exzl ++ exzk) (Some 2) 0 5 eq_refl (exz_acc Exptime) eq_refl Rp (or_introl eq_refl)) as (s' & x' & Fs' & Sh').
  exists s, s'. split; [exact Fs|]. split; [exact Fs'|]. split; [exists x; exact Sh|]. split.
  - pose proof (finishes_combined exdd exdi (exzc Exptime) (exzl ++ exzk) (Some 2) s' 0 5 x' eq_refl (exz_acc Exptime) eq_refl Rp Fs' Sh') as X. replace (Some (9 / 16)) with x'; [exact Sh'|]. rewrite X. unfold exzl, exzk, contrib, wgt. cbn [app map exz m_var m_meas exzc c_wt concat]. destruct (Rle_dec 0 3); [|lra]. destruct (Rle_dec 0 6); [|lra]. destruct (Rlt_dec 0 7); [|lra]. cbn [app].
    unfold combined, vscale. cbn [exzc c_imaging map fst snd]. rewrite !Rsum_cons, !Rsum_nil. f_equal. field.
  - intros m a [<-|[<-|[<-|[]]]] H; injection H as <-; try discriminate; intro Z; injection Z as Z; lra.
Qed.
