(** C139: combined variances and the units of time and of the data. *)
From Verif Require Import Base BaseLemmas RBase RNBase ResModel ResSpec ResProofs ResVar Cas22Fit RvModel RvProps MrProps.
From Coq Require Import Reals Lra Lia.
Local Open Scope R_scope.

(** *** the same images with times in another unit ([kt] times the number) and variances in another unit ([kv] times the number) *)
Definition conv (kt kv : R) (m : rmodel RN) : rmodel RN :=
  let t (o : option (option R)) := option_map (option_map (Rmult kt)) o in
  {| m_group := m_group _ m; m_start := m_start _ m; m_end := m_end _ m; m_exp := t (m_exp _ m); m_meas := t (m_meas _ m); m_dur := m_dur _ m; m_keys := m_keys _ m; m_dim2 := m_dim2 _ m; m_ratio := m_ratio _ m;
     m_var := fun n => option_map (fun a p => option_map (Rmult kv) (a p : option R)) (m_var _ m n) |}.

Section Units.
  Variables kt kv : R.
  Hypothesis Ht : 0 < kt.
  Hypothesis Hv : 0 < kv.
  Definition factor (c : rcfg RN) : R := match c_wt _ c with Ivm => / kv | Exptime => kt end.
  Lemma factor_pos c : 0 < factor c.
  Proof. unfold factor. destruct (c_wt _ c); [apply Rinv_0_lt_compat|]; assumption. Qed.
  Lemma wgt_conv c m p : wgt c (conv kt kv m) p = factor c * wgt c m p.
  Proof.
    unfold wgt, factor. destruct (c_wt _ c).
    - cbn [conv m_var]. destruct (m_var RN m 0%nat) as [a|]; cbn [option_map]; [|ring]. change (F RN) with (option R) in *. destruct (a p) as [x|]; cbn [option_map]; [|ring]. unfold Rltb.
      destruct (Rlt_dec 0 (kv * x)) as [A|A], (Rlt_dec 0 x) as [B|B]; [field; lra|exfalso; nra|exfalso; nra|ring].
    - cbn [conv m_meas m_exp]. change (F RN) with (option R) in *. destruct (m_meas RN m) as [[t|]|]; cbn [option_map]; [ring|ring|]. destruct (m_exp RN m) as [[t|]|]; cbn [option_map]; ring.
  Qed.
  Lemma contrib_conv c n p m : contrib c n p (conv kt kv m) = map (fun wv => (factor c * fst wv, kv * snd wv)) (contrib c n p m).
  Proof.
    unfold contrib. rewrite wgt_conv. pose proof (factor_pos c) as K. cbn [conv m_var]. destruct (m_var RN m n) as [a|]; cbn [option_map]; [|reflexivity]. change (F RN) with (option R) in *. destruct (a p) as [x|]; cbn [option_map]; [|reflexivity].
    destruct (Rle_dec 0 (kv * x)) as [A|A], (Rle_dec 0 x) as [B|B]; [|exfalso; nra|exfalso; nra|reflexivity].
    destruct (Rlt_dec 0 (factor c * wgt c m p)) as [C|C], (Rlt_dec 0 (wgt c m p)) as [E|E]; [reflexivity|exfalso; nra|exfalso; apply C, Rmult_lt_0_compat; assumption|reflexivity].
  Qed.
  Lemma Rsum_map_scal {A} (f : A -> R) k l : Rsum (map (fun x => k * f x) l) = k * Rsum (map f l).
  Proof. induction l as [|x l IH]; cbn [map]; rewrite ?Rsum_nil, ?Rsum_cons, ?IH; ring. Qed.
  Lemma combined_conv sc u l : 0 < u -> (forall wv, In wv l -> 0 < fst wv) -> combined sc (map (fun wv => (u * fst wv, kv * snd wv)) l) = option_map (Rmult kv) (combined sc l).
  Proof.
    intros U P. destruct l as [|x l]; [reflexivity|]. set (q := x :: l) in *. assert (W : 0 < Rsum (map fst q)) by (apply wtot; [discriminate|exact P]).
    transitivity (Some (sc * Rsum (map (fun wv => fst wv * fst wv * snd wv) (map (fun wv => (u * fst wv, kv * snd wv)) q)) / (Rsum (map fst (map (fun wv => (u * fst wv, kv * snd wv)) q)) * Rsum (map fst (map (fun wv => (u * fst wv, kv * snd wv)) q))))); [reflexivity|].
    transitivity (Some (kv * (sc * Rsum (map (fun wv => fst wv * fst wv * snd wv) q) / (Rsum (map fst q) * Rsum (map fst q))))); [|reflexivity]. f_equal. rewrite !map_map. cbn [fst snd]. rewrite (Rsum_map_scal fst u).
    replace (Rsum (map (fun wv => u * fst wv * (u * fst wv) * (kv * snd wv)) q)) with (u * u * kv * Rsum (map (fun wv => fst wv * fst wv * snd wv) q)).
    2:{ rewrite <- Rsum_map_scal. f_equal. apply map_ext. intro wv. ring. }
    field. lra.
  Qed.
  Lemma accepted_conv c m : accepted c m -> accepted c (conv kt kv m).
  Proof.
    intros (A & B & C). split; [exact A|]. split; [exact B|]. intro V. specialize (C V). destruct (c_wt _ c); cbn [conv m_var m_meas m_exp].
    - destruct C as [C1 C2]. split; [exact C1|]. destruct (m_var RN m 0%nat); [discriminate|congruence].
    - destruct C as [C|C]; [left|right]; [destruct (m_meas RN m)|destruct (m_exp RN m)]; first [discriminate|congruence].
  Qed.
  Lemma first_some_conv l : first_some (m_ratio RN) (map (conv kt kv) l) = first_some (m_ratio RN) l.
  Proof. induction l as [|m l IH]; [reflexivity|]. cbn [map first_some conv m_ratio]. destruct (m_ratio RN m); [reflexivity|exact IH]. Qed.

  (** the combined variances of a product follow the unit of the variances and do not depend on that of time, with either kind of weights *)
  Theorem C139_units {D : Type} (dadd : D -> rmodel RN -> D) (dinit : option D -> D) (c : rcfg RN) (l : list (rmodel RN)) (r : option R) s s' n p x x' : c_var _ c = true -> Forall (accepted c) l ->
    ratio_of c l = option_map Some r -> (forall x, r = Some x -> 0 < x) ->
    finishes dadd dinit c l s -> finishes dadd dinit c (map (conv kt kv) l) s' -> shows s n p x -> shows s' n p x' ->
    x' = option_map (Rmult kv) x.
  Proof.
    intros Cv A Rr Rp F1 F2 S1 S2. rewrite (finishes_combined dadd dinit c l r s n p x Cv A Rr Rp F1 S1).
    assert (A' : Forall (accepted c) (map (conv kt kv) l)). { apply Forall_forall. intros m I. apply in_map_iff in I. destruct I as [m0 [<- I]]. apply accepted_conv. rewrite Forall_forall in A. apply A, I. }
    assert (Rr' : ratio_of c (map (conv kt kv) l) = option_map Some r) by (rewrite <- Rr; unfold ratio_of; rewrite first_some_conv; reflexivity).
    rewrite (finishes_combined dadd dinit c _ r s' n p x' Cv A' Rr' Rp F2 S2). rewrite map_map.
    replace (concat (map (fun m => contrib c n p (conv kt kv m)) l)) with (map (fun wv => (factor c * fst wv, kv * snd wv)) (concat (map (contrib c n p) l))).
    2:{ clear - Ht Hv. induction l as [|m l IH]; [reflexivity|]. cbn [map concat]. rewrite map_app, IH, contrib_conv. reflexivity. }
    apply combined_conv; [apply factor_pos|]. intros wv I. apply (contrib_in c n p l wv I).
  Qed.
  (** and such a product exists whenever the first one does *)
  Theorem C139_accepts {D : Type} (dadd : D -> rmodel RN -> D) (dinit : option D -> D) (c : rcfg RN) (l : list (rmodel RN)) (r : option R) n p : c_var _ c = true -> Forall (accepted c) l ->
    ratio_of c l = option_map Some r -> (forall x, r = Some x -> 0 < x) -> In n (c_names _ c) -> exists s' x', finishes dadd dinit c (map (conv kt kv) l) s' /\ shows s' n p x'.
  Proof.
    intros Cv A Rr Rp Hn. apply (finishes_exists dadd dinit c (map (conv kt kv) l) r n p Cv); [|unfold ratio_of in *; rewrite first_some_conv; exact Rr|exact Rp|exact Hn].
    apply Forall_forall. intros m I. apply in_map_iff in I. destruct I as [m0 [<- I]]. apply accepted_conv. rewrite Forall_forall in A. apply A, I.
  Qed.
End Units.
Print Assumptions C139_units.
Print Assumptions C139_accepts.

(** *** example: the three images of MrProps (variances 3, missing, 6; ratio 2; exposure-time weights): 9/16; in another unit, four times the variance: 9/4 *)
Example ex_units : exists s s', finishes exdd exdi (exzc Exptime) (exzl ++ exzk) s /\ finishes exdd exdi (exzc Exptime) (map (conv 60 4) (exzl ++ exzk)) s' /\ shows s 0 5 (Some (9/16)) /\ shows s' 0 5 (Some (9/4)).
Proof.
  assert (Rp : forall x, Some 2 = Some x -> 0 < x) by (intros x H; injection H as <-; lra). destruct ex_best as (_ & s & _ & Fs & _ & Sh & _).
  destruct (C139_accepts 60 4 exdd exdi (exzc Exptime) (exzl ++ exzk) (Some 2) 0 5 eq_refl (exz_acc Exptime) eq_refl Rp (or_introl eq_refl)) as (s' & x' & Fs' & Sh').
  exists s, s'. split; [exact Fs|]. split; [exact Fs'|]. split; [exact Sh|].
  pose proof (C139_units 60 4 ltac:(lra) ltac:(lra) exdd exdi (exzc Exptime) (exzl ++ exzk) (Some 2) s s' 0 5 _ x' eq_refl (exz_acc Exptime) eq_refl Rp Fs Fs' Sh Sh') as X. replace (Some (9 / 4)) with x'; [exact Sh'|]. rewrite X. cbn [option_map]. f_equal. field.
Qed.
