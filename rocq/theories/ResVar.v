(** C45, C81, C82: combined variances, error arrays, pixel scale ratio. *)
From Verif Require Import Base BaseLemmas FLaws SFLemmas RBase RNBase ResModel ResSpec ResProofs.
From Coq Require Import Reals Lra Lia Permutation SpecFloat.
Local Open Scope R_scope.

(** *** one pixel of one variance array along a run *)
Definition vsumR (l : list (R * R)) : option R := match l with [] => None | _ => Some (Rsum (map (fun wv => fst wv * fst wv * snd wv) l)) end.
Lemma vsum_snoc l (w v : R) : vsumR (l ++ [(w, v)]) = Some (match vsumR l with Some s => s | None => 0 end + v * w * w).
Proof.
  assert (E : vsumR (l ++ [(w, v)]) = Some (Rsum (map (fun wv => fst wv * fst wv * snd wv) (l ++ [(w, v)])))) by (destruct l; reflexivity). rewrite E.
  f_equal. rewrite map_app, Rsum_app. unfold vsumR. destruct l as [|a l]; cbn [map fst snd]; rewrite ?Rsum_cons, ?Rsum_nil; cbn [fst snd]; lra.
Qed.
Lemma wsum_snoc (l : list (R * R)) (w v : R) : Rsum (map fst (l ++ [(w, v)])) = Rsum (map fst l) + w.
Proof. rewrite map_app, Rsum_app. cbn [map fst]. rewrite Rsum_cons, Rsum_nil. lra. Qed.
(** the weight array of the code, as a real number *)
Lemma weight_ok c m vs (w : nat -> RN) : var_weight RN c m vs = inl (Some w) -> (forall n v, In (n, v) vs -> n = 0%nat -> v_last _ v = m_var _ m 0%nat) ->
  forall p, (w p = Some (wgt c m p) \/ (wgt c m p = 0 /\ w p = None)).
Proof.
  intros H L p. unfold var_weight in H. unfold wgt. destruct (c_wt _ c).
  - destruct (find (fun nv => Nat.eqb (fst nv) 0) vs) as [[n v]|] eqn:E; [|discriminate]. apply find_some in E. destruct E as [I Z]. cbn [fst] in Z. apply Nat.eqb_eq in Z. pose proof (L n v I Z) as Lv.
    destruct (v_last _ v) as [rn|]; [|discriminate]. injection H as <-. rewrite <- Lv. left. unfold ivm_weight, fgt. cbn [flt fzero RN fone fisfinite]. change (F RN) with (option R) in *. destruct (rn p) as [x|]; [|reflexivity].
    cbn [rncmp]. rewrite andb_true_r. destruct (Rltb 0 x) eqn:Q; [|reflexivity]. cbn [fdiv RN]. apply Rltb_spec in Q. unfold Reqb. destruct (Req_EM_T x 0); [lra|]. f_equal. unfold Rdiv. lra.
  - unfold tmeasure in H. destruct (m_meas _ m) as [t|]; cbn [fst] in H.
    + injection H as <-. destruct t; [left; reflexivity|right; split; reflexivity].
    + destruct (m_exp _ m) as [t|]; [|discriminate]. injection H as <-. destruct t; [left; reflexivity|right; split; reflexivity].
Qed.
Lemma store_in (fo : FOps) m (vs : list (nat * vinfo fo)) n v : In (n, v) (store_vars fo m vs) -> exists v0, In (n, v0) vs /\ v_sum _ v = v_sum _ v0 /\ v_wt _ v = v_wt _ v0 /\ (forall a, m_var _ m n = Some a -> v_last _ v = Some a) /\ (m_var _ m n = None -> v = v0).
Proof.
  unfold store_vars. intro I. apply in_map_iff in I. destruct I as [[n' v'] [E I]]. destruct (m_var _ m n') as [a|] eqn:Q; injection E as <- <-; exists v'; (split; [exact I|]); cbn; (split; [reflexivity|]); (split; [reflexivity|]); split; congruence.
Qed.
Definition vinv (c : rcfg RN) (l : list (rmodel RN)) (vs : list (nat * vinfo RN)) : Prop :=
  forall n v p, In (n, v) vs -> v_sum _ v p = vsumR (concat (map (contrib c n p) l)) /\ v_wt _ v p = Some (Rsum (map fst (concat (map (contrib c n p) l)))).
Lemma add_vars_inv c m l vs vs' : (c_wt _ c = Ivm -> m_var _ m 0%nat <> None) -> vinv c l vs -> add_vars RN c m vs = (vs', None) ->
  (exists w, var_weight RN c m (store_vars RN m vs) = inl (Some w)) -> vinv c (l ++ [m]) vs'.
Proof.
  intros Hm H E [w W]. unfold add_vars in E. rewrite W in E. injection E as <-. intros n v p I. apply in_map_iff in I. destruct I as [[n' v'] [E I]]. cbn [fst snd] in E.
  destruct (store_in _ _ _ _ _ I) as (v0 & I0 & S1 & S2 & S3 & S4). destruct (H n' v0 p I0) as [H1 H2].
  assert (nn : n = n') by (destruct (m_var _ m n'); injection E as -> _; reflexivity). subst n'.
  assert (Wp : w p = Some (wgt c m p) \/ (wgt c m p = 0 /\ w p = None)).
  { destruct (c_wt _ c) eqn:Cw.
    - apply (weight_ok c m _ w W). intros k u Ik ->. destruct (store_in _ _ _ _ _ Ik) as (u0 & _ & _ & _ & T3 & _). specialize (Hm eq_refl). destruct (m_var _ m 0%nat) as [a|]; [apply T3; reflexivity|congruence].
    - unfold var_weight in W. rewrite Cw in W. unfold wgt. rewrite Cw. unfold tmeasure in W. destruct (m_meas _ m) as [t|]; cbn [fst] in W.
      + injection W as <-. destruct t; [left; reflexivity|right; split; reflexivity].
      + destruct (m_exp _ m) as [t|]; [|discriminate]. injection W as <-. destruct t; [left; reflexivity|right; split; reflexivity]. }
  rewrite map_app, concat_app. cbn [map concat]. rewrite app_nil_r. unfold contrib at 2 4.
  destruct (m_var _ m n) as [a|] eqn:Q.
  - injection E as <-. unfold accumulate. rewrite (S3 a eq_refl). cbn [v_sum v_wt]. rewrite S1, S2. unfold fge, fgt. cbn [fle flt fzero RN fisfinite fadd fmul]. change (F RN) with (option R) in *.
    destruct (a p) as [x|]; [|cbn [rncmp andb]; rewrite app_nil_r; split; assumption]. cbn [rncmp]. unfold Rleb. destruct (Rle_dec 0 x) as [Lx|Lx]; [|cbn [andb]; rewrite app_nil_r; split; assumption].
    cbn [andb]. destruct Wp as [Wp|[Wz Wp]]; rewrite Wp.
    + cbn [rncmp]. unfold Rltb. destruct (Rlt_dec 0 (wgt c m p)) as [Lw|Lw]; [|rewrite app_nil_r; split; assumption]. rewrite H1, H2. cbn [rn2]. split.
      * unfold nansum2. cbn [fadd fisnan fzero RN]. rewrite vsum_snoc. destruct (vsumR _) as [s|]; cbn [rn2]; f_equal; lra.
      * rewrite wsum_snoc. reflexivity.
    + cbn [rncmp]. rewrite Wz. destruct (Rlt_dec 0 0) as [K|_]; [lra|]. rewrite app_nil_r. split; assumption.
  - injection E as <-. rewrite app_nil_r, S1, S2. split; assumption.
Qed.
Section C45.
  Context {D : Type} (dadd : D -> rmodel RN -> D) (dinit : option D -> D).
  Notation add_all := (add_all RN D dadd). Notation finalize := (finalize RN D). Notation create := (create RN D dinit).
  Lemma vars_run (c : rcfg RN) (l : list (rmodel RN)) : c_var _ c = true -> Forall (accepted c) l ->
    exists s, add_all c (create c) l = (s, None) /\ vinv c l (s_vars _ _ s) /\ s_fin _ _ s = false /\ map fst (s_vars _ _ s) = c_names _ c /\
      s_ratio _ _ s = match c_ratio _ c with Some r => Some r | None => first_some (m_ratio _) l end /\ s_n _ _ s = length l.
  Proof.
    intros Cv. induction l as [|m l IH] using rev_ind; intro A.
    - exists (create c). split; [reflexivity|]. split; [|split; [reflexivity|split; [cbn [ResModel.create s_vars]; unfold init_vars; rewrite Cv, map_map; apply map_id|split; [cbn; destruct (c_ratio _ c); reflexivity|reflexivity]]]].
      intros n v p I. cbn [ResModel.create s_vars] in I. unfold init_vars in I. rewrite Cv in I. apply in_map_iff in I. destruct I as [k [E _]]. injection E as _ <-. cbn. split; reflexivity.
    - apply Forall_app in A. destruct A as [A B]. inversion B as [|? ? Am _]. subst. destruct (IH A) as (s & E & V & Fs & Nm & Rt & Nn). rewrite add_all_snoc, E. cbn [fst snd]. clear IH E.
      pose proof Am as (K & D2 & Hw). specialize (Hw Cv).
      unfold add_model. rewrite Fs, K, D2, Cv. cbn [negb]. set (s1 := count RN D _ m).
      assert (Q : s_fin _ _ s1 = false /\ s_vars _ _ s1 = s_vars _ _ s /\ s_ratio _ _ s1 = ratio_after RN D s m /\ s_n _ _ s1 = S (s_n _ _ s)).
      { unfold s1, count. cbn [set_driz bump s_groups s_driz s_ratio]. destruct (existsb _ (s_groups _ _ s)); [cbn; auto|]. destruct (tmeasure RN m); cbn; auto. }
      destruct Q as (Q1 & Q2 & Q3 & Q4). clearbody s1. rewrite Q2. destruct (add_vars_ok c m (s_vars _ _ s)) as [vs [Ev Nv]]; [exact Nm|exact Cv|exact Am|].
      rewrite Ev. eexists. split; [reflexivity|]. cbn [set_vars out_data s_fin s_vars s_ratio s_n]. split; [|split; [exact Q1|split; [exact Nv|split; [|rewrite Q4, Nn, app_length; cbn; lia]]]].
      + apply (add_vars_inv c m l (s_vars _ _ s)); [intro X; rewrite X in Hw; apply Hw|exact V|exact Ev|].
        unfold var_weight. destruct (c_wt _ c).
        * destruct Hw as [I0 N0]. destruct (find (fun nv => Nat.eqb (fst nv) 0) (store_vars RN m (s_vars _ _ s))) as [[n v]|] eqn:Fd.
          -- apply find_some in Fd. destruct Fd as [If Z]. cbn [fst] in Z. apply Nat.eqb_eq in Z. subst n. destruct (store_in _ _ _ _ _ If) as (v0 & _ & _ & _ & T & _). destruct (m_var _ m 0%nat) as [a|]; [|congruence]. rewrite (T a eq_refl). eexists. reflexivity.
          -- exfalso. rewrite <- Nm, <- (store_names m (s_vars _ _ s)) in I0. apply in_map_iff in I0. destruct I0 as [[n v] [E1 E2]]. apply (find_none _ _ Fd) in E2. cbn [fst] in *. subst n. discriminate.
        * unfold tmeasure. destruct (m_meas _ m) as [t|]; [eexists; reflexivity|]. cbn [fst]. destruct (m_exp _ m) as [t|]; [eexists; reflexivity|]. destruct Hw; congruence.
      + rewrite Q3. unfold ratio_after. rewrite Rt. destruct (c_ratio _ c) as [r|]; [reflexivity|]. clear. induction l as [|x l IH]; cbn [first_some app]; [destruct (m_ratio _ m); reflexivity|]. destruct (m_ratio _ x); [reflexivity|exact IH].
  Qed.
  (** C45: the combined variance of every array at every output pixel *)
  Theorem C45_combined (c : rcfg RN) (l : list (rmodel RN)) (r : option R) : c_var _ c = true -> Forall (accepted c) l ->
    match c_ratio _ c with Some r => Some r | None => first_some (m_ratio _) l end = option_map Some r -> (forall x, r = Some x -> 0 < x) ->
    exists s s' e, add_all c (create c) l = (s, None) /\ finalize c s = (s', e) /\ map fst (o_vars _ _ (s_out _ _ s')) = c_names _ c /\
      forall n v p, In (n, v) (o_vars _ _ (s_out _ _ s')) -> v p = combined (vscale c r) (concat (map (contrib c n p) l)).
  Proof.
    intros Cv A Rr Rp. destruct (vars_run c l Cv A) as (s & E & V & Fs & Nm & Rt & Nn). exists s. destruct (finalize c s) as [s' e] eqn:Fz. exists s', e. split; [exact E|]. split; [reflexivity|].
    assert (O : o_vars _ _ (s_out _ _ s') = map (fun nv => (fst nv, final_var RN (var_scaling RN c (s_ratio _ _ s)) (snd nv))) (s_vars _ _ s)).
    { unfold ResModel.finalize in Fz. rewrite Fs, Cv in Fz. destruct (Nat.eqb (s_n _ _ s) 0); [injection Fz as <- _; reflexivity|]. destruct (pymin RN (s_starts _ _ s)); [|injection Fz as <- _; reflexivity]. destruct (pymax RN (s_ends _ _ s)); injection Fz as <- _; reflexivity. }
    rewrite O. split; [rewrite map_map; exact Nm|]. intros n v p I. apply in_map_iff in I. destruct I as [[n' v'] [Q I]]. cbn [fst snd] in Q. injection Q as -> <-. destruct (V n v' p I) as [V1 V2]. unfold final_var. rewrite V1, V2.
    assert (Sc : var_scaling RN c (s_ratio _ _ s) = Some (vscale c r)).
    { rewrite Rt, Rr. destruct r as [x|]; cbn [option_map var_scaling vscale]; [|reflexivity]. destruct (c_imaging _ c); [|reflexivity]. cbn [fdiv fmul fone RN rn2]. unfold Reqb. specialize (Rp x eq_refl). destruct (Req_EM_T (x * x) 0) as [Z|_]; [nra|]. f_equal. unfold Rdiv. lra. }
    rewrite Sc. set (k := concat (map (contrib c n p) l)).
    assert (Pos : forall wv, In wv k -> 0 < fst wv).
    { intros wv Iw. unfold k in Iw. apply in_concat in Iw. destruct Iw as [q [Iq Iw]]. apply in_map_iff in Iq. destruct Iq as [m [<- _]]. unfold contrib in Iw. destruct (m_var _ m n) as [a|]; [|destruct Iw]. change (F RN) with (option R) in *. destruct (a p) as [x|]; [|destruct Iw]. destruct (Rle_dec 0 x); [|destruct Iw]. destruct (Rlt_dec 0 (wgt c m p)); [|destruct Iw]. destruct Iw as [<-|[]]. assumption. }
    destruct k as [|wv k]; [reflexivity|]. unfold combined, vsumR.
    assert (P : 0 < Rsum (map fst (wv :: k))).
    { clear - Pos. rewrite map_cons, Rsum_cons. pose proof (Pos wv (or_introl eq_refl)). assert (0 <= Rsum (map fst k)); [|lra]. assert (Pk : forall x, In x k -> 0 < fst x) by (intros x Ix; apply Pos; right; exact Ix). clear - Pk. induction k as [|x k IH]; [cbn [map]; rewrite Rsum_nil; lra|]. rewrite map_cons, Rsum_cons. pose proof (Pk x (or_introl eq_refl)). assert (0 <= Rsum (map fst k)) by (apply IH; intros y Iy; apply Pk; right; exact Iy). lra. }
    cbn [fdiv fmul RN rn2]. unfold Reqb. destruct (Req_EM_T (Rsum (map fst (wv :: k))) 0) as [Z|_]; [lra|]. f_equal. field. lra.
  Qed.
  (** C45, order: the combined variance depends only on the multiset of models, given the ratio *)
  Theorem C45_order (c : rcfg RN) (l l' : list (rmodel RN)) (r : option R) : c_var _ c = true -> Forall (accepted c) l -> Permutation l l' ->
    match c_ratio _ c with Some r => Some r | None => first_some (m_ratio _) l end = option_map Some r ->
    match c_ratio _ c with Some r => Some r | None => first_some (m_ratio _) l' end = option_map Some r -> (forall x, r = Some x -> 0 < x) ->
    exists s s' e t t' e', add_all c (create c) l = (s, None) /\ finalize c s = (s', e) /\ add_all c (create c) l' = (t, None) /\ finalize c t = (t', e') /\
      forall n v v' p, In (n, v) (o_vars _ _ (s_out _ _ s')) -> In (n, v') (o_vars _ _ (s_out _ _ t')) -> v p = v' p.
  Proof.
    intros Cv A P R1 R2 Rp. assert (A' : Forall (accepted c) l') by (eapply Permutation_Forall; eassumption).
    destruct (C45_combined c l r Cv A R1 Rp) as (s & s' & e & E1 & E2 & _ & E3). destruct (C45_combined c l' r Cv A' R2 Rp) as (t & t' & e' & K1 & K2 & _ & K3).
    exists s, s', e, t, t', e'. repeat (split; [assumption|]). intros n v v' p I I'. rewrite (E3 n v p I), (K3 n v' p I').
    assert (Q : Permutation (concat (map (contrib c n p) l)) (concat (map (contrib c n p) l'))).
    { clear - P. induction P; cbn [map concat]; [constructor|apply Permutation_app_head; assumption| |etransitivity; eassumption]. rewrite !app_assoc. apply Permutation_app_tail, Permutation_app_comm. }
    unfold combined. pose proof (Permutation_length Q) as Ql. rewrite (Rsum_perm _ _ (Permutation_map (fun wv => fst wv * fst wv * snd wv) Q)), (Rsum_perm _ _ (Permutation_map fst Q)).
    destruct (concat (map (contrib c n p) l)), (concat (map (contrib c n p) l')); cbn [length] in Ql; try discriminate; reflexivity.
  Qed.
End C45.

(** C45, nothing valid, any number type with the IEEE comparison laws (binary32, binary64): a pixel no model has a valid
    variance for ends as NaN, whatever the weights *)
Theorem C45_missing (fo : FOps) (L : FLaws fo) (NN : fisnan fo (fnan fo) = true) (D : Type) dadd dinit (c : rcfg fo) (l : list (rmodel fo)) s n p :
  c_var _ c = true -> add_all fo D dadd c (create fo D dinit c) l = (s, None) ->
  (forall m a, In m l -> m_var _ m n = Some a -> fle fo (fzero fo) (a p) && fisfinite fo (a p) = false) ->
  forall v, In (n, v) (o_vars _ _ (s_out _ _ (fst (finalize fo D c s)))) -> fisnan fo (v p) = true.
Proof.
  intros Cv E H.
  assert (G : s_fin _ _ s = false /\ forall v, In (n, v) (s_vars _ _ s) -> v_sum _ v p = fnan fo).
  { revert s E H. induction l as [|m l IH] using rev_ind; intros s E H.
    - injection E as <-. split; [reflexivity|]. intros v I. cbn [create s_vars] in I. unfold init_vars in I. rewrite Cv in I. apply in_map_iff in I. destruct I as [k [E _]]. injection E as _ <-. reflexivity.
    - rewrite add_all_snoc in E. destruct (add_all fo D dadd c (create fo D dinit c) l) as [s0 [e|]]; cbn [fst snd] in E; [discriminate|]. destruct (IH s0 eq_refl (fun m' a I => H m' a (in_or_app _ _ _ (or_introl I)))) as [F0 V0]. clear IH.
      unfold add_model in E. rewrite F0 in E. destruct (negb (m_keys _ m)); [discriminate|]. destruct (negb (m_dim2 _ m)); [discriminate|]. rewrite Cv in E. set (s1 := count fo D _ m) in E.
      assert (Q : s_fin _ _ s1 = false /\ s_vars _ _ s1 = s_vars _ _ s0). { unfold s1, count. cbn [set_driz bump s_groups s_driz s_ratio]. destruct (existsb _ (s_groups _ _ s0)); [cbn; auto|]. destruct (tmeasure fo m); cbn; auto. }
      destruct Q as [Q1 Q2]. clearbody s1. rewrite Q2 in E. destruct (add_vars fo c m (s_vars _ _ s0)) as [vs [e|]] eqn:Ev; [discriminate|]. injection E as <-. split; [exact Q1|]. cbn [set_vars out_data s_vars]. intros v I.
      assert (St : forall u, In (n, u) (store_vars fo m (s_vars _ _ s0)) -> v_sum _ u p = fnan fo) by (intros u Iu; destruct (store_in _ _ _ _ _ Iu) as (u0 & I0 & -> & _); apply V0, I0).
      unfold add_vars in Ev. destruct (var_weight fo c m (store_vars fo m (s_vars _ _ s0))) as [[w|]|e]; [|injection Ev as <- _; apply St, I|injection Ev as <- _; apply St, I].
      injection Ev as <-. apply in_map_iff in I. destruct I as [[n' u] [E I]]. cbn [fst snd] in E. destruct (m_var _ m n') as [a|] eqn:Ma; [|injection E as -> <-; apply St, I].
      injection E as -> <-. unfold accumulate. destruct (store_in _ _ _ _ _ I) as (u0 & _ & _ & _ & T & _). rewrite (T a Ma). cbn [v_sum]. unfold fge. rewrite (H m a ltac:(apply in_or_app; right; left; reflexivity) Ma). cbn [andb]. apply St, I. }
  destruct G as [F0 V0]. intros v I.
  assert (O : o_vars _ _ (s_out _ _ (fst (finalize fo D c s))) = map (fun nv => (fst nv, final_var fo (var_scaling fo c (s_ratio _ _ s)) (snd nv))) (s_vars _ _ s)).
  { unfold finalize. rewrite F0, Cv. destruct (Nat.eqb (s_n _ _ s) 0); [reflexivity|]. destruct (pymin fo (s_starts _ _ s)); [|reflexivity]. destruct (pymax fo (s_ends _ _ s)); reflexivity. }
  rewrite O in I. apply in_map_iff in I. destruct I as [[k u] [E2 I]]. cbn [fst snd] in E2. injection E2 as -> <-. unfold final_var. rewrite (V0 u I). apply (div_nan_l _ L), (div_nan_l _ L), (mul_nan_l _ L), NN.
Qed.
(** C82: the pixel scale ratio a run ends with is the given one, else the first one that can be determined *)
Theorem C82_ratio (fo : FOps) (D : Type) dadd dinit (c : rcfg fo) (l : list (rmodel fo)) s : add_all fo D dadd c (create fo D dinit c) l = (s, None) ->
  s_ratio _ _ s = match c_ratio _ c with Some r => Some r | None => first_some (m_ratio _) l end.
Proof.
  intro E. assert (G : s_fin _ _ s = false /\ s_ratio _ _ s = match c_ratio _ c with Some r => Some r | None => first_some (m_ratio _) l end); [|apply G].
  revert s E. induction l as [|m l IH] using rev_ind; intros s E.
  - injection E as <-. split; [reflexivity|]. cbn. destruct (c_ratio _ c); reflexivity.
  - rewrite add_all_snoc in E. destruct (add_all fo D dadd c (create fo D dinit c) l) as [s0 [e|]]; cbn [fst snd] in E; [discriminate|]. destruct (IH s0 eq_refl) as [F0 R0]. clear IH.
    unfold add_model in E. rewrite F0 in E. destruct (negb (m_keys _ m)); [discriminate|]. destruct (negb (m_dim2 _ m)); [discriminate|]. set (s1 := count fo D _ m) in E.
    assert (Q : s_fin _ _ s1 = false /\ s_ratio _ _ s1 = ratio_after fo D s0 m). { unfold s1, count. cbn [set_driz bump s_groups s_driz s_ratio]. destruct (existsb _ (s_groups _ _ s0)); [cbn; auto|]. destruct (tmeasure fo m); cbn; auto. }
    destruct Q as [Q1 Q2]. clearbody s1. destruct (if c_var _ c then _ else _) as [vs [e|]]; [discriminate|]. injection E as <-. cbn [set_vars out_data s_fin s_ratio]. split; [exact Q1|]. rewrite Q2. unfold ratio_after. rewrite R0. destruct (c_ratio _ c) as [r|]; [reflexivity|].
    clear. induction l as [|x l IH]; cbn [first_some app]; [destruct (m_ratio _ m); reflexivity|]. destruct (m_ratio _ x); [reflexivity|exact IH].
Qed.

(** *** C81, error arrays *)
Definition present (l : list (option R)) : list R := flat_map (fun o => match o with Some x => [x] | None => [] end) l.
Lemma nansum_R (l : list (option R)) : nansum RN l = Some (Rsum (present l)).
Proof.
  unfold nansum. cbn [fadd fisnan fzero RN]. assert (G : forall l (a : R), fold_left (fun s x : option R => rn2 Rplus s (if match x with Some _ => false | None => true end then Some 0 else x)) l (Some a) = Some (a + Rsum (present l))).
  { clear. induction l as [|o l IH]; intro a; cbn [fold_left present flat_map]; [rewrite Rsum_nil; f_equal; lra|]. destruct o as [x|]; cbn [rn2]; rewrite IH; unfold present; cbn [app]; rewrite ?Rsum_cons; f_equal; lra. }
  etransitivity; [apply G|]. f_equal. lra.
Qed.
(** the error from variances is the square root of the sum of the components that are numbers, NaN when none is *)
Theorem C81_from_var (c : rcfg RN) (l : list (option R)) : c_var _ c = true -> (forall x, In (Some x) l -> 0 <= x) ->
  from_var RN c l = Some (match present l with [] => None | _ => Some (sqrt (Rsum (present l))) end).
Proof.
  intros Cv H. unfold from_var. rewrite Cv. f_equal. destruct (forallb (fisnan RN) l) eqn:E.
  - replace (present l) with (@nil R); [reflexivity|]. symmetry. revert E. clear. induction l as [|[x|] l IH]; cbn [forallb fisnan RN present flat_map]; [reflexivity|discriminate|]. intro E. apply IH, E.
  - transitivity (Some (sqrt (Rsum (present l)))).
    + rewrite nansum_R. cbn [fsqrt RN]. destruct (Rltb (Rsum (present l)) 0) eqn:Q; [|reflexivity]. apply Rltb_spec in Q. exfalso. assert (0 <= Rsum (present l)); [|lra]. clear - H. induction l as [|o l IH]; cbn [present flat_map]; [rewrite Rsum_nil; lra|]. assert (0 <= Rsum (present l)) by (apply IH; intros x I; apply H; right; exact I). destruct o as [x|]; cbn [app]; [rewrite Rsum_cons; pose proof (H x (or_introl eq_refl)); unfold present in *; lra|assumption].
    + destruct (present l) eqn:Pl; [|reflexivity]. exfalso. revert E Pl. clear. induction l as [|[x|] l IH]; cbn [forallb fisnan RN present flat_map app]; [discriminate|discriminate|]. intros E P. apply (IH E P).
Qed.
(** the scale of drizzled errors and that of variances agree: the square of a scaled error is the scaled square *)
Theorem C81_scales (c : rcfg RN) (r e : R) : 0 < r ->
  exists e', driz_err RN c (Some (Some r : RN)) (Some e : RN) = Some e' /\ e' * e' = vscale c (Some r) * (e * e) /\ var_scaling RN c (Some (Some r : RN)) = Some (vscale c (Some r)).
Proof.
  intro H. unfold driz_err, err_scaling, var_scaling, vscale. assert (S : 0 < sqrt r) by (apply sqrt_lt_R0, H). pose proof (sqrt_sqrt r (Rlt_le _ _ H)) as Sq. destruct (c_imaging _ c).
  - cbn [fdiv RN fone fmul rn2]. unfold Reqb. destruct (Req_EM_T r 0); [lra|]. destruct (Req_EM_T (r * r) 0) as [Z|_]; [nra|]. exists (e / r). split; [reflexivity|]. split; [field; lra|]. f_equal. field. lra.
  - cbn [fdiv RN fone fsqrt]. unfold Rltb, Reqb. destruct (Rlt_dec r 0); [lra|]. destruct (Req_EM_T (sqrt r) 0); [lra|]. assert (1 / sqrt r <> 0) by (apply Rgt_not_eq; unfold Rdiv; rewrite Rmult_1_l; apply Rinv_0_lt_compat, S). destruct (Req_EM_T (1 / sqrt r) 0); [congruence|]. exists (e / (1 / sqrt r)). split; [reflexivity|]. split; [|reflexivity]. rewrite <- Sq at 3. field. lra.
Qed.
(** the documentation's "from_var assumes enable_var": without enable_var no error array is made *)
Theorem C81_enable_var_refuted : exists c l, from_var B64 c l = None.
Proof. exists {| c_var := false; c_wt := Ivm; c_names := [0%nat]; c_imaging := true; c_ratio := None |}, [fofZ B64 4]. reflexivity. Qed.
Print Assumptions C45_combined.
Print Assumptions C45_order.
Print Assumptions C45_missing.
Print Assumptions C82_ratio.
Print Assumptions C81_from_var.
Print Assumptions C81_scales.
Print Assumptions C81_enable_var_refuted.

(** *** examples *)
Definition exv (g : nat) (rn po : option R) (ratio : option RN) : rmodel RN :=
  {| m_group := g; m_start := Some 0 : RN; m_end := Some 1 : RN; m_exp := Some (Some 5 : RN); m_meas := None; m_dur := None; m_keys := true; m_dim2 := true; m_ratio := ratio;
     m_var := fun n => match n with 0%nat => Some (fun _ => rn : RN) | _ => Some (fun _ => po : RN) end |}.
Definition exvc : rcfg RN := {| c_var := true; c_wt := Ivm; c_names := [0%nat; 1%nat]; c_imaging := true; c_ratio := None |}.
Definition exvl := [exv 1 (Some (1/2)) (Some 3) None; exv 2 (Some (1/4)) None (Some (Some 2 : RN)); exv 3 (Some 0) (Some 3) (Some (Some 3 : RN))].
Example exv_ok : c_var _ exvc = true /\ Forall (accepted exvc) exvl /\ match c_ratio _ exvc with Some r => Some r | None => first_some (m_ratio _) exvl end = option_map Some (Some 2) /\ (forall x, Some 2 = Some x -> 0 < x).
Proof.
  split; [reflexivity|]. split; [|split; [reflexivity|intros x H; injection H as <-; lra]].
  repeat constructor; cbn; auto; discriminate.
Qed.
(** rnoise: weights 2 and 4, scale 1/4: (4/2 + 16/4)/36/4; the third model has variance 0, no weight; poisson: only the first counts *)
Example exv_rn : combined (vscale exvc (Some 2)) (concat (map (contrib exvc 0 7) exvl)) = Some (1/24) /\ combined (vscale exvc (Some 2)) (concat (map (contrib exvc 1 7) exvl)) = Some (3/4).
Proof.
  unfold exvl, vscale. cbn [map]. unfold contrib, wgt. cbn [exv exvc m_var c_wt c_imaging]. replace (Rltb 0 (1 / 2)) with true by (symmetry; apply Rltb_spec; lra). replace (Rltb 0 (1 / 4)) with true by (symmetry; apply Rltb_spec; lra). replace (Rltb 0 0) with false by (unfold Rltb; destruct (Rlt_dec 0 0); [lra|reflexivity]). replace (/ (1 / 2)) with 2 by field. replace (/ (1 / 4)) with 4 by field.
  repeat match goal with |- context [Rlt_dec ?a ?b] => destruct (Rlt_dec a b) as [?|?]; [try (exfalso; lra)|try (exfalso; lra)] end.
  all: repeat match goal with |- context [Rle_dec ?a ?b] => destruct (Rle_dec a b) as [?|?]; [try (exfalso; lra)|try (exfalso; lra)] end.
  all: split; unfold combined; cbn [concat app map fst snd]; rewrite ?Rsum_cons, ?Rsum_nil; apply (f_equal Some); field.
Qed.
Example exv_order : Permutation exvl [exv 2 (Some (1/4)) None (Some (Some 2 : RN)); exv 1 (Some (1/2)) (Some 3) None; exv 3 (Some 0) (Some 3) (Some (Some 3 : RN))].
Proof. unfold exvl. apply perm_swap. Qed.
Example ex_from_var : from_var RN exvc [Some 9; None; Some 16] = Some (Some 5).
Proof.
  rewrite C81_from_var; [|reflexivity|intros x [H|[H|[H|[]]]]; try discriminate; injection H as <-; lra]. cbn [present flat_map app]. f_equal. f_equal. replace (Rsum [9; 16]) with (5 * 5) by (rewrite !Rsum_cons, Rsum_nil; lra). apply sqrt_square. lra.
Qed.

(** *** refutations, on machine numbers *)
Definition b4 (z : Z) : B64 := fofZ B64 z.
Definition exw (g : nat) (rn po : option Z) (ratio : option Z) : rmodel B64 :=
  {| m_group := g; m_start := b4 0; m_end := b4 1; m_exp := Some (b4 5); m_meas := None; m_dur := None; m_keys := true; m_dim2 := true; m_ratio := option_map b4 ratio;
     m_var := fun n => match n with 0%nat => option_map (fun z _ => b4 z) rn | _ => option_map (fun z _ => b4 z) po end |}.
Definition exwc : rcfg B64 := {| c_var := true; c_wt := Ivm; c_names := [0%nat; 1%nat]; c_imaging := true; c_ratio := None |}.
Definition final1 (l : list (rmodel B64)) : option (list spec_float) :=
  match add_all B64 nat (fun d _ => S d) exwc (create B64 nat (fun _ => 0%nat) exwc) l with
  | (s, None) => Some (map (fun nv => snd nv 0%nat : spec_float) (o_vars _ _ (s_out _ _ (fst (finalize B64 nat exwc s)))))
  | _ => None
  end.
(** a model without readnoise variance is weighted with the readnoise of the model before it: exchanging the models before it
    changes the combined Poisson variance *)
Theorem C45_stale_refuted : exists a b m, m_var _ m 0%nat = None /\ final1 [a; b; m] <> final1 [b; a; m] /\ final1 [a; b; m] <> None /\ final1 [b; a; m] <> None.
Proof. exists (exw 1 (Some 1%Z) (Some 1%Z) None), (exw 2 (Some 4%Z) (Some 1%Z) None), (exw 3 None (Some 8%Z) None). vm_compute. repeat split; discriminate. Qed.
(** when no model so far had it, adding the model fails, after its data and its group have been counted *)
Theorem C45_unbound_refuted : exists m, let '(s, e) := add_model B64 nat (fun d _ => S d) exwc (create B64 nat (fun _ => 0%nat) exwc) m in
  e = Some Unbound /\ s_driz _ _ s = Some 1%nat /\ s_groups _ _ s = [m_group _ m].
Proof. exists (exw 3 None (Some 8%Z) None). vm_compute. repeat split; reflexivity. Qed.
(** without a given ratio the scale is that of the first model: the order of the models matters *)
Theorem C45_ratio_order_refuted : exists a b, m_var _ a 0%nat <> None /\ m_var _ b 0%nat <> None /\ final1 [a; b] <> final1 [b; a].
Proof. exists (exw 1 (Some 1%Z) (Some 1%Z) (Some 1%Z)), (exw 2 (Some 4%Z) (Some 1%Z) (Some 2%Z)). split; [discriminate|]. split; [discriminate|]. vm_compute. discriminate. Qed.
Print Assumptions C45_stale_refuted.
Print Assumptions C45_unbound_refuted.
Print Assumptions C45_ratio_order_refuted.
(** C45_missing on binary64: NaN variances only *)
Example ex_missing : let m := {| m_group := 1; m_start := b4 0; m_end := b4 1; m_exp := None; m_meas := None; m_dur := None; m_keys := true; m_dim2 := true; m_ratio := None; m_var := fun _ => Some (fun _ => fnan B64) |} in
  FLaws B64 /\ fisnan B64 (fnan B64) = true /\ snd (add_all B64 nat (fun d _ => S d) exwc (create B64 nat (fun _ => 0%nat) exwc) [m]) = None /\
  (forall m' a, In m' [m] -> m_var _ m' 0%nat = Some a -> fle B64 (fzero B64) (a 0%nat) && fisfinite B64 (a 0%nat) = false).
Proof. split; [apply ieee_laws; reflexivity|]. split; [reflexivity|]. split; [reflexivity|]. intros m' a [<-|[]] H. injection H as <-. reflexivity. Qed.
