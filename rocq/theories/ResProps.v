(** C44: bookkeeping of the resampling class. *)
From Verif Require Import Base BaseLemmas FLaws RBase RNBase ResModel ResSpec ResProofs.
From Coq Require Import Reals Lra Lia Permutation.
Local Open Scope R_scope.

Section C44.
  Context {D : Type} (dadd : D -> rmodel RF -> D) (dinit : option D -> D).
  Notation add_all := (add_all RF D dadd). Notation finalize := (finalize RF D). Notation create := (create RF D dinit).
  (** a run from any state that has not seen the groups, kept here for fresh and for reset objects *)
  Lemma product (c : rcfg RF) (s0 : rstate RF D) (l : list (rmodel RF)) : s_fin _ _ s0 = false -> (forall m, In m l -> ~ In (m_group _ m) (s_groups _ _ s0)) -> (c_var _ c = true -> map fst (s_vars _ _ s0) = c_names _ c) ->
    s_texp _ _ s0 = 0 -> s_tdur _ _ s0 = 0 -> s_tmeas _ _ s0 = 0 -> s_starts _ _ s0 = [] -> s_ends _ _ s0 = [] -> s_success _ _ s0 = [] -> o_meas _ _ (s_out _ _ s0) = None ->
    l <> [] -> Forall (accepted c) l ->
    exists (s s' : rstate RF D) (st en : R), add_all c s0 l = (s, None) /\ finalize c s = (s', None) /\ s_fin _ _ s' = true /\
      o_pointings _ _ (s_out _ _ s') = (length (s_groups _ _ s0) + length (nodup Nat.eq_dec (map (m_group _) l)))%nat /\
      o_data _ _ (s_out _ _ s') = option_map (fold_left dadd l) (s_driz _ _ s0) /\
      o_exp _ _ (s_out _ _ s') = Rsum (map (fun m => orz (m_exp RF m)) (firsts l)) /\
      o_dur _ _ (s_out _ _ s') = Rsum (map (fun m => orz (m_dur RF m)) (firsts l)) /\
      o_start _ _ (s_out _ _ s') = Some st /\ least st (map (m_start RF) (firsts l)) /\
      o_end _ _ (s_out _ _ s') = Some en /\ largest en (map (m_end RF) (firsts l)) /\
      ((forall m, In m (firsts l) -> m_meas RF m <> None) -> o_meas _ _ (s_out _ _ s') = Some (Rsum (map (fun m => orz (m_meas RF m)) (firsts l)))) /\
      (forall m, In m (firsts l) -> m_meas RF m = None -> o_meas _ _ (s_out _ _ s') = None).
  Proof.
    intros F0 G0 N0 E0 U0 M0 S0 T0 X0 O0 Ne A. destruct (run_ok dadd c s0 l F0 G0 N0 A) as [s [E R]]. destruct R as [Rf Rn Rg Rd Rv Re Ru Rm Rs Rt Ro Rq].
    rewrite S0 in Rs. rewrite T0 in Rt. rewrite X0 in Ro. rewrite O0 in Rq. cbn [app] in Rs, Rt, Ro.
    assert (Fn : firsts l <> []). { intro H. destruct l as [|m l]; [congruence|]. assert (In (m_group _ m) (map (m_group _) (firsts (m :: l)))) as I by (apply groups_in; left; reflexivity). rewrite H in I. destruct I. }
    destruct (pymin RF (s_starts _ _ s)) as [st|] eqn:Pm; [|rewrite Rs in Pm; destruct (firsts l); [congruence|discriminate]].
    destruct (pymax RF (s_ends _ _ s)) as [en|] eqn:Px; [|rewrite Rt in Px; destruct (firsts l); [congruence|discriminate]].
    assert (Nz : Nat.eqb (s_n _ _ s) 0 = false) by (apply Nat.eqb_neq; rewrite Rn; destruct l; [congruence|cbn; lia]).
    exists s. eexists. exists st, en. split; [exact E|]. unfold ResModel.finalize. rewrite Rf, Nz, Pm, Px. split; [reflexivity|]. cbn [s_fin s_out o_pointings o_data o_exp o_dur o_start o_end o_meas].
    split; [reflexivity|]. split; [rewrite Rg, app_length, map_length, groups_count; reflexivity|]. split; [rewrite Rd; destruct (s_driz _ _ s0); reflexivity|].
    split; [rewrite Re, E0; etransitivity; [apply sum_opt_R|]; rewrite map_map; cbn; lra|].
    split; [rewrite Ru, U0; etransitivity; [apply sum_opt_R|]; rewrite map_map; cbn; lra|].
    split; [reflexivity|]. split; [rewrite <- Rs; apply pymin_least, Pm|]. split; [reflexivity|]. split; [rewrite <- Rt; apply pymax_largest, Px|]. split.
    - intro H. replace (forallb (fun b => b) (s_success _ _ s)) with true.
      + f_equal. rewrite Rm, M0. etransitivity; [apply sum_opt_R|]. rewrite map_map. etransitivity; [apply Rplus_0_l|]. f_equal. apply map_ext_in. intros m I. unfold tmeasure. specialize (H m I). destruct (m_meas RF m); [reflexivity|congruence].
      + symmetry. apply forallb_forall. rewrite Ro. intros b I. apply in_map_iff in I. destruct I as [m [<- I]]. unfold tmeasure. specialize (H m I). destruct (m_meas RF m); [reflexivity|congruence].
    - intros m I H. destruct (forallb (fun b => b) (s_success _ _ s)) eqn:Fb; [|exact Rq]. exfalso. apply (proj1 (forallb_forall _ _)) with (x := false) in Fb; [discriminate|]. rewrite Ro. apply in_map_iff. exists m. split; [|exact I]. unfold tmeasure. rewrite H. reflexivity.
  Qed.
  Lemma fresh_names c : c_var _ c = true -> map fst (s_vars _ _ (create c)) = c_names _ c.
  Proof. intro H. cbn [create s_vars]. unfold init_vars. rewrite H, map_map. apply map_id. Qed.

  (** C44, the product of a fresh object: each group counts once, with the times of its first model *)
  Theorem C44_product (c : rcfg RF) (l : list (rmodel RF)) : l <> [] -> Forall (accepted c) l ->
    exists (s s' : rstate RF D) (st en : R), add_all c (create c) l = (s, None) /\ finalize c s = (s', None) /\ s_fin _ _ s' = true /\
      o_pointings _ _ (s_out _ _ s') = length (nodup Nat.eq_dec (map (m_group _) l)) /\
      o_data _ _ (s_out _ _ s') = Some (fold_left dadd l (dinit None)) /\
      o_exp _ _ (s_out _ _ s') = Rsum (map (fun m => orz (m_exp RF m)) (firsts l)) /\
      o_dur _ _ (s_out _ _ s') = Rsum (map (fun m => orz (m_dur RF m)) (firsts l)) /\
      o_start _ _ (s_out _ _ s') = Some st /\ least st (map (m_start RF) (firsts l)) /\
      o_end _ _ (s_out _ _ s') = Some en /\ largest en (map (m_end RF) (firsts l)) /\
      ((forall m, In m (firsts l) -> m_meas RF m <> None) -> o_meas _ _ (s_out _ _ s') = Some (Rsum (map (fun m => orz (m_meas RF m)) (firsts l)))) /\
      (forall m, In m (firsts l) -> m_meas RF m = None -> o_meas _ _ (s_out _ _ s') = None).
  Proof. intros Ne A. exact (product c (create c) l eq_refl (fun _ _ I => I) (fresh_names c) eq_refl eq_refl eq_refl eq_refl eq_refl eq_refl eq_refl Ne A). Qed.

  Definition times (o : rout RF D) := (o_pointings _ _ o, o_exp _ _ o, o_dur _ _ o, o_start _ _ o, o_end _ _ o, o_meas _ _ o).
  (** C44, order: the counters and times depend only on the multiset of models when the models of a group agree on their times *)
  Theorem C44_order (c : rcfg RF) (l l' : list (rmodel RF)) : Permutation l l' -> consistent l -> l <> [] -> Forall (accepted c) l ->
    exists s s' t t', add_all c (create c) l = (s, None) /\ finalize c s = (s', None) /\ add_all c (create c) l' = (t, None) /\ finalize c t = (t', None) /\
      times (s_out _ _ s') = times (s_out _ _ t').
  Proof.
    intros P C Ne A. assert (Ne' : l' <> []) by (intros ->; apply Permutation_sym, Permutation_nil in P; congruence).
    assert (A' : Forall (accepted c) l') by (eapply Permutation_Forall; eassumption).
    destruct (C44_product c l Ne A) as (s & s' & st & en & Q1 & Q2 & _ & Q3 & _ & Q4 & Q5 & Q6 & Q7 & Q8 & Q9 & Q10 & Q11).
    destruct (C44_product c l' Ne' A') as (t & t' & st' & en' & K1 & K2 & _ & K3 & _ & K4 & K5 & K6 & K7 & K8 & K9 & K10 & K11).
    exists s, s', t, t'. split; [exact Q1|]. split; [exact Q2|]. split; [exact K1|]. split; [exact K2|].
    pose proof (firsts_perm l l' P C) as T.
    assert (Tf : forall X (f : RF * RF * option RF * option RF * option RF -> X), Permutation (map (fun m => f (tms m)) (firsts l)) (map (fun m => f (tms m)) (firsts l'))) by (intros X f; pose proof (fun k => map_map (@tms RF) f k) as Em; rewrite <- (Em (firsts l)), <- (Em (firsts l')); apply Permutation_map, T).
    unfold times. repeat apply (f_equal2 pair).
    - rewrite Q3, K3. rewrite <- !groups_count. apply Permutation_length in T. rewrite !map_length in T. exact T.
    - rewrite Q4, K4. apply Rsum_perm. apply (Tf R (fun '(_, _, e, _, _) => orz e)).
    - rewrite Q5, K5. apply Rsum_perm. apply (Tf R (fun '(_, _, _, _, d) => orz d)).
    - rewrite Q6, K6. f_equal. apply (least_perm st st' _ _ (Tf R (fun '(a, _, _, _, _) => a)) Q7 K7).
    - rewrite Q8, K8. f_equal. apply (largest_perm en en' _ _ (Tf R (fun '(_, b, _, _, _) => b)) Q9 K9).
    - pose proof (Tf (option R) (fun '(_, _, _, m, _) => m)) as Pm. change (Permutation (map (m_meas RF) (firsts l)) (map (m_meas RF) (firsts l'))) in Pm.
      assert (Dec : forall k : list (rmodel RF), (forall m, In m k -> m_meas _ m <> None) \/ exists m, In m k /\ m_meas _ m = None).
      { clear. induction k as [|m k IH]; [left; intros m []|]. destruct (m_meas _ m) as [x|] eqn:E; [|right; exists m; split; [left; reflexivity|exact E]]. destruct IH as [IH|[m' [I H]]]; [left; intros m' [<-|I]; [congruence|apply IH, I]|right; exists m'; split; [right; exact I|exact H]]. }
      destruct (Dec (firsts l)) as [Hl|[m [I H]]].
      + rewrite Q10 by exact Hl. rewrite K10.
        * f_equal. apply Rsum_perm. apply (Tf R (fun '(_, _, _, m, _) => orz m)).
        * intros m I. assert (J : In (m_meas _ m) (map (m_meas RF) (firsts l))) by (apply (Permutation_in _ (Permutation_sym Pm)), in_map, I). apply in_map_iff in J. destruct J as [m' [E J]]. rewrite <- E. apply Hl, J.
      + rewrite (Q11 m I H). assert (J : In (m_meas _ m) (map (m_meas RF) (firsts l'))) by (apply (Permutation_in _ Pm), in_map, I). apply in_map_iff in J. destruct J as [m' [E J]]. rewrite H in E. rewrite (K11 m' J E). reflexivity.
  Qed.
End C44.

(** C44, after finalize: every further add_model is refused and changes nothing, every further finalize does nothing *)
Theorem C44_after_finalize (fo : FOps) (D : Type) dadd c (s : rstate fo D) :
  let s' := fst (finalize fo D c s) in
  s_fin _ _ s' = true /\ (forall m, add_model fo D dadd c s' m = (s', Some Finalized)) /\ finalize fo D c s' = (s', None).
Proof.
  intro s'. assert (F' : s_fin _ _ s' = true).
  { unfold s', finalize. destruct (s_fin _ _ s) eqn:E; [exact E|]. destruct (Nat.eqb (s_n _ _ s) 0); [reflexivity|]. destruct (pymin fo (s_starts _ _ s)); [|reflexivity]. destruct (pymax fo (s_ends _ _ s)); reflexivity. }
  split; [exact F'|]. split; [intro m; unfold add_model|unfold finalize]; rewrite F'; reflexivity.
Qed.

(** any history of calls; an exception leaves the state it leaves *)
Inductive op (fo : FOps) := Add (m : rmodel fo) | Fin | Reset.
Definition step {fo D} dadd dinit (c : rcfg fo) (s : rstate fo D) (o : op fo) : rstate fo D :=
  match o with Add _ m => fst (add_model fo D dadd c s m) | Fin _ => fst (finalize fo D c s) | Reset _ => reset fo D dinit c s end.
Definition history {fo D} dadd dinit (c : rcfg fo) (ops : list (op fo)) : rstate fo D := fold_left (step dadd dinit c) ops (create fo D dinit c).
Lemma add_groups (fo : FOps) (D : Type) dadd c (s : rstate fo D) m :
  s_groups _ _ (fst (add_model fo D dadd c s m)) = s_groups _ _ s \/
  (s_groups _ _ (fst (add_model fo D dadd c s m)) = s_groups _ _ s ++ [m_group _ m] /\ ~ In (m_group _ m) (s_groups _ _ s)).
Proof.
  unfold add_model. destruct (s_fin _ _ s); [left; reflexivity|]. destruct (negb (m_keys _ m)); [left; reflexivity|]. destruct (negb (m_dim2 _ m)); [left; reflexivity|].
  unfold count. cbn [set_driz bump s_groups s_driz s_ratio s_out s_vars]. destruct (existsb (Nat.eqb (m_group _ m)) (s_groups _ _ s)) eqn:E.
  - cbn [s_vars]. destruct (if c_var _ c then _ else _) as [vs [e|]]; left; reflexivity.
  - destruct (tmeasure fo m) as [t ok]. cbn [s_vars]. destruct (if c_var _ c then _ else _) as [vs [e|]]; right; (split; [reflexivity|]); intro H;
    (assert (X : existsb (Nat.eqb (m_group _ m)) (s_groups _ _ s) = true) by (apply existsb_exists; exists (m_group _ m); split; [exact H|apply Nat.eqb_refl])); congruence.
Qed.
Lemma fin_groups (fo : FOps) (D : Type) c (s : rstate fo D) : s_groups _ _ (fst (finalize fo D c s)) = s_groups _ _ s.
Proof. unfold finalize. destruct (s_fin _ _ s); [reflexivity|]. destruct (Nat.eqb (s_n _ _ s) 0); [reflexivity|]. destruct (pymin fo (s_starts _ _ s)); [|reflexivity]. destruct (pymax fo (s_ends _ _ s)); reflexivity. Qed.
(** C44, any history: no group is ever counted twice and only groups of added models are counted; a finalized product reports
    exactly as many pointings as there are counted groups *)
Theorem C44_history (fo : FOps) (D : Type) dadd dinit c (ops : list (op fo)) :
  let s := @history fo D dadd dinit c ops in
  NoDup (s_groups _ _ s) /\ (forall g, In g (s_groups _ _ s) -> exists m, In (Add _ m) ops /\ m_group _ m = g) /\
  (s_fin _ _ s = true -> o_pointings _ _ (s_out _ _ s) = length (s_groups _ _ s)).
Proof.
  intro s. unfold s, history. clear s. induction ops as [|o ops IH] using rev_ind; [cbn; split; [constructor|split; [intros g []|discriminate]]|].
  rewrite fold_left_app. cbn [fold_left]. set (s := fold_left (step dadd dinit c) ops (create fo D dinit c)) in *. destruct IH as (N & I & P).
  assert (I' : forall g, In g (s_groups _ _ s) -> exists m, In (Add _ m) (ops ++ [o]) /\ m_group _ m = g) by (intros g H; destruct (I g H) as [m [J E]]; exists m; split; [apply in_or_app; left; exact J|exact E]).
  destruct o as [m| |]; cbn [step].
  - split; [|split].
    + destruct (add_groups fo D dadd c s m) as [->|[-> H]]; [exact N|]. apply (Permutation_NoDup (Permutation_cons_append _ _)). constructor; assumption.
    + intros g H. destruct (add_groups fo D dadd c s m) as [E|[E _]]; rewrite E in H; [apply I', H|]. apply in_app_or in H. destruct H as [H|[<-|[]]]; [apply I', H|]. exists m. split; [apply in_or_app; right; left; reflexivity|reflexivity].
    + intro F'. destruct (s_fin _ _ s) eqn:Fs; [unfold add_model in *; rewrite Fs in *; cbn [fst] in *; apply P; reflexivity|]. exfalso. revert F'. unfold add_model. rewrite Fs. destruct (negb (m_keys _ m)); [cbn [fst]; congruence|]. destruct (negb (m_dim2 _ m)); [cbn [fst bump s_fin]; congruence|].
      unfold count. cbn [set_driz bump s_groups s_driz s_ratio s_out s_vars s_fin]. destruct (existsb _ (s_groups _ _ s)).
      * cbn [s_vars]. destruct (if c_var _ c then _ else _) as [vs [e|]]; cbn; congruence.
      * destruct (tmeasure fo m) as [t ok]. cbn [s_vars]. destruct (if c_var _ c then _ else _) as [vs [e|]]; cbn; congruence.
  - rewrite fin_groups. split; [exact N|]. split; [exact I'|]. intros _. unfold finalize. destruct (s_fin _ _ s); [apply P; reflexivity|]. destruct (Nat.eqb (s_n _ _ s) 0); [reflexivity|]. destruct (pymin fo (s_starts _ _ s)); [|reflexivity]. destruct (pymax fo (s_ends _ _ s)); reflexivity.
  - split; [exact N|]. split; [exact I'|]. discriminate.
Qed.

(** C44, after finalize and reset (the stated claim fails for it, see below): for models of groups never counted before the
    times are right and the data start afresh; pointings still counts the groups of the previous product *)
Theorem C44_reset_partial {D : Type} (dadd : D -> rmodel RF -> D) (dinit : option D -> D) (c : rcfg RF) (s0 : rstate RF D) (l : list (rmodel RF)) :
  s_fin _ _ s0 = true -> (forall m, In m l -> ~ In (m_group _ m) (s_groups _ _ s0)) -> l <> [] -> Forall (accepted c) l ->
  exists (s s' : rstate RF D) (st en : R), add_all RF D dadd c (reset RF D dinit c s0) l = (s, None) /\ finalize RF D c s = (s', None) /\ s_fin _ _ s' = true /\
    o_pointings _ _ (s_out _ _ s') = (length (s_groups _ _ s0) + length (nodup Nat.eq_dec (map (m_group _) l)))%nat /\
    o_data _ _ (s_out _ _ s') = Some (fold_left dadd l (dinit None)) /\
    o_exp _ _ (s_out _ _ s') = Rsum (map (fun m => orz (m_exp RF m)) (firsts l)) /\
    o_dur _ _ (s_out _ _ s') = Rsum (map (fun m => orz (m_dur RF m)) (firsts l)) /\
    o_start _ _ (s_out _ _ s') = Some st /\ least st (map (m_start RF) (firsts l)) /\
    o_end _ _ (s_out _ _ s') = Some en /\ largest en (map (m_end RF) (firsts l)).
Proof.
  intros F0 G Ne A. destruct (product dadd c (reset RF D dinit c s0) l) as (s & s' & st & en & H); try (cbn [reset s_fin s_texp s_tdur s_tmeas s_starts s_ends s_success s_out o_meas]; rewrite ?F0; reflexivity); try assumption.
  - intro H. cbn [reset s_vars]. unfold init_vars. rewrite H, map_map. apply map_id.
  - exists s, s', st, en. destruct H as (Q1 & Q2 & Q3 & Q4 & Q5 & Q6 & Q7 & Q8 & Q9 & Q10 & Q11 & _). repeat (split; [first [eassumption | cbn [reset s_driz s_out o_data] in *; rewrite F0 in Q5; exact Q5]|]). exact Q11.
Qed.
Print Assumptions C44_product.
Print Assumptions C44_order.
Print Assumptions C44_reset_partial.
Print Assumptions C44_after_finalize.
Print Assumptions C44_history.

(** *** examples: two exposures, the first in two detectors *)
Definition exm (g : nat) (st en e : R) (meas : option R) : rmodel RF :=
  {| m_group := g; m_start := st : RF; m_end := en : RF; m_exp := Some (e : RF); m_meas := meas; m_dur := Some (e : RF); m_keys := true; m_dim2 := true; m_ratio := None; m_var := fun _ => None |}.
Definition exc : rcfg RF := {| c_var := false; c_wt := Exptime; c_names := [0%nat]; c_imaging := true; c_ratio := None |}.
Definition exl : list (rmodel RF) := [exm 7 3 4 10 (Some 9); exm 7 3 4 10 (Some 9); exm 2 1 2 20 (Some 19)].
Example ex_accepted : exl <> [] /\ Forall (accepted exc) exl /\ consistent exl.
Proof.
  split; [discriminate|]. split.
  - repeat constructor; discriminate.
  - intros m m' [<-|[<-|[<-|[]]]] [<-|[<-|[<-|[]]]]; cbn; intro H; try discriminate; auto.
Qed.
Example ex_firsts : firsts exl = [exm 7 3 4 10 (Some 9); exm 2 1 2 20 (Some 19)]. Proof. reflexivity. Qed.
Example ex_exp : Rsum (map (fun m => orz (m_exp RF m)) (firsts exl)) = 30. Proof. rewrite ex_firsts. cbn. lra. Qed.
Example ex_reset : exists (s0 : rstate RF nat), s_fin _ _ s0 = true /\ (forall m, In m exl -> ~ In (m_group _ m) (s_groups _ _ s0)) /\ s_groups _ _ s0 = [1%nat].
Proof.
  exists (fst (finalize RF nat exc (fst (add_all RF nat (fun d _ => S d) exc (create RF nat (fun _ => 0%nat) exc) [exm 1 3 4 10 None])))). cbn.
  split; [reflexivity|]. split; [|reflexivity]. intros m [<-|[<-|[<-|[]]]] [H|[]]; discriminate.
Qed.

(** *** refutations, on machine numbers *)
Definition bz (z : Z) : B64 := fofZ B64 z.
Definition exb (g : nat) (e : Z) : rmodel B64 :=
  {| m_group := g; m_start := bz 0; m_end := bz 1; m_exp := Some (bz e); m_meas := None; m_dur := None; m_keys := true; m_dim2 := true; m_ratio := None; m_var := fun _ => None |}.
Definition exbc : rcfg B64 := {| c_var := false; c_wt := Exptime; c_names := []; c_imaging := true; c_ratio := None |}.
Definition dcat (d : list nat) (m : rmodel B64) : list nat := d ++ [m_group _ m].
Definition dnew (o : option (list nat)) : list nat := match o with Some d => d | None => [] end.
Notation run c ops := (@history B64 (list nat) dcat dnew c ops).
(** a reset object that gets the same group again counts nothing of it: finalize fails *)
Theorem C44_reset_same_group_refuted : exists m, snd (add_model B64 _ dcat exbc (run exbc [Add _ m; Fin _; Reset _]) m) = None /\
  snd (finalize B64 (list nat) exbc (run exbc [Add _ m; Fin _; Reset _; Add _ m])) = Some NoTimes.
Proof. exists (exb 1 5). vm_compute. split; reflexivity. Qed.
(** a reset object reports the pointings of both products *)
Theorem C44_reset_pointings_refuted : exists m m', snd (finalize B64 (list nat) exbc (run exbc [Add _ m; Fin _; Reset _; Add _ m'])) = None /\
  let s := run exbc [Add _ m; Fin _; Reset _; Add _ m'; Fin _] in o_data _ _ (s_out _ _ s) = Some [m_group _ m'] /\ o_pointings _ _ (s_out _ _ s) = 2%nat.
Proof. exists (exb 1 5), (exb 2 5). vm_compute. repeat split; reflexivity. Qed.
(** resetting before finalize keeps the data and drops their exposure time *)
Theorem C44_reset_midway_refuted : exists m m', let s := run exbc [Add _ m; Reset _; Add _ m'; Fin _] in
  o_data _ _ (s_out _ _ s) = Some [m_group _ m; m_group _ m'] /\ o_pointings _ _ (s_out _ _ s) = 2%nat /\ o_exp _ _ (s_out _ _ s) = bz 7.
Proof. exists (exb 1 5), (exb 2 7). vm_compute. repeat split; reflexivity. Qed.
(** when two models of a group differ, the order decides the total *)
Theorem C44_order_refuted : exists m m', o_exp _ _ (s_out _ _ (run exbc [Add _ m; Add _ m'; Fin _])) = bz 5 /\ o_exp _ _ (s_out _ _ (run exbc [Add _ m'; Add _ m; Fin _])) = bz 7.
Proof. exists (exb 1 5), (exb 1 7). vm_compute. split; reflexivity. Qed.
(** finalize with nothing added fails once, then passes silently *)
Theorem C44_empty_refuted : snd (finalize B64 (list nat) exbc (run exbc [])) = Some NoModels /\ snd (finalize B64 (list nat) exbc (run exbc [Fin _])) = None.
Proof. vm_compute. split; reflexivity. Qed.
Print Assumptions C44_reset_same_group_refuted.
Print Assumptions C44_reset_pointings_refuted.
Print Assumptions C44_reset_midway_refuted.
Print Assumptions C44_order_refuted.
Print Assumptions C44_empty_refuted.
