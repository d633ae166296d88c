(** Lemmas about resampling bookkeeping. *)
From Verif Require Import Base BaseLemmas FLaws RBase RNBase ResModel ResSpec.
From Coq Require Import Reals Lra Lia Permutation.

Lemma combine_app_eq {A B} (a1 a2 : list A) (b1 b2 : list B) : length a1 = length b1 -> combine (a1 ++ a2) (b1 ++ b2) = combine a1 b1 ++ combine a2 b2.
Proof. revert b1. induction a1 as [|x a1 IH]; intros [|y b1] H; cbn in *; try lia; [reflexivity|]. rewrite IH by lia. reflexivity. Qed.
Section First.
  Context {fo : FOps}.
  Lemma firsts_snoc (l : list (rmodel fo)) m : firsts (l ++ [m]) = firsts l ++ (if existsb (fun m' => Nat.eqb (m_group _ m') (m_group _ m)) l then [] else [m]).
  Proof.
    unfold firsts. rewrite app_length. cbn [length]. rewrite Nat.add_1_r, seq_S. rewrite combine_app_eq by apply seq_length. cbn [combine].
    rewrite filter_app, map_app. f_equal.
    - f_equal. apply filter_ext_in. intros [i x] Hi. apply in_combine_l in Hi. apply in_seq in Hi. cbn [fst snd]. rewrite firstn_app. replace (i - length l)%nat with 0%nat by lia. cbn [firstn]. rewrite app_nil_r. reflexivity.
    - cbn [filter map fst snd plus]. rewrite firstn_app, Nat.sub_diag, firstn_all. cbn [firstn]. rewrite app_nil_r. destruct (existsb _ l); reflexivity.
  Qed.
  Lemma existsb_groups g (l : list (rmodel fo)) : existsb (Nat.eqb g) (map (m_group _) (firsts l)) = existsb (fun m' => Nat.eqb (m_group _ m') g) l.
  Proof.
    induction l as [|m l IH] using rev_ind; [reflexivity|]. rewrite firsts_snoc, map_app, !existsb_app, IH. cbn [existsb]. rewrite orb_false_r.
    destruct (existsb (fun m' => Nat.eqb (m_group _ m') (m_group _ m)) l) eqn:E.
    - cbn [map existsb]. rewrite orb_false_r. destruct (Nat.eqb_spec (m_group _ m) g) as [<-|N]; [rewrite E; reflexivity|rewrite orb_false_r; reflexivity].
    - cbn [map existsb]. rewrite orb_false_r, (Nat.eqb_sym g). reflexivity.
  Qed.
End First.
Section Gen.
  Context {fo : FOps} {D : Type} (dadd : D -> rmodel fo -> D) (dinit : option D -> D).
  Notation add_model := (add_model fo D dadd). Notation add_all := (add_all fo D dadd). Notation finalize := (finalize fo D).
  Lemma store_names m (vs : list (nat * vinfo fo)) : map fst (store_vars fo m vs) = map fst vs.
  Proof. unfold store_vars. rewrite map_map. apply map_ext. intros [n v]. destruct (m_var _ m n); reflexivity. Qed.
  Lemma add_vars_ok c m vs : map fst vs = c_names _ c -> c_var _ c = true -> accepted c m -> exists vs', add_vars fo c m vs = (vs', None) /\ map fst vs' = c_names _ c.
  Proof.
    intros Hn Hv (_ & _ & H). specialize (H Hv). unfold add_vars, var_weight. destruct (c_wt _ c).
    - destruct H as [I V]. destruct (find (fun nv => Nat.eqb (fst nv) 0) (store_vars fo m vs)) as [[n v]|] eqn:E.
      + assert (exists a, v_last _ v = Some a) as [a A].
        { apply find_some in E. destruct E as [E Z]. cbn [fst] in Z. apply Nat.eqb_eq in Z. subst n. unfold store_vars in E. apply in_map_iff in E. destruct E as [[n' v'] [E _]].
          destruct (m_var _ m n') as [a|] eqn:Q; [injection E as -> <-; eexists; reflexivity|]. injection E as -> ->. congruence. }
        rewrite A. eexists. split; [reflexivity|]. rewrite map_map. rewrite <- Hn, <- (store_names m vs). apply map_ext. intros [n' v']. cbn [fst]. destruct (m_var _ m n'); reflexivity.
      + exfalso. rewrite <- Hn, <- (store_names m vs) in I. apply in_map_iff in I. destruct I as [[n v] [E1 E2]]. apply (find_none _ _ E) in E2. cbn [fst] in *. subst n. discriminate.
    - assert (exists t, fst (tmeasure fo m) = Some t) as [t T] by (unfold tmeasure; destruct (m_meas _ m) as [t|]; [eexists; reflexivity|]; destruct (m_exp _ m) as [t|]; [eexists; reflexivity|destruct H; congruence]).
      rewrite T. eexists. split; [reflexivity|]. rewrite map_map. rewrite <- Hn, <- (store_names m vs). apply map_ext. intros [n' v']. cbn [fst]. destruct (m_var _ m n'); reflexivity.
  Qed.
  Definition sum_opt (s0 : fo) (l : list (option fo)) : fo := fold_left (plus_opt fo) l s0.
  (** what a run of accepted models leaves behind, from any state that has not seen their groups *)
  Record ran (c : rcfg fo) (s0 : rstate fo D) (l : list (rmodel fo)) (s : rstate fo D) : Prop := {
    r_fin : s_fin _ _ s = false; r_n : s_n _ _ s = (s_n _ _ s0 + length l)%nat;
    r_groups : s_groups _ _ s = s_groups _ _ s0 ++ map (m_group _) (firsts l);
    r_driz : s_driz _ _ s = option_map (fun d => fold_left dadd l d) (s_driz _ _ s0);
    r_names : c_var _ c = true -> map fst (s_vars _ _ s) = c_names _ c;
    r_exp : s_texp _ _ s = sum_opt (s_texp _ _ s0) (map (m_exp _) (firsts l));
    r_dur : s_tdur _ _ s = sum_opt (s_tdur _ _ s0) (map (m_dur _) (firsts l));
    r_meas : s_tmeas _ _ s = sum_opt (s_tmeas _ _ s0) (map (fun m => fst (tmeasure fo m)) (firsts l));
    r_starts : s_starts _ _ s = s_starts _ _ s0 ++ map (m_start _) (firsts l);
    r_ends : s_ends _ _ s = s_ends _ _ s0 ++ map (m_end _) (firsts l);
    r_success : s_success _ _ s = s_success _ _ s0 ++ map (fun m => snd (tmeasure fo m)) (firsts l);
    r_out : o_meas _ _ (s_out _ _ s) = o_meas _ _ (s_out _ _ s0) }.
  Lemma add_all_snoc c s l m : add_all c s (l ++ [m]) = match snd (add_all c s l) with Some _ => add_all c s l | None => add_model c (fst (add_all c s l)) m end.
  Proof. unfold ResModel.add_all. rewrite fold_left_app. reflexivity. Qed.
  Lemma run_ok c s0 l : s_fin _ _ s0 = false -> (forall m, In m l -> ~ In (m_group _ m) (s_groups _ _ s0)) -> (c_var _ c = true -> map fst (s_vars _ _ s0) = c_names _ c) -> Forall (accepted c) l ->
    exists s, add_all c s0 l = (s, None) /\ ran c s0 l s.
  Proof.
    intros F0 G0 N0. induction l as [|m l IH] using rev_ind; intro A.
    - exists s0. split; [reflexivity|]. constructor; cbn; rewrite ?app_nil_r, ?Nat.add_0_r; auto. destruct (s_driz _ _ s0); reflexivity.
    - apply Forall_app in A. destruct A as [A B]. inversion B as [|? ? Am _]. subst. destruct (IH (fun m' I => G0 m' (in_or_app _ _ _ (or_introl I))) A) as [s [E R]]. rewrite add_all_snoc, E. cbn [fst snd]. clear IH E.
      destruct R as [Rf Rn Rg Rd Rv Re Ru Rm Rs Rt Ro Rq]. unfold ResModel.add_model. rewrite Rf. destruct Am as (K & D2 & V). rewrite K, D2. cbn [negb].
      set (s1 := count fo D _ m).
      assert (P : s_fin _ _ s1 = false /\ s_n _ _ s1 = S (s_n _ _ s) /\ s_groups _ _ s1 = s_groups _ _ s0 ++ map (m_group _) (firsts (l ++ [m])) /\ s_driz _ _ s1 = option_map (fun d => dadd d m) (s_driz _ _ s) /\ s_vars _ _ s1 = s_vars _ _ s /\
        s_texp _ _ s1 = sum_opt (s_texp _ _ s0) (map (m_exp _) (firsts (l ++ [m]))) /\ s_tdur _ _ s1 = sum_opt (s_tdur _ _ s0) (map (m_dur _) (firsts (l ++ [m]))) /\
        s_tmeas _ _ s1 = sum_opt (s_tmeas _ _ s0) (map (fun m => fst (tmeasure fo m)) (firsts (l ++ [m]))) /\ s_starts _ _ s1 = s_starts _ _ s0 ++ map (m_start _) (firsts (l ++ [m])) /\ s_ends _ _ s1 = s_ends _ _ s0 ++ map (m_end _) (firsts (l ++ [m])) /\
        s_success _ _ s1 = s_success _ _ s0 ++ map (fun m => snd (tmeasure fo m)) (firsts (l ++ [m])) /\ o_meas _ _ (s_out _ _ s1) = o_meas _ _ (s_out _ _ s0)).
      { unfold s1, count. cbn [set_driz bump s_groups s_driz]. rewrite Rg, existsb_app, existsb_groups, firsts_snoc. replace (existsb (Nat.eqb (m_group _ m)) (s_groups _ _ s0)) with false by (symmetry; destruct (existsb _ (s_groups _ _ s0)) eqn:Ex; [|reflexivity]; exfalso; apply existsb_exists in Ex; destruct Ex as [g [Ig Eg]]; apply Nat.eqb_eq in Eg; subst g; revert Ig; apply G0, in_or_app; right; left; reflexivity). cbn [orb].
        destruct (existsb (fun m' => Nat.eqb (m_group _ m') (m_group _ m)) l) eqn:Ex.
        - rewrite app_nil_r. cbn [set_driz bump s_fin s_n s_groups s_driz s_vars s_texp s_tdur s_tmeas s_starts s_ends s_success s_out]. repeat (split; [first [reflexivity|assumption]|]). exact Rq.
        - destruct (tmeasure fo m) as [t ok] eqn:T. cbn [set_driz bump s_fin s_n s_groups s_driz s_vars s_texp s_tdur s_tmeas s_starts s_ends s_success s_out o_meas].
          rewrite !map_app. cbn [map]. unfold sum_opt in *. rewrite !fold_left_app. cbn [fold_left]. rewrite T, Re, Ru, Rm, Rs, Rt, Ro, <- !app_assoc. cbn [fst snd].
          repeat (split; [first [reflexivity|assumption]|]). exact Rq. }
      destruct P as (P1 & P2 & P3 & P4 & P5 & P6 & P7 & P8 & P9 & P10 & P11 & P12). clearbody s1.
      assert (Vs : exists vs, (if c_var _ c then add_vars fo c m (s_vars _ _ s1) else (s_vars _ _ s1, None)) = (vs, None) /\ (c_var _ c = true -> map fst vs = c_names _ c)).
      { destruct (c_var _ c) eqn:Cv; [|eexists; split; [reflexivity|discriminate]]. destruct (add_vars_ok c m (s_vars _ _ s1)) as [vs [E N]].
        - rewrite P5. apply Rv, eq_refl.
        - exact Cv.
        - unfold accepted. rewrite Cv. auto.
        - exists vs. split; [exact E|intros _; exact N]. }
      destruct Vs as [vs [Ev Nv]]. rewrite Ev. eexists. split; [reflexivity|].
      constructor; cbn [set_vars out_data s_fin s_n s_groups s_driz s_vars s_texp s_tdur s_tmeas s_starts s_ends s_success s_out o_meas]; try assumption.
      + rewrite P2, Rn, app_length. cbn [length]. lia.
      + rewrite P4, Rd. destruct (s_driz _ _ s0); cbn [option_map]; [|reflexivity]. rewrite fold_left_app. reflexivity.
  Qed.
End Gen.

(** *** minima and maxima *)
Local Open Scope R_scope.
Lemma pymin_least (l : list R) x : pymin RF l = Some x -> least x l.
Proof.
  destruct l as [|a l]; [discriminate|]. cbn [pymin]. intro H. injection H as H. cbn [flt RF] in H. revert H.
  assert (G : forall l (a : R), least (fold_left (fun m y : R => if Rltb y m then y else m) l a) (a :: l)).
  { clear. induction l as [|b l IH]; intro a; cbn [fold_left]; [split; [left; reflexivity|intros y [->|[]]; lra]|].
    unfold Rltb at 2; destruct (Rlt_dec b a) as [L|L].
    - destruct (IH b) as [I J]. split; [right; exact I|]. intros y [<-|Hy]; [specialize (J b (or_introl eq_refl)); lra|apply J; exact Hy].
    - destruct (IH a) as [I J]. split; [destruct I as [<-|I]; [left; reflexivity|right; right; exact I]|]. intros y [<-|[<-|Hy]]; [apply J; left; reflexivity|specialize (J a (or_introl eq_refl)); lra|apply J; right; exact Hy]. }
  intros <-. apply G.
Qed.
Lemma pymax_largest (l : list R) x : pymax RF l = Some x -> largest x l.
Proof.
  destruct l as [|a l]; [discriminate|]. cbn [pymax]. intro H. injection H as H. cbn [flt RF] in H. revert H.
  assert (G : forall l (a : R), largest (fold_left (fun m y : R => if Rltb m y then y else m) l a) (a :: l)).
  { clear. induction l as [|b l IH]; intro a; cbn [fold_left]; [split; [left; reflexivity|intros y [->|[]]; lra]|].
    unfold Rltb at 2; destruct (Rlt_dec a b) as [L|L].
    - destruct (IH b) as [I J]. split; [right; exact I|]. intros y [<-|Hy]; [specialize (J b (or_introl eq_refl)); lra|apply J; exact Hy].
    - destruct (IH a) as [I J]. split; [destruct I as [<-|I]; [left; reflexivity|right; right; exact I]|]. intros y [<-|[<-|Hy]]; [apply J; left; reflexivity|specialize (J a (or_introl eq_refl)); lra|apply J; right; exact Hy]. }
  intros <-. apply G.
Qed.
Lemma sum_opt_R (l : list (option R)) (a : R) : @sum_opt RF a l = a + Rsum (map orz l).
Proof. revert a. unfold sum_opt. induction l as [|o l IH]; intro a; cbn [fold_left map]; [rewrite Rsum_nil; lra|]. etransitivity; [apply IH|]. rewrite Rsum_cons. destruct o; cbn [plus_opt orz fadd RF]; cbn; lra. Qed.
Lemma Rsum_perm (l l' : list R) : Permutation l l' -> Rsum l = Rsum l'.
Proof. induction 1; rewrite ?Rsum_cons in *; lra. Qed.
Lemma least_perm x y l l' : Permutation l l' -> least x l -> least y l' -> x = y.
Proof. intros P [I J] [I' J']. pose proof (J y (Permutation_in _ (Permutation_sym P) I')). pose proof (J' x (Permutation_in _ P I)). lra. Qed.
Lemma largest_perm x y l l' : Permutation l l' -> largest x l -> largest y l' -> x = y.
Proof. intros P [I J] [I' J']. pose proof (J y (Permutation_in _ (Permutation_sym P) I')). pose proof (J' x (Permutation_in _ P I)). lra. Qed.

(** *** the groups *)
Section Groups.
  Context {fo : FOps}.
  Lemma firsts_in (l : list (rmodel fo)) m : In m (firsts l) -> In m l.
  Proof. unfold firsts. intro H. apply in_map_iff in H. destruct H as [[i x] [<- H]]. apply filter_In in H. destruct H as [H _]. apply in_combine_r in H. exact H. Qed.
  Lemma groups_in (l : list (rmodel fo)) g : In g (map (m_group _) (firsts l)) <-> In g (map (m_group _) l).
  Proof.
    pose proof (existsb_groups g l) as E. split; intro H.
    - assert (X : existsb (Nat.eqb g) (map (m_group fo) (firsts l)) = true) by (apply existsb_exists; exists g; split; [exact H|apply Nat.eqb_refl]).
      rewrite E in X. apply existsb_exists in X. destruct X as [m [I X]]. apply Nat.eqb_eq in X. subst g. apply in_map, I.
    - assert (X : existsb (fun m' => Nat.eqb (m_group _ m') g) l = true) by (apply in_map_iff in H; destruct H as [m [<- I]]; apply existsb_exists; exists m; split; [exact I|apply Nat.eqb_refl]).
      rewrite <- E in X. apply existsb_exists in X. destruct X as [g' [I X]]. apply Nat.eqb_eq in X. subst g'. exact I.
  Qed.
  Lemma groups_nodup (l : list (rmodel fo)) : NoDup (map (m_group _) (firsts l)).
  Proof.
    induction l as [|m l IH] using rev_ind; [constructor|]. rewrite firsts_snoc, map_app. destruct (existsb _ l) eqn:E; cbn [map]; [rewrite app_nil_r; exact IH|].
    apply (Permutation_NoDup (Permutation_cons_append _ _)). constructor; [|exact IH]. intro H. rewrite <- (existsb_groups (m_group _ m) l) in E.
    assert (X : existsb (Nat.eqb (m_group _ m)) (map (m_group fo) (firsts l)) = true) by (apply existsb_exists; exists (m_group _ m); split; [exact H|apply Nat.eqb_refl]). congruence.
  Qed.
  Lemma groups_count (l : list (rmodel fo)) : length (firsts l) = length (nodup Nat.eq_dec (map (m_group _) l)).
  Proof.
    rewrite <- (map_length (m_group _)). apply Permutation_length, NoDup_Permutation; [apply groups_nodup|apply NoDup_nodup|]. intro g. rewrite nodup_In. apply groups_in.
  Qed.
  (** under consistency the times of the first models depend only on the multiset *)
  Definition tms (m : rmodel fo) := (m_start _ m, m_end _ m, m_exp _ m, m_meas _ m, m_dur _ m).
  Lemma firsts_perm (l l' : list (rmodel fo)) : Permutation l l' -> consistent l -> Permutation (map tms (firsts l)) (map tms (firsts l')).
  Proof.
    intros P C. set (T := fun g => option_map tms (find (fun m => Nat.eqb (m_group _ m) g) l)).
    assert (Q : forall k, (forall m, In m k -> In m l) -> map Some (map tms k) = map T (map (m_group _) k)).
    { intros k Hk. rewrite !map_map. apply map_ext_in. intros m I. unfold T. destruct (find _ l) as [m'|] eqn:E.
      - apply find_some in E. destruct E as [I' E]. apply Nat.eqb_eq in E. cbn [option_map]. f_equal. unfold tms. destruct (C m' m I' (Hk m I) E) as (-> & -> & -> & -> & ->). reflexivity.
      - pose proof (find_none _ _ E m (Hk m I)) as X. cbn beta in X. rewrite Nat.eqb_refl in X. discriminate. }
    assert (PP : Permutation (map Some (map tms (firsts l))) (map Some (map tms (firsts l')))).
    { rewrite Q by (intros m; apply firsts_in). rewrite (Q (firsts l')) by (intros m H; apply (Permutation_in _ (Permutation_sym P)), firsts_in, H).
      apply Permutation_map, NoDup_Permutation; [apply groups_nodup|apply groups_nodup|]. intro g. rewrite !groups_in. split; intro H; [apply (Permutation_in _ (Permutation_map _ P)), H|apply (Permutation_in _ (Permutation_sym (Permutation_map _ P))), H]. }
    apply (Permutation_map (fun o => match o with Some t => t | None => (fzero fo, fzero fo, None, None, None) end)) in PP. rewrite !(map_map Some) in PP. rewrite !map_id in PP. exact PP.
  Qed.
End Groups.
