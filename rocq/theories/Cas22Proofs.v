(** Lemmas for the Casertano+22 ramp fit: runs, the work list. *)
From Verif Require Import Base BaseLemmas FLaws Cas22Model Cas22Spec.
From Coq Require Import Sorting.Sorted Sorting.Permutation ZifyBool.
Local Open Scope nat_scope.

(** ** Runs *)
Definition gap (a b : ramp) : Prop := snd a + 1 < fst b.
Lemma covered_cons r l k : covered (r :: l) k <-> fst r <= k <= snd r \/ covered l k.
Proof. unfold covered. cbn [In]. split; [intros (x & [<-|H] & H'); eauto|intros [H|(x & H & H')]; eauto]. Qed.
Lemma covered_app l l' k : covered (l ++ l') k <-> covered l k \/ covered l' k.
Proof. unfold covered. setoid_rewrite in_app_iff. firstorder. Qed.
Lemma covered_nil k : covered [] k <-> False.
Proof. split; [intros (? & [] & _)|tauto]. Qed.
Lemma sep_cons r l : separated (r :: l) <-> fst r <= snd r /\ separated l /\ Forall (gap r) l.
Proof.
  unfold separated. split.
  - intros [H S]. inversion S; subst. split; [apply H; left; reflexivity|]. split; [|assumption]. split; [intros; apply H; right; assumption|assumption].
  - intros (H & [H1 S] & G). split; [intros x [<-|I]; auto|]. constructor; assumption.
Qed.
Lemma sep_app l l' : separated (l ++ l') <-> separated l /\ separated l' /\ (forall a b, In a l -> In b l' -> gap a b).
Proof.
  induction l as [|r l IH]; cbn [app].
  - split; [intro H; split; [split; [intros ? []|constructor]|]; split; [assumption|intros ? ? []]|tauto].
  - rewrite !sep_cons, IH, Forall_app. rewrite !Forall_forall. cbn [In]. split.
    + intros (A & (B & C & D) & E & G). repeat split; try tauto; try apply B; try apply C. intros a b [<-|I] J; auto.
    + intros ((A & B & E) & C & D). split; [tauto|]. split; [split; [tauto|split; [tauto|intros; apply D; auto]]|]. split; [tauto|]. intros; apply D; auto.
Qed.
Lemma gap_covered r l k : Forall (gap r) l -> covered l k -> snd r + 1 < k.
Proof. intros G (x & I & H). rewrite Forall_forall in G. specialize (G x I). unfold gap in G. lia. Qed.
Lemma sep_unique l : forall l', separated l -> separated l' -> (forall k, covered l k <-> covered l' k) -> l = l'.
Proof.
  induction l as [|[s e] l IH]; intros [|[s' e'] l'] H H' C.
  - reflexivity.
  - apply sep_cons in H'. exfalso. specialize (C s'). rewrite covered_nil, covered_cons in C. cbn [fst snd] in *. tauto || (destruct H'; lia).
  - apply sep_cons in H. exfalso. specialize (C s). rewrite covered_nil, covered_cons in C. cbn [fst snd] in *. destruct H; tauto || lia.
  - apply sep_cons in H, H'. destruct H as (A & S1 & G), H' as (A' & S1' & G'). cbn [fst snd] in *.
    assert (K : forall k, (s <= k <= e \/ covered l k) <-> (s' <= k <= e' \/ covered l' k)) by (intro k; pose proof (C k) as Q; rewrite !covered_cons in Q; exact Q). clear C.
    assert (CL : forall k, covered l k -> e + 1 < k) by (intros k Hk; apply (gap_covered _ _ _ G Hk)).
    assert (CL' : forall k, covered l' k -> e' + 1 < k) by (intros k Hk; apply (gap_covered _ _ _ G' Hk)).
    assert (E1 : s = s').
    { assert (X : s' <= s). { destruct (proj1 (K s)) as [?|Q]; [left; lia|lia|]. apply CL' in Q. lia. }
      assert (Y : s <= s'). { destruct (proj2 (K s')) as [?|Q]; [left; lia|lia|]. apply CL in Q. lia. } lia. }
    assert (E2 : e = e').
    { destruct (Nat.lt_trichotomy e e') as [L|[E|L]]; [|assumption|].
      - destruct (proj2 (K (e + 1))) as [?|Q]; [left; lia|lia|]. apply CL in Q. lia.
      - destruct (proj1 (K (e' + 1))) as [?|Q]; [left; lia|lia|]. apply CL' in Q. lia. }
    subst s' e'. f_equal. apply IH; try assumption. intro k. specialize (K k). split; intro Q.
    + pose proof (CL k Q). destruct (proj1 K) as [?|?]; [tauto|lia|assumption].
    + pose proof (CL' k Q). destruct (proj2 K) as [?|?]; [tauto|lia|assumption].
Qed.
Lemma runs_unique dq n l l' : is_runs dq n l -> is_runs dq n l' -> l = l'.
Proof. intros [S C] [S' C']. apply sep_unique; try assumption. intro k. rewrite C, C'. reflexivity. Qed.

(** ** init_ramps *)
Definition closed (m : nat) (st : list ramp * option nat) : list ramp :=
  fst st ++ match snd st with Some s => [(s, m - 1)] | None => [] end.
Lemma init_inv dq m :
  let st := fold_left (init_step dq) (seq 0 m) ([], None) in
  is_runs dq m (closed m st) /\
  (forall r, In r (fst st) -> snd r + 1 < m) /\
  match snd st with Some s => s < m | None => m = 0 \/ dq (m - 1) <> 0%Z end.
Proof.
  cbv zeta. induction m as [|m IH].
  - split; [|split; [intros ? []|left; reflexivity]]. unfold closed. cbn. split; [split; [intros ? []|constructor]|].
    intro k. rewrite covered_nil. lia.
  - rewrite seq_S, fold_left_app. cbn [fold_left Nat.add]. set (st := fold_left _ _ _) in *. destruct st as [rs start]. cbn [fst snd] in *.
    destruct IH as ([SP C] & E & T). unfold closed in *. cbn [fst snd] in *. unfold init_step.
    assert (ST : forall r, In r rs -> snd r + 1 < S m) by (intros r Hr; specialize (E r Hr); lia).
    destruct start as [s|].
    + apply sep_app in SP. destruct SP as (S1 & _ & G). destruct (Z.eqb_spec (dq m) 0) as [Z0|Z0]; cbn [fst snd].
      * split; [|split; [assumption|lia]]. split.
        { apply sep_app. split; [assumption|]. split; [apply sep_cons; cbn [fst snd]; split; [lia|split; [split; [intros ? []|constructor]|constructor]]|].
          intros a b I [<-|[]]. specialize (G a (s, m - 1) I (or_introl eq_refl)). exact G. }
        intro k. specialize (C k). rewrite covered_app, covered_cons, covered_nil in *. cbn [fst snd] in *.
        destruct (Nat.eq_dec k m) as [->|NE]; [split; [intros _; split; [lia|exact Z0]|intros _; right; left; lia]|].
        split; [intros [Q|[Q|[]]]|intros [Q1 Q2]].
        { destruct (proj1 C (or_introl Q)). split; [lia|assumption]. }
        { destruct (proj1 C) as [? ?]; [right; left; lia|]. split; [lia|assumption]. }
        { destruct (proj2 C) as [?|[?|[]]]; [split; [lia|assumption]|tauto|right; left; lia]. }
      * rewrite app_nil_r. split; [|split].
        { split.
          - apply sep_app. split; [assumption|]. split; [apply sep_cons; cbn [fst snd]; split; [lia|split; [split; [intros ? []|constructor]|constructor]]|]. exact G.
          - intro k. specialize (C k). rewrite C. split; [intros [? ?]; split; [lia|assumption]|]. intros [? ?].
            destruct (Nat.eq_dec k m) as [->|]; [contradiction|]. split; [lia|assumption]. }
        { intros r I. apply in_app_or in I. destruct I as [I|[<-|[]]]; [auto|cbn [snd]; lia]. }
        { right. cbn. rewrite Nat.sub_0_r. exact Z0. }
    + rewrite app_nil_r in *. destruct (Z.eqb_spec (dq m) 0) as [Z0|Z0]; cbn [fst snd].
      * split; [|split; [assumption|lia]]. split.
        { apply sep_app. split; [assumption|]. split; [apply sep_cons; cbn [fst snd]; split; [lia|split; [split; [intros ? []|constructor]|constructor]]|].
          intros a b I [<-|[]]. unfold gap. cbn [fst snd]. apply E. assumption. }
        intro k. specialize (C k). rewrite covered_app, covered_cons, covered_nil, C. cbn [fst snd].
        destruct (Nat.eq_dec k m) as [->|NE]; [split; [intros _; split; [lia|exact Z0]|intros _; right; left; lia]|].
        split; [intros [[? ?]|[?|[]]]; [split; [lia|assumption]|lia]|intros [? ?]; left; split; [lia|assumption]].
      * rewrite app_nil_r. split; [|split; [assumption|right; cbn; rewrite Nat.sub_0_r; exact Z0]]. split; [assumption|]. intro k. rewrite C.
        split; [intros [? ?]; split; [lia|assumption]|]. intros [? ?]. destruct (Nat.eq_dec k m) as [->|]; [contradiction|]. split; [lia|assumption].
Qed.
Lemma init_ramps_runs dq n : is_runs dq n (init_ramps dq n).
Proof.
  unfold init_ramps. pose proof (init_inv dq n) as H. cbv zeta in H. destruct (fold_left _ _ _) as [rs start]. destruct H as (H & _). unfold closed in H. cbn [fst snd] in H.
  destruct start; [assumption|]. rewrite app_nil_r in H. assumption.
Qed.

(** ** Splitting one ramp *)
Definition before_jump (r : ramp) (j : nat) : list ramp := if Nat.ltb (fst r) j then [(fst r, j - 1)] else [].
Definition after_jump (r : ramp) (j : nat) : list ramp := if Nat.ltb (j + 1) (snd r) then [(j + 1 + 1, snd r)] else [].
Lemma sep1 r : fst r <= snd r -> separated [r].
Proof. intro H. apply sep_cons. split; [assumption|]. split; [split; [intros ? []|constructor]|constructor]. Qed.
Lemma sep0 : separated []. Proof. split; [intros ? []|constructor]. Qed.
Lemma split_runs dq n A r B j J : J <> 0%Z -> is_runs dq n (A ++ r :: B) -> fst r <= j < snd r ->
  is_runs (upd (j + 1) J (upd j J dq)) n (A ++ before_jump r j ++ after_jump r j ++ B).
Proof.
  intros HJ [SP C] Hj. destruct r as [s e]. cbn [fst snd] in *. apply sep_app in SP. destruct SP as (SA & SB & G). apply sep_cons in SB. destruct SB as (SE & SB & GB).
  rewrite Forall_forall in GB. cbn [fst snd] in *.
  assert (Hb : forall x, In x (before_jump (s, e) j) -> x = (s, j - 1) /\ s < j).
  { unfold before_jump. cbn [fst]. intros x. destruct (Nat.ltb_spec s j); [intros [<-|[]]; auto|intros []]. }
  assert (Ha : forall x, In x (after_jump (s, e) j) -> x = (j + 1 + 1, e) /\ j + 1 < e).
  { unfold after_jump. cbn [snd]. intros x. destruct (Nat.ltb_spec (j + 1) e); [intros [<-|[]]; auto|intros []]. }
  assert (GA : forall x, In x A -> snd x + 1 < s) by (intros x I; specialize (G x (s, e) I (or_introl eq_refl)); exact G).
  split.
  - apply sep_app. split; [assumption|]. split.
    + apply sep_app. split; [unfold before_jump; cbn [fst]; destruct (Nat.ltb_spec s j); [apply sep1; cbn; lia|apply sep0]|]. split.
      * apply sep_app. split; [unfold after_jump; cbn [snd]; destruct (Nat.ltb_spec (j + 1) e); [apply sep1; cbn; lia|apply sep0]|]. split; [assumption|].
        intros a b I I'. destruct (Ha a I) as [-> ?]. specialize (GB b I'). unfold gap in *. cbn [snd] in *. exact GB.
      * intros a b I I'. destruct (Hb a I) as [-> ?]. unfold gap. cbn [snd]. apply in_app_or in I'. destruct I' as [I'|I'].
        -- destruct (Ha b I') as [-> ?]. cbn [fst]. lia.
        -- specialize (GB b I'). unfold gap in GB. cbn [snd] in GB. lia.
    + intros a b I I'. unfold gap. specialize (GA a I). apply in_app_or in I'. destruct I' as [I'|I']; [destruct (Hb b I') as [-> ?]; cbn [fst]; lia|].
      apply in_app_or in I'. destruct I' as [I'|I']; [destruct (Ha b I') as [-> ?]; cbn [fst]; lia|]. specialize (GB b I'). unfold gap in GB. cbn [snd] in GB. lia.
  - intro k. specialize (C k). rewrite covered_app, covered_cons in C. rewrite !covered_app. cbn [fst snd] in C.
    assert (CB : covered (before_jump (s, e) j) k <-> s <= k /\ k < j).
    { unfold before_jump. cbn [fst]. destruct (Nat.ltb_spec s j); rewrite ?covered_cons, covered_nil; cbn [fst snd]; lia. }
    assert (CA : covered (after_jump (s, e) j) k <-> j + 1 < k /\ k <= e).
    { unfold after_jump. cbn [snd]. destruct (Nat.ltb_spec (j + 1) e); rewrite ?covered_cons, covered_nil; cbn [fst snd]; lia. }
    rewrite CB, CA.
    assert (NA : covered A k -> k < s) by (intros (x & I & Q); specialize (GA x I); lia).
    assert (NB : covered B k -> e < k) by (intros (x & I & Q); specialize (GB x I); unfold gap in GB; cbn [snd] in GB; lia).
    unfold upd. destruct (Nat.eqb_spec k (j + 1)) as [->|N1]; [split; [intros [Q|[Q|[Q|Q]]]; [apply NA in Q|..|apply NB in Q]; lia|tauto]|].
    destruct (Nat.eqb_spec k j) as [->|N2]; [split; [intros [Q|[Q|[Q|Q]]]; [apply NA in Q|..|apply NB in Q]; lia|tauto]|].
    rewrite <- C. split; [intros [Q|[Q|[Q|Q]]]; [left; assumption|right; left; lia|right; left; lia|right; right; assumption]|].
    intros [Q|[Q|Q]]; [left; assumption| |right; right; right; assumption].
    destruct (Nat.lt_trichotomy k j) as [L|[L|L]]; [right; left; lia|lia|right; right; left; lia].
Qed.

Definition size (l : list ramp) : nat := list_sum (map (fun r => snd r + 1 - fst r) l).
Lemma sep_size l : forall a m, separated l -> (forall r, In r l -> a <= fst r /\ snd r < m) -> size l + a <= Nat.max a m.
Proof.
  induction l as [|r l IH]; intros a m SP B; [unfold size; cbn; lia|]. apply sep_cons in SP. destruct SP as (SE & SL & G). rewrite Forall_forall in G.
  destruct (B r (or_introl eq_refl)) as [B1 B2].
  assert (Q : size l + (snd r + 1) <= Nat.max (snd r + 1) m).
  { apply IH; [assumption|]. intros x I. specialize (G x I). unfold gap in G. destruct (B x (or_intror I)). lia. }
  unfold size, list_sum in *. cbn [map fold_right]. lia.
Qed.
Lemma size_app l l' : size (l ++ l') = size l + size l'.
Proof. unfold size. rewrite map_app, list_sum_app. reflexivity. Qed.
Lemma size_rev l : size (rev l) = size l.
Proof. induction l as [|x l IH]; [reflexivity|]. cbn [rev]. rewrite size_app, IH. unfold size, list_sum. cbn [map fold_right]. lia. Qed.
(** ** The loop *)
Section Loop.
  Variable A : Type.
  Variable fit : ramp -> A.
  Variable detect : ramp -> A -> option nat.
  Hypothesis detect_in : forall r f k, fst r <= snd r -> detect r f = Some k -> k < snd r - fst r.
  Variable n : nat.
  Variable dq0 : nat -> Z.

  Definition pairs (js : list nat) : list nat := flat_map (fun j => [j; j + 1]) js.
  Record inv (w : work A) : Prop := {
    i_runs : is_runs (w_dq w) n (rev (w_stack w) ++ rev (map fst (w_fits w)));
    i_fits : forall r f, In (r, f) (w_fits w) -> f = fit r /\ detect r f = None;
    i_jumps : exists js, w_jumps w = pairs js;
    i_nodup : NoDup (w_jumps w);
    i_in : forall k, In k (w_jumps w) -> k < n /\ dq0 k = 0%Z;
    i_dq : forall k, w_dq w k = if existsb (Nat.eqb k) (w_jumps w) then JUMP_DET else dq0 k }.
  Lemma inv_init : inv {| w_stack := rev (init_ramps dq0 n); w_dq := dq0; w_fits := []; w_jumps := [] |}.
  Proof.
    split; cbn.
    - rewrite rev_involutive, app_nil_r. apply init_ramps_runs.
    - intros ? ? [].
    - exists []. reflexivity.
    - constructor.
    - intros ? [].
    - reflexivity.
  Qed.
  Lemma existsb_in k l : existsb (Nat.eqb k) l = true <-> In k l.
  Proof. rewrite existsb_exists. split; [intros (x & I & E); apply Nat.eqb_eq in E; subst; assumption|intro I; exists k; split; [assumption|apply Nat.eqb_refl]]. Qed.
  Lemma inv_body r rest w : w_stack w = r :: rest -> inv w -> inv (body A fit detect r rest w).
  Proof.
    intros Hs [R Fi (js & J) ND IN DQ]. unfold body. rewrite Hs in R. cbn [rev] in R. rewrite <- app_assoc in R. cbn [app] in R.
    assert (SE : fst r <= snd r) by (apply R, in_or_app; right; left; reflexivity).
    destruct (detect r (fit r)) as [k|] eqn:D; cbv zeta.
    - assert (K : k < snd r - fst r) by (apply (detect_in r (fit r)); assumption).
      set (j := k + fst r). assert (Hj : fst r <= j < snd r) by (unfold j; lia).
      assert (CO : forall x, x = j \/ x = j + 1 -> x < n /\ w_dq w x = 0%Z).
      { intros x Hx. destruct R as [_ C]. apply C. rewrite covered_app, covered_cons. right. left. lia. }
      assert (FR : forall x, x = j \/ x = j + 1 -> ~ In x (w_jumps w)).
      { intros x Hx I. destruct (CO x Hx) as [_ Z0]. rewrite DQ in Z0. rewrite (proj2 (existsb_in x _) I) in Z0. discriminate. }
      split; cbn [w_stack w_dq w_fits w_jumps].
      + pose proof (split_runs (w_dq w) n (rev rest) r (rev (map fst (w_fits w))) j JUMP_DET ltac:(discriminate) R Hj) as Q.
        unfold before_jump, after_jump in Q. fold j.
        destruct (Nat.ltb (fst r) j), (Nat.ltb (j + 1) (snd r)); cbn [rev app] in *; rewrite <- ?app_assoc; cbn [app]; exact Q.
      + exact Fi.
      + exists (js ++ [j]). unfold pairs. rewrite flat_map_app. fold (pairs js). rewrite <- J. reflexivity.
      + fold j.
        assert (Q : NoDup ([j; j + 1] ++ w_jumps w)).
        { cbn. constructor; [cbn; intros [Q|Q]; [lia|apply (FR j); auto]|]. constructor; [apply FR; auto|assumption]. }
        apply Permutation.Permutation_NoDup with (2 := Q). apply Permutation.Permutation_app_comm.
      + fold j. intros x I. apply in_app_or in I. destruct I as [I|I]; [auto|].
        assert (Hx : x = j \/ x = j + 1) by (cbn in I; destruct I as [<-|[<-|[]]]; auto). destruct (CO x Hx) as [? Z0]. split; [assumption|].
        rewrite DQ in Z0. destruct (existsb _ _); [discriminate|assumption].
      + fold j. intro x. rewrite existsb_app. cbn [existsb]. unfold upd. rewrite DQ, orb_false_r.
        destruct (existsb (Nat.eqb x) (w_jumps w)), (Nat.eqb x j), (Nat.eqb x (j + 1)); reflexivity.
    - split; cbn [w_stack w_dq w_fits w_jumps]; try assumption; eauto.
      + rewrite map_app, rev_app_distr. cbn [map rev app fst]. exact R.
      + intros r' f I. apply in_app_or in I. destruct I as [I|[E|[]]]; [auto|]. injection E as <- <-. auto.
  Qed.
  Lemma body_size r rest w : fst r <= snd r -> size (w_stack (body A fit detect r rest w)) < size (r :: rest).
  Proof.
    intro SE. unfold body, size. cbn [map list_sum fold_right]. destruct (detect r (fit r)) as [k|] eqn:D; cbn [w_stack]; [|unfold list_sum; cbn; lia].
    pose proof (detect_in _ _ _ SE D). destruct (Nat.ltb_spec (fst r) (k + fst r)), (Nat.ltb_spec (k + fst r + 1) (snd r));
      unfold list_sum; cbn [map fold_right fst snd]; lia.
  Qed.
  Lemma loop_inv fuel : forall w, inv w -> size (w_stack w) <= fuel -> exists w', loop A fit detect fuel w = Some w' /\ inv w' /\ w_stack w' = [].
  Proof.
    induction fuel as [|fuel IH]; intros w I H; cbn [loop]; destruct (w_stack w) as [|r rest] eqn:E.
    - exists w. auto.
    - exfalso. assert (SE : fst r <= snd r).
      { destruct I as [[[Q _] _] _ _ _ _ _]. apply Q. rewrite E. apply in_or_app. left. apply -> in_rev. left. reflexivity. }
      unfold size, list_sum in H. cbn [map fold_right] in H. lia.
    - exists w. auto.
    - assert (SE : fst r <= snd r).
      { destruct I as [[[Q _] _] _ _ _ _ _]. apply Q. rewrite E. apply in_or_app. left. apply -> in_rev. left. reflexivity. }
      apply IH; [apply inv_body; assumption|]. apply Nat.lt_succ_r. exact (Nat.lt_le_trans _ _ _ (body_size r rest w SE) H).
  Qed.
  Theorem split_total fuel : n <= fuel -> exists w, split_ramps A fit detect fuel dq0 n = Some w /\ inv w /\ w_stack w = [].
  Proof.
    intro H. unfold split_ramps. apply loop_inv; [apply inv_init|]. cbn [w_stack]. rewrite size_rev.
    destruct (init_ramps_runs dq0 n) as [SP C]. pose proof (sep_size (init_ramps dq0 n) 0 n SP) as Q. rewrite Nat.max_0_l in Q.
    assert (Q' : size (init_ramps dq0 n) + 0 <= n); [|lia]. apply Q. intros r I. split; [lia|].
    apply (C (snd r)). exists r. split; [assumption|]. destruct SP as [SP _]. specialize (SP r I). lia.
  Qed.
  (** the recorded ramps are the runs of the final DQ, latest first *)
  Lemma final_ramps w : inv w -> w_stack w = [] -> map fst (w_fits w) = rev (init_ramps (w_dq w) n).
  Proof.
    intros [R _ _ _ _ _] E. rewrite E in R. cbn [rev app] in R. rewrite <- (rev_involutive (map fst (w_fits w))). f_equal.
    apply (runs_unique (w_dq w) n); [assumption|apply init_ramps_runs].
  Qed.
End Loop.

(** when no ramp on the stack is split, the loop records them all *)
Lemma loop_record A (fit : ramp -> A) detect l : forall w, w_stack w = l -> (forall r, In r l -> detect r (fit r) = None) ->
  forall fuel, length l <= fuel -> exists w', loop A fit detect fuel w = Some w' /\ w_dq w' = w_dq w /\
    w_fits w' = w_fits w ++ map (fun r => (r, fit r)) l /\ w_jumps w' = w_jumps w.
Proof.
  induction l as [|r l IH]; intros w E D fuel H.
  - exists w. destruct fuel; cbn [loop]; rewrite E; cbn [map]; rewrite app_nil_r; auto.
  - destruct fuel as [|fuel]; [cbn in H; lia|]. cbn [loop]. rewrite E.
    destruct (IH (body A fit detect r l w)) with (fuel := fuel) as (w' & H1 & H2 & H3 & H4).
    + unfold body. rewrite (D r) by (left; reflexivity). reflexivity.
    + intros x I. apply D. right. exact I.
    + cbn in H. lia.
    + exists w'. split; [exact H1|]. rewrite H2, H3, H4. unfold body. rewrite (D r) by (left; reflexivity). cbn. rewrite <- app_assoc. auto.
Qed.
Lemma size_length l : (forall r, In r l -> fst r <= snd r) -> length l <= size l.
Proof. intro H. unfold size, list_sum. induction l as [|r l IH]; cbn [length map fold_right]; [lia|]. pose proof (H r (or_introl eq_refl)).
  assert (length l <= fold_right Nat.add 0 (map (fun r => snd r + 1 - fst r) l)) by (apply IH; intros; apply H; right; assumption). lia. Qed.
Lemma runs_length dq n : length (init_ramps dq n) <= n.
Proof.
  destruct (init_ramps_runs dq n) as [SP C]. pose proof (sep_size (init_ramps dq n) 0 n SP) as Q. rewrite Nat.max_0_l in Q.
  assert (Q' : size (init_ramps dq n) + 0 <= n).
  { apply Q. intros r I. split; [lia|]. apply (C (snd r)). exists r. split; [assumption|]. destruct SP as [SP _]. specialize (SP r I). lia. }
  pose proof (size_length (init_ramps dq n) (proj1 SP)). lia.
Qed.
Lemma split_record A (fit : ramp -> A) detect dq n : (forall r, In r (init_ramps dq n) -> detect r (fit r) = None) ->
  exists w, split_ramps A fit detect n dq n = Some w /\ w_dq w = dq /\ w_fits w = map (fun r => (r, fit r)) (rev (init_ramps dq n)) /\ w_jumps w = [].
Proof.
  intro D. unfold split_ramps.
  destruct (loop_record A fit detect (rev (init_ramps dq n)) {| w_stack := rev (init_ramps dq n); w_dq := dq; w_fits := []; w_jumps := [] |} eq_refl) with (fuel := n)
    as (w & H1 & H2 & H3 & H4).
  - intros r I. apply D. apply in_rev. exact I.
  - rewrite rev_length. apply runs_length.
  - exists w. auto.
Qed.
