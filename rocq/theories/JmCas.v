(** C111 for the Casertano+22 fit: raising the jump threshold never adds a jump. *)
From Verif Require Import Base BaseLemmas FLaws RBase Cas22Model Cas22Spec Cas22Proofs Cas22Props.
From Coq Require Import Reals Lra.
Local Open Scope nat_scope.

Section Tree.
  Variable A : Type.
  Variable fit : ramp -> A.
  (** the resultants flagged when a ramp and the pieces it falls into are searched *)
  Inductive cut (detect : ramp -> A -> option nat) : ramp -> nat -> Prop :=
  | cut0 r k : detect r (fit r) = Some k -> cut detect r (k + fst r)
  | cut1 r k : detect r (fit r) = Some k -> cut detect r (k + fst r + 1)
  | cutl r k j : detect r (fit r) = Some k -> fst r < k + fst r -> cut detect (fst r, k + fst r - 1) j -> cut detect r j
  | cutr r k j : detect r (fit r) = Some k -> k + fst r + 1 < snd r -> cut detect (k + fst r + 1 + 1, snd r) j -> cut detect r j.
  Lemma loop_cut detect fuel : forall w w', loop A fit detect fuel w = Some w' ->
    forall j, In j (w_jumps w') <-> In j (w_jumps w) \/ exists r, In r (w_stack w) /\ cut detect r j.
  Proof.
    induction fuel as [|m IH]; intros w w' H j; cbn [loop] in H; destruct (w_stack w) as [|r rest] eqn:E.
    - injection H as <-. split; [auto|]. intros [|(r & [] & _)]. assumption.
    - discriminate.
    - injection H as <-. split; [auto|]. intros [|(r & [] & _)]. assumption.
    - rewrite (IH _ _ H j). unfold body. destruct (detect r (fit r)) as [k|] eqn:D.
      + cbv zeta. cbn [w_jumps w_stack]. rewrite in_app_iff.
        set (L := (fst r, k + fst r - 1)). set (Rt := (k + fst r + 1 + 1, snd r)).
        assert (S : forall x, In x (if Nat.ltb (k + fst r + 1) (snd r) then Rt :: (if Nat.ltb (fst r) (k + fst r) then L :: rest else rest) else (if Nat.ltb (fst r) (k + fst r) then L :: rest else rest)) <->
           (k + fst r + 1 < snd r /\ x = Rt) \/ (fst r < k + fst r /\ x = L) \/ In x rest).
        { intro x. destruct (Nat.ltb_spec (k + fst r + 1) (snd r)), (Nat.ltb_spec (fst r) (k + fst r)); cbn [In]; intuition (try lia; auto). }
        split.
        * intros [[H0|H0]|(x & H1 & H2)]; [left; exact H0| |].
          -- right. exists r. split; [left; reflexivity|]. destruct H0 as [<-|[<-|[]]]; [apply cut0|apply cut1]; exact D.
          -- right. apply S in H1. destruct H1 as [(Q & ->)|[(Q & ->)|Q]].
             ++ exists r. split; [left; reflexivity|]. eapply cutr; eassumption.
             ++ exists r. split; [left; reflexivity|]. eapply cutl; eassumption.
             ++ exists x. split; [right; exact Q|exact H2].
        * intros [H0|(x & [<-|H1] & H2)]; [left; left; exact H0| |].
          -- inversion H2 as [r0 k0 D0|r0 k0 D0|r0 k0 j0 D0 Q Hc|r0 k0 j0 D0 Q Hc]; subst; rewrite D in D0; injection D0 as <-.
             ++ left; right; left; reflexivity.
             ++ left; right; right; left; reflexivity.
             ++ right. exists L. split; [apply S; auto|exact Hc].
             ++ right. exists Rt. split; [apply S; auto|exact Hc].
          -- right. exists x. split; [apply S; auto|exact H2].
      + cbn [w_jumps w_stack]. split.
        * intros [H0|(x & H1 & H2)]; [left; exact H0|]. right. exists x. split; [right; exact H1|exact H2].
        * intros [H0|(x & [<-|H1] & H2)]; [left; exact H0| |right; exists x; auto].
          inversion H2; subst; congruence.
  Qed.
  Lemma cut_mono d1 d2 : (forall r k, d1 r (fit r) = Some k -> d2 r (fit r) = Some k) -> forall r j, cut d1 r j -> cut d2 r j.
  Proof.
    intros M r j H. induction H as [r k D|r k D|r k j D Q _ IH|r k j D Q _ IH].
    - apply cut0. auto. - apply cut1. auto. - eapply cutl; [apply M; exact D|exact Q|exact IH]. - eapply cutr; [apply M; exact D|exact Q|exact IH].
  Qed.
End Tree.

(** With thresholds that are nowhere lower, the flagged resultants are among those flagged before, in any arithmetic. *)
Theorem C111_cas22 : forall fo, FLaws fo -> forall pow lg ic cc ic' cc' t tau nr n y dq rn b out out' b1 b2,
  (forall s, fle fo (threshold fo lg ic cc s) (threshold fo lg ic' cc' s) = true) ->
  fit_jumps fo pow lg true ic cc t tau nr n y dq rn b = Some (out, b1) ->
  fit_jumps fo pow lg true ic' cc' t tau nr n y dq rn b = Some (out', b2) ->
  forall j, In j (p_jumps fo out') -> In j (p_jumps fo out).
Proof.
  intros fo L pow lg ic cc ic' cc' t tau nr n y dq rn b out out' b1 b2 T H H' j. unfold fit_jumps in H, H'.
  destruct (split_ramps _ _ (detect fo lg t tau nr true ic cc _) _ _ _) as [w|] eqn:E; [|discriminate]. cbn [bind] in H. injection H as <- _.
  destruct (split_ramps _ _ (detect fo lg t tau nr true ic' cc' _) _ _ _) as [w'|] eqn:E'; [|discriminate]. cbn [bind] in H'. injection H' as <- _.
  cbn [p_jumps]. unfold split_ramps in E, E'. rewrite (loop_cut _ _ _ _ _ _ E j), (loop_cut _ _ _ _ _ _ E' j). cbn [w_jumps w_stack].
  intros [[]|(r & I & C)]. right. exists r. split; [exact I|]. revert C. apply cut_mono. clear - T L. intros r k. unfold detect.
  destruct (fit_statistic _ _ _ _ _ _ r) as [k' m]. set (f := f_slope _). specialize (T f).
  destruct (flt fo (threshold fo lg ic' cc' f) m) eqn:F; [|discriminate]. intro Q. injection Q as ->.
  destruct (flt fo (threshold fo lg ic cc f) m) eqn:G; [reflexivity|]. rewrite (fle_spec fo L), !andb_true_iff, !negb_true_iff in T.
  destruct T as ((T & _) & T'). rewrite (nflt_trans fo L _ _ _ T T' G) in F. discriminate.
Qed.
Print Assumptions C111_cas22.
(** ... and therefore so are the flags of the returned DQ *)
Theorem C111_cas22_dq : forall fo, FLaws fo -> fisnan fo (fnan fo) = true -> forall pow lg ic cc ic' cc' t tau nr n y dq rn b out out' b1 b2,
  (forall s, fle fo (threshold fo lg ic cc s) (threshold fo lg ic' cc' s) = true) ->
  fit_jumps fo pow lg true ic cc t tau nr n y dq rn b = Some (out, b1) ->
  fit_jumps fo pow lg true ic' cc' t tau nr n y dq rn b = Some (out', b2) ->
  forall k, dq k = 0%Z -> p_dq fo out' k <> 0%Z -> p_dq fo out k = p_dq fo out' k.
Proof.
  intros fo L HN pow lg ic cc ic' cc' t tau nr n y dq rn b out out' b1 b2 T H H' k D Q.
  pose proof (C111_cas22 fo L pow lg ic cc ic' cc' t tau nr n y dq rn b out out' b1 b2 T H H' k) as J.
  destruct (C27_accounts fo L HN pow lg true ic cc t tau nr n y dq rn b) as (o & b' & E & A1 & A2 & _). rewrite H in E. injection E as <- <-.
  destruct (C27_accounts fo L HN pow lg true ic' cc' t tau nr n y dq rn b) as (o & b' & E & B1 & B2 & _). rewrite H' in E. injection E as <- <-.
  destruct (Nat.lt_ge_cases k n) as [Hk|Hk].
  - destruct (B1 k Hk D) as [(B & _)|(B & B' & _)]; [contradiction|]. destruct (A1 k Hk D) as [(_ & A & _)|(A & _)]; [elim A; auto|]. congruence.
  - destruct (B2 k (or_introl Hk)) as (B & _). congruence.
Qed.
Print Assumptions C111_cas22_dq.
(** In exact arithmetic it is enough to raise the intercept. *)
Theorem C111_cas22_intercept : forall lg (ic cc ic' : R), (ic <= ic')%R -> forall s, fle RF (threshold RF lg ic cc s) (threshold RF lg ic' cc s) = true.
Proof.
  intros lg ic cc ic' H s. unfold threshold. cbv zeta. cbn [fle RF]. apply Rleb_spec. cbn [fsub fmul RF].
  match goal with |- (_ - ?x <= _ - ?x)%R => generalize x end. intro x. lra.
Qed.
Print Assumptions C111_cas22_intercept.
Example C111_cas22_example : let go ic := match fit_jumps B64 ex_pow ex_lg true (fz B64 ic) (fz B64 0) (fun i => fz B64 (Z.of_nat i + 1)) (fun i => fz B64 (Z.of_nat i + 1)) (fun _ => 1%nat) 10
      (fun i => fz B64 (nth i [0; 1; 2; 102; 103; 104; 105; 125; 126; 127]%Z 0%Z)) (fun _ => 0%Z) (fone B64) (fun _ _ => (fzero B64, fzero B64)) with Some (o, _) => p_jumps B64 o | None => [99] end in
  (forall s, fle B64 (threshold B64 ex_lg (fz B64 4) (fz B64 0) s) (threshold B64 ex_lg (fz B64 9) (fz B64 0) s) = true) /\
  go 4%Z = [2; 3; 6; 7] /\ go 9%Z = [2; 3].
Proof. cbv zeta. split; [reflexivity|]. split; vm_compute; reflexivity. Qed.
