(** Small facts about the shared vocabulary. *)
From Verif Require Import Base.
From Coq Require Import ZifyBool ZifyNat ZifyN.

Lemma bit_testbit k j : N.testbit (bit k) j = N.eqb k j.
Proof. unfold bit. rewrite N.shiftl_1_l. destruct (N.eqb_spec k j) as [->|H].
  - apply N.pow2_bits_true. - apply N.pow2_bits_false; assumption. Qed.

Lemma has_bit w k : has w (bit k) = N.testbit w k.
Proof.
  unfold has. destruct (N.eqb_spec (N.land w (bit k)) 0) as [H|H]; cbn [negb].
  - assert (H1 : N.testbit (N.land w (bit k)) k = false) by (rewrite H; apply N.bits_0).
    rewrite N.land_spec, bit_testbit, N.eqb_refl, andb_true_r in H1. congruence.
  - destruct (N.testbit w k) eqn:E; [reflexivity|]. exfalso; apply H.
    apply N.bits_inj. intro j. rewrite N.bits_0, N.land_spec, bit_testbit.
    destruct (N.eqb_spec k j) as [->|]; [rewrite E|rewrite andb_false_r]; reflexivity.
Qed.

Lemma flag_if_testbit b f j : N.testbit (flag_if b f) j = b && N.testbit f j.
Proof. unfold flag_if; destruct b; [reflexivity|apply N.bits_0]. Qed.

Lemma foldM_app {A S} (body : S -> A -> option S) l1 l2 s :
  foldM body (l1 ++ l2) s = bind (foldM body l1 s) (foldM body l2).
Proof. revert s; induction l1 as [|x l1 IH]; intro s; cbn; [reflexivity|].
  destruct (body s x); [apply IH|reflexivity]. Qed.

Lemma foldM_inv {A S} (P : S -> Prop) (body : S -> A -> option S) l s s' :
  P s -> (forall x t t', In x l -> P t -> body t x = Some t' -> P t') ->
  foldM body l s = Some s' -> P s'.
Proof. revert s; induction l as [|x l IH]; intros s H0 Hs; cbn.
  - intros [= <-]; exact H0.
  - destruct (body s x) as [t|] eqn:E; [|discriminate]. intro HF.
    apply (IH t); [eapply Hs; [left; reflexivity|exact H0|exact E]| |exact HF].
    intros y u u' Hy; apply Hs; right; exact Hy. Qed.

Lemma foldM_seq_inv {S} (P : nat -> S -> Prop) (body : S -> nat -> option S) a k s s' :
  P a s ->
  (forall j t t', a <= j < a + k -> P j t -> body t j = Some t' -> P (j + 1) t') ->
  foldM body (seq a k) s = Some s' -> P (a + k) s'.
Proof. revert a s; induction k as [|k IH]; intros a s H0 Hs; cbn.
  - intros [= <-]; rewrite Nat.add_0_r; exact H0.
  - destruct (body s a) as [t|] eqn:E; [|discriminate]. intro HF.
    replace (a + Datatypes.S k) with (Datatypes.S a + k) by lia.
    apply (IH _ t); [rewrite <- Nat.add_1_r; apply (Hs a s); [lia|exact H0|exact E]| |exact HF].
    intros j u u' Hj; apply Hs; lia. Qed.

Lemma foldM_total {A S} (body : S -> A -> option S) l s :
  (forall x t, In x l -> exists t', body t x = Some t') -> exists s', foldM body l s = Some s'.
Proof. revert s; induction l as [|x l IH]; intros s H; cbn; [eexists; reflexivity|].
  destruct (H x s (or_introl eq_refl)) as [t ->]. apply IH. intros y u Hy; apply H; right; exact Hy. Qed.

(** In-place OR loops: the result is the start value OR-ed with every contribution. *)
Lemma foldM_or {A} (body : img bool -> A -> option (img bool)) (contrib : A -> nat -> nat -> bool)
      (P : nat -> nat -> Prop) l d d' :
  (forall x t t', In x l -> body t x = Some t' ->
      forall r c, P r c -> t' r c = t r c || contrib x r c) ->
  foldM body l d = Some d' ->
  forall r c, P r c -> d' r c = d r c || existsb (fun x => contrib x r c) l.
Proof. revert d; induction l as [|x l IH]; intros d H; cbn.
  - intros [= <-] r c _; rewrite orb_false_r; reflexivity.
  - destruct (body d x) as [t|] eqn:E; [|discriminate]. intros HF r c Hrc.
    rewrite (IH t) with (r := r) (c := c); [| |exact HF|exact Hrc].
    + rewrite (H x d t (or_introl eq_refl) E r c Hrc), orb_assoc; reflexivity.
    + intros y u u' Hy; apply H; right; exact Hy. Qed.

Lemma upd_same {A} k (v : A) f : upd k v f k = v.
Proof. unfold upd; rewrite Nat.eqb_refl; reflexivity. Qed.
Lemma upd_other {A} k j (v : A) f : j <> k -> upd k v f j = f j.
Proof. intro H; unfold upd; destruct (Nat.eqb_spec j k); [contradiction|reflexivity]. Qed.

Lemma bind_Some {A B} (x : option A) (f : A -> option B) b :
  bind x f = Some b -> exists a, x = Some a /\ f a = Some b.
Proof. destruct x as [a|]; cbn; [intro H; exists a; auto|discriminate]. Qed.

Lemma skipn_skipn {A} x y (l : list A) : skipn x (skipn y l) = skipn (x + y) l.
Proof. revert l; induction y as [|y IH]; intro l; [rewrite Nat.add_0_r; reflexivity|].
  rewrite Nat.add_succ_r. destruct l as [|a l]; [rewrite !skipn_nil; reflexivity|]. cbn. apply IH. Qed.
