(** Proofs about the likelihood ramp fit: the recursions over a tridiagonal matrix. *)
From Verif Require Import Base RBase LikelyModel LikelySpec.
From Coq Require Import Reals Lra Lia.
Local Open Scope R_scope.

Ltac eqR := match goal with |- @eq _ ?u ?v => change (@eq R u v) end.
(** ** Sums *)
Lemma Sn_ext n f g : (forall i, (i < n)%nat -> f i = g i) -> Sn n f = Sn n g.
Proof. induction n as [|n IH]; intro H; [reflexivity|]. cbn [Sn]. rewrite (H n) by lia. rewrite IH; [reflexivity|]. intros; apply H; lia. Qed.
Lemma Sn_zero n f : (forall i, (i < n)%nat -> f i = 0) -> Sn n f = 0.
Proof. induction n as [|n IH]; intro H; [reflexivity|]. cbn [Sn]. rewrite (H n) by lia. rewrite IH; [ring|]. intros; apply H; lia. Qed.
Lemma Sn_plus n f g : Sn n (fun i => f i + g i) = Sn n f + Sn n g.
Proof. induction n as [|n IH]; cbn [Sn]; [ring|]. rewrite IH; ring. Qed.
Lemma Sn_scal n k f : Sn n (fun i => k * f i) = k * Sn n f.
Proof. induction n as [|n IH]; cbn [Sn]; [ring|]. rewrite IH; ring. Qed.
Lemma Sn_swap n m (f : nat -> nat -> R) : Sn n (fun i => Sn m (fun j => f i j)) = Sn m (fun j => Sn n (fun i => f i j)).
Proof. induction n as [|n IH]; cbn [Sn]; [symmetry; apply Sn_zero; reflexivity|]. rewrite IH, (Sn_plus m (fun j => Sn n (fun i => f i j))). reflexivity. Qed.
Lemma Sn_single n k f : (k < n)%nat -> (forall i, (i < n)%nat -> i <> k -> f i = 0) -> Sn n f = f k.
Proof.
  induction n as [|n IH]; intros H Z; [lia|]. cbn [Sn]. destruct (Nat.eq_dec k n) as [->|N].
  - rewrite Sn_zero; [ring|]. intros i Hi. apply Z; lia.
  - rewrite IH; [rewrite (Z n) by lia; ring|lia|]. intros; apply Z; lia.
Qed.
Lemma Sn_nonneg n f : (forall i, (i < n)%nat -> 0 <= f i) -> 0 <= Sn n f.
Proof. induction n as [|n IH]; intro H; cbn [Sn]; [lra|]. pose proof (H n ltac:(lia)). assert (0 <= Sn n f) by (apply IH; intros; apply H; lia). lra. Qed.
Lemma Sn_shift n f : (1 <= n)%nat -> Sn n f = f 0%nat + Sn (n - 1) (fun i => f (S i)).
Proof.
  intro H. destruct n as [|m]; [lia|]. replace (S m - 1)%nat with m by lia. clear H.
  induction m as [|m IH]; [cbn [Sn]; ring|]. cbn [Sn]. cbn [Sn] in IH. rewrite IH. ring.
Qed.
Lemma lsum_Sn f n : lsum RF f n = Sn n f.
Proof.
  unfold lsum. induction n as [|n IH]; [reflexivity|]. rewrite seq_S, map_app, fold_left_app. cbn [map fold_left Sn].
  rewrite IH, Nat.add_0_l. reflexivity.
Qed.
Lemma Su_ext n use f g : (forall i, (i < n)%nat -> use i = true -> f i = g i) -> Su n use f = Su n use g.
Proof. intro H. apply Sn_ext. intros i Hi. destruct (use i) eqn:E; auto. Qed.
Lemma Su_plus n use f g : Su n use (fun i => f i + g i) = Su n use f + Su n use g.
Proof. unfold Su. rewrite <- Sn_plus. apply Sn_ext. intros i _. destruct (use i); ring. Qed.
Lemma Su_scal n use k f : Su n use (fun i => k * f i) = k * Su n use f.
Proof. unfold Su. rewrite <- Sn_scal. apply Sn_ext. intros i _. destruct (use i); ring. Qed.
Lemma Su_minus n use f g : Su n use (fun i => f i - g i) = Su n use f - Su n use g.
Proof. rewrite (Su_ext n use _ (fun i => f i + -1 * g i)) by (intros; ring). rewrite Su_plus, Su_scal. ring. Qed.
Lemma Su_swap n use (f : nat -> nat -> R) : Su n use (fun i => Su n use (fun j => f i j)) = Su n use (fun j => Su n use (fun i => f i j)).
Proof.
  unfold Su. rewrite (Sn_ext n _ (fun i => Sn n (fun j => if use i then if use j then f i j else 0 else 0))).
  - rewrite Sn_swap. apply Sn_ext. intros j _. destruct (use j) eqn:E.
    + apply Sn_ext. intros i _. destruct (use i); reflexivity.
    + apply Sn_zero. intros i _. destruct (use i); reflexivity.
  - intros i _. destruct (use i); [reflexivity|]. symmetry; apply Sn_zero; reflexivity.
Qed.
(** a solution pairs with any other by symmetry *)
Lemma solves_pair n use V x y f g : (forall i j, V i j = V j i) -> solves n use V x f -> solves n use V y g ->
  Su n use (fun i => g i * x i) = Su n use (fun i => f i * y i).
Proof.
  intros Sy X Y.
  transitivity (Su n use (fun i => Su n use (fun j => V i j * y j * x i))).
  - apply Su_ext. intros i Hi Ui. rewrite <- (Y i Hi Ui). rewrite Rmult_comm, <- Su_scal. apply Su_ext. intros; ring.
  - rewrite Su_swap. apply Su_ext. intros j Hj Uj. rewrite <- (X j Hj Uj). rewrite Rmult_comm, <- Su_scal. apply Su_ext. intros i Hi Ui. rewrite (Sy i j). ring.
Qed.
Lemma tri_sym a b i j : tri a b i j = tri a b j i.
Proof.
  unfold tri. rewrite (Nat.eqb_sym j i).
  destruct (Nat.eqb_spec i j) as [->|N]; [reflexivity|].
  destruct (Nat.eqb_spec j (S i)) as [E|N1]; destruct (Nat.eqb_spec i (S j)) as [E'|N2]; try reflexivity. lia.
Qed.
Lemma tri_row n a b x i : (i < n)%nat ->
  Sn n (fun j => tri a b i j * x j) =
  (match i with O => 0 | S k => b k * x k end) + a i * x i + (if Nat.ltb (S i) n then b i * x (S i) else 0).
Proof.
  intro H.
  rewrite (Sn_ext n _ (fun j => (if Nat.eqb i j then a i * x i else 0) + ((if Nat.eqb j (S i) then b i * x (S i) else 0) + (if Nat.eqb i (S j) then b j * x j else 0)))).
  2:{ intros j _. unfold tri. destruct (Nat.eqb_spec i j) as [<-|N].
      - destruct (Nat.eqb_spec i (S i)); [lia|]. ring.
      - destruct (Nat.eqb_spec j (S i)) as [->|N1]; [destruct (Nat.eqb_spec i (S (S i))); [lia|ring]|]. destruct (Nat.eqb_spec i (S j)); ring. }
  rewrite !Sn_plus.
  rewrite (Sn_single n i) by (exact H || (intros j _ N; destruct (Nat.eqb_spec i j); [congruence|reflexivity])). rewrite Nat.eqb_refl.
  replace (Sn n (fun j => if Nat.eqb j (S i) then b i * x (S i) else 0)) with (if Nat.ltb (S i) n then b i * x (S i) else 0).
  2:{ symmetry. destruct (Nat.ltb_spec (S i) n) as [L|L].
      - rewrite (Sn_single n (S i)) by (exact L || (intros j _ N; destruct (Nat.eqb_spec j (S i)); [congruence|reflexivity])). rewrite Nat.eqb_refl. reflexivity.
      - apply Sn_zero. intros j Hj. destruct (Nat.eqb_spec j (S i)); [lia|reflexivity]. }
  destruct i as [|k].
  - rewrite (Sn_zero n (fun i => if Nat.eqb 0 (S i) then _ else _)) by reflexivity. ring.
  - rewrite (Sn_single n k) by (lia || (intros j _ N; destruct (Nat.eqb_spec (S k) (S j)); [congruence|reflexivity])). rewrite Nat.eqb_refl. ring.
Qed.

(** ** The recursions, abstractly *)
Section Core.
  Variables (n : nat) (a b th ph s : nat -> R).
  Hypothesis n1 : (1 <= n)%nat.
  Hypothesis th0 : th 0%nat = 1. Hypothesis th1 : th 1%nat = a 0%nat.
  Hypothesis thS : forall i, th (S (S i)) = a (S i) * th (S i) - b i * b i * th i.
  Hypothesis phn : ph n = 1. Hypothesis phn1 : ph (n - 1)%nat = a (n - 1)%nat.
  Hypothesis phS : forall i, (S (S i) <= n)%nat -> ph i = a i * ph (S i) - b i * b i * ph (S (S i)).
  Hypothesis s0 : s 0%nat = -1. Hypothesis sS : forall i, s (S i) = - s i.
  Lemma s_sq i : s i * s i = 1.
  Proof. induction i as [|i IH]; [rewrite s0; ring|]. rewrite sS. lra. Qed.
  (** the Wronskian *)
  Lemma wron i : (S i < n)%nat -> th (S i) * ph (S i) - b i * b i * th i * ph (S (S i)) = th n.
  Proof.
    intro H. remember (n - 2 - i)%nat as k eqn:K. revert i H K. induction k as [|k IH]; intros i H K.
    - assert (E : n = S (S i)) by lia. rewrite E in *. rewrite thS. replace (S i) with (S (S i) - 1)%nat at 2 by lia. rewrite phn1, phn.
      replace (S (S i) - 1)%nat with (S i) by lia. ring.
    - rewrite <- (IH (S i)) by lia. rewrite thS, (phS (S i)) by lia. ring.
  Qed.
  Lemma wron0 : ph 0%nat = th n.
  Proof.
    destruct (Nat.eq_dec n 1) as [E|N].
    - rewrite E in *. rewrite th1. exact phn1.
    - rewrite <- (wron 0) by lia. rewrite (phS 0) by lia. rewrite th1, th0. ring.
  Qed.
  Section Rhs.
    Variables (d T P : nat -> R).
    Hypothesis T0 : T 0%nat = s 0%nat * d 0%nat * th 0%nat.
    Hypothesis TS : forall i, (S i < n)%nat -> T (S i) = b i * T i + s (S i) * d (S i) * th (S i).
    Hypothesis Pn : P (n - 1)%nat = 0.
    Hypothesis PS : forall i, (S i < n)%nat -> P i = b i * (P (S i) + s (S i) * d (S i) * ph (S (S i))).
    Definition sol (i : nat) : R := s i / th n * (ph (S i) * T i + th i * P i).
    Lemma sol_row i : th n <> 0 -> (i < n)%nat ->
      (match i with O => 0 | S k => b k * sol k end) + a i * sol i + (if Nat.ltb (S i) n then b i * sol (S i) else 0) = d i.
    Proof.
      intros D H. pose proof (s_sq i) as Q. unfold sol.
      destruct (Nat.ltb_spec (S i) n) as [L|L].
      - pose proof (TS i L) as ET. pose proof (PS i L) as EP. pose proof (phS i ltac:(lia)) as Eph.
        destruct i as [|k].
        + pose proof (wron 0 L) as W. rewrite sS. rewrite ET, EP, sS, T0, th0, th1. rewrite th1, th0 in W. rewrite s0.
          apply (Rmult_eq_reg_r (th n)); [|exact D]. field_simplify; [|exact D]. rewrite <- W. ring.
        + pose proof (wron k ltac:(lia)) as W. pose proof (TS k ltac:(lia)) as ET'. pose proof (PS k ltac:(lia)) as EP'.
          rewrite (sS (S k)).
          replace (s k) with (- s (S k)) by (rewrite sS; ring).
          assert (I : b k * T k = T (S k) - s (S k) * d (S k) * th (S k)) by (rewrite ET'; ring).
          rewrite ET, EP', (sS (S k)). 
          assert (J : b (S k) * P (S (S k)) = P (S k) - b (S k) * s (S (S k)) * d (S (S k)) * ph (S (S (S k)))) by (rewrite EP; ring).
          rewrite (sS (S k)) in J.
          transitivity (s (S k) / th n * (- ph (S k) * (b k * T k) - b k * b k * th k * (P (S k) + s (S k) * d (S k) * ph (S (S k)))
             + a (S k) * (ph (S (S k)) * T (S k) + th (S k) * P (S k))
             - b (S k) * ph (S (S (S k))) * (b (S k) * T (S k) + - s (S k) * d (S (S k)) * th (S (S k))) - th (S (S k)) * (b (S k) * P (S (S k))))).
          { field. exact D. }
          rewrite I, J. rewrite (thS k).
          apply (Rmult_eq_reg_r (th n)); [|exact D]. field_simplify; [|exact D].
          transitivity ((s (S k) * s (S k)) * d (S k) * (th (S k) * ph (S k) - b k * b k * th k * ph (S (S k))) + s (S k) * T (S k) * (a (S k) * ph (S (S k)) - b (S k) * b (S k) * ph (S (S (S k))) - ph (S k))).
          { ring. }
          rewrite W, Q. rewrite Eph. ring.
      - assert (E : i = (n - 1)%nat) by lia.
        destruct i as [|k].
        + assert (n = 1%nat) by lia. subst n. cbn [Nat.sub] in *. rewrite phn, Pn, T0, th0, s0, th1. rewrite th1 in D. field. exact D.
        + pose proof (wron k ltac:(lia)) as W. pose proof (TS k ltac:(lia)) as ET. pose proof (PS k ltac:(lia)) as EP.
          rewrite <- E in Pn, phn1. assert (Hn : n = S (S k)) by lia. rewrite Hn in *. rewrite phn, Pn in *.
          replace (s k) with (- s (S k)) by (rewrite sS; ring). rewrite EP.
          assert (I : b k * T k = T (S k) - s (S k) * d (S k) * th (S k)) by (rewrite ET; ring).
          transitivity (s (S k) / th (S (S k)) * (- ph (S k) * (b k * T k) - b k * b k * th k * (0 + s (S k) * d (S k) * 1) + a (S k) * T (S k))); [field; exact D|].
          rewrite I, phn1. rewrite thS in *. apply (Rmult_eq_reg_r (a (S k) * th (S k) - b k * b k * th k)); [|exact D]. field_simplify; [|exact D].
          transitivity ((s (S k) * s (S k)) * d (S k) * (a (S k) * th (S k) - b k * b k * th k)); [ring|]. rewrite Q. ring.
    Qed.
    Lemma sol_solves i : th n <> 0 -> (i < n)%nat -> Sn n (fun j => tri a b i j * sol j) = d i.
    Proof. intros D H. rewrite tri_row by exact H. apply sol_row; assumption. Qed.
    (** the quadratic form of the solution with its right-hand side *)
    Lemma tele k : (S k < n)%nat -> Sn (S k) (fun i => d (S i) * s (S i) * th (S i) * P (S i)) = Sn (S k) (fun i => d (S i) * s (S i) * ph (S (S i)) * (b i * T i)) + (T (S k) * P (S k) - T 0%nat * P 0%nat).
    Proof.
      induction k as [|k IH]; intro H.
      - cbn [Sn]. rewrite (TS 0) by lia. rewrite (PS 0) by lia. ring.
      - cbn [Sn]. cbn [Sn] in IH. rewrite IH by lia. rewrite (TS (S k)) by lia. rewrite (PS (S k)) by lia. ring.
    Qed.
    Lemma sol_quad : th n <> 0 ->
      Sn n (fun i => d i * sol i) = 2 * Sn n (fun i => d i * s i / th n * ph (S i) * (match i with O => 0 | S k => b k * T k end)) + Sn n (fun i => d i * d i * th i * ph (S i) / th n).
    Proof.
      intro D.
      assert (A : Sn n (fun i => d i * s i * th i * P i) = Sn n (fun i => d i * s i * ph (S i) * (match i with O => 0 | S k => b k * T k end))).
      { rewrite !(Sn_shift n) by exact n1.
        destruct (Nat.eq_dec n 1) as [E|N].
        - replace (n - 1)%nat with 0%nat in * by lia. cbn [Sn]. rewrite Pn. ring.
        - replace (n - 1)%nat with (S (n - 2)) in * by lia. rewrite (tele (n - 2)) by lia. rewrite Pn, T0. ring. }
      rewrite (Sn_ext n _ (fun i => / th n * (d i * s i * ph (S i) * (match i with O => 0 | S k => b k * T k end) + (d i * d i * th i * ph (S i) + d i * s i * th i * P i)))).
      2:{ intros i Hi. unfold sol. pose proof (s_sq i) as Q. destruct i as [|k].
          - rewrite T0. transitivity (d 0%nat / th n * (ph 1%nat * ((s 0%nat * s 0%nat) * d 0%nat * th 0%nat) + s 0%nat * th 0%nat * P 0%nat)); [field; exact D|]. rewrite Q. field. exact D.
          - rewrite TS by lia. transitivity (d (S k) / th n * (ph (S (S k)) * (s (S k) * (b k * T k) + (s (S k) * s (S k)) * d (S k) * th (S k)) + s (S k) * th (S k) * P (S k))); [field; exact D|]. rewrite Q. field. exact D. }
      rewrite Sn_scal, !Sn_plus, A.
      rewrite (Sn_ext n (fun i => d i * s i / th n * ph (S i) * _) (fun i => / th n * (d i * s i * ph (S i) * (match i with O => 0 | S k => b k * T k end)))) by (intros; unfold Rdiv; ring).
      rewrite (Sn_ext n (fun i => d i * d i * th i * ph (S i) / th n) (fun i => / th n * (d i * d i * th i * ph (S i)))) by (intros; unfold Rdiv; ring).
      rewrite !Sn_scal. ring.
    Qed.
  End Rhs.
End Core.

(** ** A positive definite tridiagonal matrix has positive leading minors *)
Section Minors.
  Variables (n : nat) (a b th : nat -> R).
  Hypothesis th0 : th 0%nat = 1. Hypothesis th1 : th 1%nat = a 0%nat.
  Hypothesis thS : forall i, th (S (S i)) = a (S i) * th (S i) - b i * b i * th i.
  Hypothesis PD : forall x, (exists i, (i < n)%nat /\ x i <> 0) -> 0 < Sn n (fun i => x i * Sn n (fun j => tri a b i j * x j)).
  Fixpoint pr (r j : nat) : R := match r with O => 1 | S r => b j * pr r (S j) end.
  Fixpoint alt (i : nat) : R := match i with O => -1 | S k => - alt k end.
  Lemma alt_sq i : alt i * alt i = 1. Proof. induction i; cbn [alt]; [ring|lra]. Qed.
  Definition edge (i j : nat) : R := if Nat.leb j i then alt j * th j * pr (i - j) j else 0.
  Lemma edge_row i j : (i < n)%nat -> (j <= i)%nat -> Sn n (fun k => tri a b j k * edge i k) = if Nat.eqb j i then alt i * th (S i) else 0.
  Proof.
    intros Hi Hj. rewrite tri_row by lia. unfold edge.
    destruct (Nat.eqb_spec j i) as [->|N].
    - rewrite Nat.leb_refl, Nat.sub_diag. cbn [pr].
      assert (E : (if Nat.ltb (S i) n then b i * (if Nat.leb (S i) i then alt (S i) * th (S i) * pr (i - S i) (S i) else 0) else 0) = 0).
      { destruct (Nat.leb_spec (S i) i); [lia|]. destruct (Nat.ltb (S i) n); ring. }
      rewrite E. destruct i as [|k].
      + rewrite th0, th1. ring.
      + destruct (Nat.leb_spec k (S k)); [|lia]. replace (S k - k)%nat with 1%nat by lia. cbn [pr alt]. rewrite thS. ring.
    - destruct (Nat.leb_spec j i); [|lia]. destruct (Nat.ltb_spec (S j) n); [|lia]. destruct (Nat.leb_spec (S j) i); [|lia].
      replace (i - j)%nat with (S (i - S j)) by lia. cbn [pr].
      destruct j as [|k].
      + cbn [alt]. rewrite th1, th0. ring.
      + destruct (Nat.leb_spec k i); [|lia]. replace (i - k)%nat with (S (S (i - S (S k)))) by lia. cbn [pr alt]. rewrite thS. ring.
  Qed.
  Lemma minors_pos i : (i <= n)%nat -> 0 < th i.
  Proof.
    induction i as [|i IH]; intro H; [rewrite th0; lra|]. assert (Hi : 0 < th i) by (apply IH; lia).
    assert (Q : 0 < Sn n (fun j => edge i j * Sn n (fun k => tri a b j k * edge i k))).
    { apply PD. exists i. split; [lia|]. unfold edge. rewrite Nat.leb_refl, Nat.sub_diag. cbn [pr]. pose proof (alt_sq i).
      intro Z. assert (alt i * th i = 0) as Z' by lra. apply Rmult_integral in Z'. destruct Z' as [Z'|Z']; [rewrite Z' in *; lra|lra]. }
    rewrite (Sn_single n i) in Q.
    - rewrite edge_row in Q by lia. rewrite Nat.eqb_refl in Q. unfold edge in Q. rewrite Nat.leb_refl, Nat.sub_diag in Q. cbn [pr] in Q.
      replace (alt i * th i * 1 * (alt i * th (S i))) with ((alt i * alt i) * (th i * th (S i))) in Q by ring. rewrite alt_sq, Rmult_1_l in Q.
      apply (Rmult_lt_reg_l (th i)); [exact Hi|]. rewrite Rmult_0_r. exact Q.
    - lia.
    - intros j Hj N. unfold edge at 1. destruct (Nat.leb_spec j i) as [L|L]; [|ring]. rewrite edge_row by lia.
      destruct (Nat.eqb_spec j i); [congruence|ring].
  Qed.
End Minors.

(** ** The model's recursions are instances *)
Section Inst.
  Variables (n : nat) (a b : nat -> R).
  Local Notation th := (theta RF a b). Local Notation ph := (phi RF n a b).
  Lemma thetas_pair i : thetas RF a b i = (th i, th (S i)).
  Proof. unfold theta. cbn [thetas]. destruct (thetas RF a b i) as [u v]. reflexivity. Qed.
  Lemma theta_0 : th 0%nat = 1. Proof. reflexivity. Qed.
  Lemma theta_1 : th 1%nat = a 0%nat. Proof. reflexivity. Qed.
  Lemma theta_S i : th (S (S i)) = a (S i) * th (S i) - b i * b i * th i.
  Proof. unfold theta at 1. cbn [thetas]. rewrite thetas_pair. reflexivity. Qed.
  Lemma phis_pair r : (r < n)%nat -> phis RF n a b r = (ph (n - r)%nat, ph (n - r - 1)%nat).
  Proof.
    intro H. unfold phi. replace (n - (n - r))%nat with r by lia. replace (n - (n - r - 1))%nat with (S r) by lia.
    cbn [phis]. destruct (phis RF n a b r) as [u v]. reflexivity.
  Qed.
  Lemma phi_n : ph n = 1. Proof. unfold phi. rewrite Nat.sub_diag. reflexivity. Qed.
  Lemma phi_n1 : (1 <= n)%nat -> ph (n - 1)%nat = a (n - 1)%nat.
  Proof. intro H. unfold phi. replace (n - (n - 1))%nat with 1%nat by lia. reflexivity. Qed.
  Lemma phi_S i : (S (S i) <= n)%nat -> ph i = a i * ph (S i) - b i * b i * ph (S (S i)).
  Proof.
    intro H. unfold phi at 1. replace (n - i)%nat with (S (S (n - S (S i)))) by lia. cbn [phis]. rewrite phis_pair by lia.
    replace (n - (n - S (S i)))%nat with (S (S i)) by lia. replace (S (S i) - 1)%nat with (S i) by lia.
    replace (n - 2 - (n - S (S i)))%nat with i by lia. reflexivity.
  Qed.
  Lemma sgn_0 : sgn RF 0 = -1. Proof. reflexivity. Qed.
  Lemma sgn_S i : sgn RF (S i) = - sgn RF i.
  Proof. unfold sgn. rewrite Nat.even_succ, <- Nat.negb_even. destruct (Nat.even i); cbn; lra. Qed.
  Section D.
    Variable d : nat -> R.
    Lemma ThetaD_0 : ThetaD RF a b d 1 = sgn RF 0 * d 0%nat * th 0%nat.
    Proof. cbn [ThetaD]. unfold lneg, sgn. cbn. eqR. ring. Qed.
    Lemma ThetaD_S i : ThetaD RF a b d (S (S i)) = b i * ThetaD RF a b d (S i) + sgn RF (S i) * d (S i) * th (S i).
    Proof. reflexivity. Qed.
    Lemma PhiD_n : PhiD RF n a b d (n - 1) = 0.
    Proof. unfold PhiD. rewrite Nat.sub_diag. reflexivity. Qed.
    Lemma PhiD_S i : (S i < n)%nat -> PhiD RF n a b d i = b i * (PhiD RF n a b d (S i) + sgn RF (S i) * d (S i) * ph (S (S i))).
    Proof.
      intro H. unfold PhiD. replace (n - 1 - i)%nat with (S (n - 1 - S i)) by lia. cbn [PhiDr].
      replace (n - 1 - (n - 1 - S i))%nat with (S i) by lia. replace (n - (n - 1 - S i))%nat with (S (S i)) by lia. replace (n - 2 - (n - 1 - S i))%nat with i by lia.
      cbn [fadd fmul RF]. apply Rmult_comm.
    Qed.
  End D.
  Lemma Theta_1 i : Theta RF a b i = ThetaD RF a b (fun _ => 1) (S i).
  Proof.
    induction i as [|i IH]; [cbn; eqR; ring|]. rewrite ThetaD_S, <- IH. cbn [Theta fadd fmul RF]. eqR. ring.
  Qed.
  Lemma Phi_1 i : (i < n)%nat -> Phi RF n a b i = PhiD RF n a b (fun _ => 1) i.
  Proof.
    intros H. unfold Phi, PhiD. generalize (n - 1 - i)%nat. intro r. induction r as [|r IH]; [reflexivity|]. cbn [Phir PhiDr]. rewrite IH. cbn [fadd fmul RF fone]. eqR. ring.
  Qed.
  Definition slv (d : nat -> R) (i : nat) : R := sgn RF i / th n * (ph (S i) * ThetaD RF a b d (S i) + th i * PhiD RF n a b d i).
  Lemma slv_row d i : (1 <= n)%nat -> th n <> 0 -> (i < n)%nat -> Sn n (fun j => tri a b i j * slv d j) = d i.
  Proof.
    intros N D H.
    exact (sol_solves n a b th ph (sgn RF) N theta_0 theta_1 theta_S phi_n (phi_n1 N) phi_S sgn_0 sgn_S d (fun i => ThetaD RF a b d (S i)) (PhiD RF n a b d)
      (ThetaD_0 d) (fun i _ => ThetaD_S d i) (PhiD_n d) (PhiD_S d) i D H).
  Qed.
  Lemma slv_quad d : (1 <= n)%nat -> th n <> 0 ->
    Sn n (fun i => d i * slv d i) = 2 * Sn n (fun i => d i * sgn RF i / th n * ph (S i) * (match i with O => 0 | S k => b k * ThetaD RF a b d (S k) end)) + Sn n (fun i => d i * d i * th i * ph (S i) / th n).
  Proof.
    intros N D.
    exact (sol_quad n a b th ph (sgn RF) N (phi_n1 N) sgn_0 sgn_S d (fun i => ThetaD RF a b d (S i)) (PhiD RF n a b d)
      (ThetaD_0 d) (fun i _ => ThetaD_S d i) (PhiD_n d) (PhiD_S d) D).
  Qed.
End Inst.
