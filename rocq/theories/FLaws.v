(** Laws of floating-point comparison and NaN propagation, proved for IEEE arithmetic of every
    precision ([ieee_laws]) and for exact real arithmetic ([RF_laws]).  A theorem that takes
    [L : FLaws fo] therefore holds for both. *)
From Verif Require Import Base RBase.
From Coq Require Import SpecFloat Reals Lra.

Record FLaws (fo : FOps) : Prop := {
  lt_nan_l : forall x y, fisnan fo x = true -> flt fo x y = false;
  lt_nan_r : forall x y, fisnan fo y = true -> flt fo x y = false;
  flt_irrefl : forall x, flt fo x x = false;
  flt_trans : forall x y z, flt fo x y = true -> flt fo y z = true -> flt fo x z = true;
  nflt_trans : forall x y z, fisnan fo y = false ->
      flt fo x y = false -> flt fo y z = false -> flt fo x z = false;
  fle_spec : forall x y, fle fo x y = (negb (fisnan fo x) && negb (fisnan fo y) && negb (flt fo y x))%bool;
  nan_is_nan : fisnan fo (fnan fo) = true \/ (forall x, fisnan fo x = false);
  finite_not_nan : forall x, fisfinite fo x = true -> fisnan fo x = false;
  zero_finite : fisfinite fo (fzero fo) = true;
  abs_nan : forall x, fisnan fo (fabs fo x) = fisnan fo x;
  abs_sub_comm : forall x y, fabs fo (fsub fo x y) = fabs fo (fsub fo y x);
  abs_nonneg : forall x, flt fo (fabs fo x) (fzero fo) = false;
  sub_nan_l : forall x y, fisnan fo x = true -> fisnan fo (fsub fo x y) = true;
  sub_nan_r : forall x y, fisnan fo y = true -> fisnan fo (fsub fo x y) = true;
  add_nan_l : forall x y, fisnan fo x = true -> fisnan fo (fadd fo x y) = true;
  add_nan_r : forall x y, fisnan fo y = true -> fisnan fo (fadd fo x y) = true;
  mul_nan_l : forall x y, fisnan fo x = true -> fisnan fo (fmul fo x y) = true;
  mul_nan_r : forall x y, fisnan fo y = true -> fisnan fo (fmul fo x y) = true;
  div_nan_l : forall x y, fisnan fo x = true -> fisnan fo (fdiv fo x y) = true;
  div_nan_r : forall x y, fisnan fo y = true -> fisnan fo (fdiv fo x y) = true;
  feq_spec : forall x y, feq fo x y =
      (negb (fisnan fo x) && negb (fisnan fo y) && negb (flt fo x y) && negb (flt fo y x))%bool;
  zero_div : forall x, flt fo (fzero fo) (fdiv fo (fabs fo (fzero fo)) x) = false
}.

(** [SFcompare] is the lexicographic order of this triple. *)
Definition sfkey (x : spec_float) : Z * Z * Z :=
  match x with
  | S754_nan => (0, 0, 0)
  | S754_zero _ => (0, 0, 0)
  | S754_infinity s => ((if s then -2 else 2), 0, 0)
  | S754_finite true m e => (-1, - e, Z.neg m)
  | S754_finite false m e => (1, e, Z.pos m)
  end%Z.
Definition klt (a b : Z * Z * Z) : Prop :=
  let '(a1, a2, a3) := a in let '(b1, b2, b3) := b in
  (a1 < b1 \/ (a1 = b1 /\ (a2 < b2 \/ (a2 = b2 /\ a3 < b3))))%Z.

Lemma SFltb_klt x y : sf_isnan x = false -> sf_isnan y = false ->
  (SFltb x y = true <-> klt (sfkey x) (sfkey y)).
Proof.
  intros Hx Hy. unfold SFltb.
  destruct x as [sx|sx| |sx mx ex]; try discriminate Hx;
  destruct y as [sy|sy| |sy my ey]; try discriminate Hy;
  try destruct sx; try destruct sy; cbn -[Z.compare]; 
  try (split; [intro; discriminate || lia | intro; reflexivity || (exfalso; lia)]);
  destruct (Z.compare_spec ex ey); cbn;
  change (Pos.compare_cont Eq mx my) with (Pos.compare mx my);
  try destruct (Pos.compare_spec mx my); cbn;
  (split; [intro; discriminate || lia | intro; reflexivity || (exfalso; lia)]).
Qed.
Lemma klt_trans a b c : klt a b -> klt b c -> klt a c.
Proof. destruct a as [[]], b as [[]], c as [[]]; cbn; lia. Qed.
Lemma klt_irrefl a : ~ klt a a.
Proof. destruct a as [[]]; cbn; lia. Qed.
Lemma klt_ntrans a b c : ~ klt a b -> ~ klt b c -> ~ klt a c.
Proof. destruct a as [[]], b as [[]], c as [[]]; cbn; lia. Qed.
Lemma SFltb_nan_l x y : sf_isnan x = true -> SFltb x y = false.
Proof. destruct x; try discriminate; intros _; destruct y; reflexivity. Qed.
Lemma SFltb_nan_r x y : sf_isnan y = true -> SFltb x y = false.
Proof. destruct y; try discriminate; intros _; destruct x as [[]|[]| |[]]; reflexivity. Qed.
Lemma SFltb_notnan x y : SFltb x y = true -> sf_isnan x = false /\ sf_isnan y = false.
Proof. intro H; split.
  - destruct (sf_isnan x) eqn:E; [rewrite SFltb_nan_l in H; [discriminate|exact E]|reflexivity].
  - destruct (sf_isnan y) eqn:E; [rewrite SFltb_nan_r in H; [discriminate|exact E]|reflexivity]. Qed.
Lemma SFcompare_swap x y : SFcompare y x = option_map CompOpp (SFcompare x y).
Proof.
  destruct x as [sx|sx| |sx mx ex], y as [sy|sy| |sy my ey];
  try destruct sx; try destruct sy; try reflexivity; cbn;
  rewrite (Z.compare_antisym ey ex); destruct (ey ?= ex)%Z eqn:E; cbn; try reflexivity;
  change (Pos.compare_cont Eq) with Pos.compare;
  rewrite (Pos.compare_antisym my mx); destruct (my ?= mx)%positive; reflexivity.
Qed.
Lemma SFcompare_None x y : SFcompare x y = None <-> sf_isnan x = true \/ sf_isnan y = true.
Proof. destruct x as [[]|[]| |[]], y as [[]|[]| |[]]; cbn; split; intro H; try discriminate; auto; destruct H; discriminate. Qed.

Lemma binary_round_abs prec emax s1 s2 m e :
  SFabs (binary_round prec emax s1 m e) = SFabs (binary_round prec emax s2 m e).
Proof. unfold binary_round. destruct (shl_align m e _) as [mz ez]. unfold binary_round_aux.
  destruct (shr_fexp _ _ _ _ _) as [a b]. destruct (shr_fexp _ _ _ _ _) as [a' b'].
  destruct (shr_m a'); try reflexivity. destruct (Z.leb _ _); reflexivity. Qed.
Lemma SFsub_abs_comm prec emax x y : SFabs (SFsub prec emax x y) = SFabs (SFsub prec emax y x).
Proof.
  destruct x as [sx|sx| |sx mx ex], y as [sy|sy| |sy my ey]; try reflexivity;
    try (destruct sx, sy; reflexivity).
  unfold SFsub. rewrite (Z.min_comm ey ex).
  set (u := cond_Zopp sx _). set (v := cond_Zopp sy _).
  replace (v - u)%Z with (- (u - v))%Z by lia. destruct (u - v)%Z; cbn [binary_normalize Z.opp]; [reflexivity|..];
  apply binary_round_abs.
Qed.

Lemma ieee_laws prec emax : FLaws (ieee prec emax).
Proof.
  constructor; cbn [F ieee flt fle fisnan fnan fisfinite fzero fabs fsub fadd fmul fdiv feq].
  - apply SFltb_nan_l.
  - apply SFltb_nan_r.
  - intro x. destruct (SFltb x x) eqn:E; [|reflexivity].
    destruct (SFltb_notnan _ _ E) as [H _]. apply SFltb_klt in E; [|assumption..].
    destruct (klt_irrefl _ E).
  - intros x y z H1 H2. destruct (SFltb_notnan _ _ H1) as [Hx Hy], (SFltb_notnan _ _ H2) as [_ Hz].
    apply SFltb_klt in H1; [|assumption..]. apply SFltb_klt in H2; [|assumption..].
    apply SFltb_klt; [assumption..|]. eapply klt_trans; eassumption.
  - intros x y z Hy H1 H2. destruct (SFltb x z) eqn:E; [|reflexivity].
    destruct (SFltb_notnan _ _ E) as [Hx Hz]. apply SFltb_klt in E; [|assumption..]. exfalso.
    revert E. apply (klt_ntrans _ (sfkey y)); intro K; apply SFltb_klt in K; congruence.
  - intros x y. unfold SFleb, SFltb. rewrite (SFcompare_swap x y).
    destruct (SFcompare x y) as [c|] eqn:E.
    + assert (sf_isnan x = false /\ sf_isnan y = false) as [-> ->].
      { split; [destruct (sf_isnan x) eqn:E'|destruct (sf_isnan y) eqn:E']; try reflexivity;
        exfalso; assert (SFcompare x y = None) by (apply SFcompare_None; auto); congruence. }
      destruct c; reflexivity.
    + apply SFcompare_None in E. destruct E as [-> | ->]; cbn; [|rewrite andb_false_r]; reflexivity.
  - left; reflexivity.
  - destruct x; try discriminate; reflexivity.
  - reflexivity.
  - destruct x; reflexivity.
  - apply SFsub_abs_comm.
  - destruct x; reflexivity.
  - destruct x; try discriminate; reflexivity.
  - destruct y; try discriminate; destruct x as [[]|[]| |[]]; reflexivity.
  - destruct x; try discriminate; reflexivity.
  - destruct y; try discriminate; destruct x as [[]|[]| |[]]; reflexivity.
  - destruct x; try discriminate; reflexivity.
  - destruct y; try discriminate; destruct x as [[]|[]| |[]]; reflexivity.
  - destruct x; try discriminate; reflexivity.
  - destruct y; try discriminate; destruct x as [[]|[]| |[]]; reflexivity.
  - intros x y. unfold SFeqb, SFltb. rewrite (SFcompare_swap x y).
    destruct (SFcompare x y) as [c|] eqn:E.
    + assert (sf_isnan x = false /\ sf_isnan y = false) as [-> ->].
      { split; [destruct (sf_isnan x) eqn:E'|destruct (sf_isnan y) eqn:E']; try reflexivity;
        exfalso; assert (SFcompare x y = None) by (apply SFcompare_None; auto); congruence. }
      destruct c; reflexivity.
    + apply SFcompare_None in E. destruct E as [-> | ->]; cbn; rewrite ?andb_false_r; reflexivity.
  - destruct x as [[]|[]| |[]]; reflexivity.
Qed.

Lemma Rltb_false x y : Rltb x y = false <-> (y <= x)%R.
Proof. rewrite <- not_true_iff_false, Rltb_spec. split; lra. Qed.
Lemma RF_laws : FLaws RF.
Proof.
  constructor; cbn [F RF flt fle fisnan fnan fisfinite fzero fabs fsub fadd fmul fdiv]; intros;
    try discriminate; try reflexivity.
  - apply Rltb_false; lra.
  - rewrite Rltb_spec in *; lra.
  - rewrite Rltb_false in *; lra.
  - cbn. destruct (Rltb y x) eqn:E; cbn; [rewrite Rltb_spec in E|rewrite Rltb_false in E].
    + apply not_true_iff_false; rewrite Rleb_spec; lra.
    + apply Rleb_spec; lra.
  - right; reflexivity.
  - apply Rabs_minus_sym.
  - apply Rltb_false, Rabs_pos.
  - cbn [feq RF]. destruct (Rltb x y) eqn:E1; [|destruct (Rltb y x) eqn:E2]; cbn;
      rewrite ?Rltb_spec, ?Rltb_false in *.
    + apply not_true_iff_false; rewrite Reqb_spec; lra.
    + apply not_true_iff_false; rewrite Reqb_spec; lra.
    + apply Reqb_spec; lra.
  - apply Rltb_false. rewrite Rabs_R0. unfold Rdiv. rewrite Rmult_0_l. lra.
Qed.

(** derived facts *)
Section Derived.
  Variable fo : FOps.
  Variable L : FLaws fo.
  Lemma flt_asym x y : flt fo x y = true -> flt fo y x = false.
  Proof. intro H. destruct (flt fo y x) eqn:E; [|reflexivity].
    rewrite <- (flt_irrefl fo L x). symmetry. apply (flt_trans fo L x y x); assumption. Qed.
  Lemma flt_notnan x y : flt fo x y = true -> fisnan fo x = false /\ fisnan fo y = false.
  Proof. intro H; split.
    - destruct (fisnan fo x) eqn:E; [rewrite (lt_nan_l fo L) in H; [discriminate|exact E]|reflexivity].
    - destruct (fisnan fo y) eqn:E; [rewrite (lt_nan_r fo L) in H; [discriminate|exact E]|reflexivity]. Qed.
  Lemma lt_nlt x y z : flt fo x y = true -> flt fo z y = false -> flt fo z x = false.
  Proof. intros H1 H2. destruct (flt fo z x) eqn:E; [|reflexivity].
    rewrite <- H2. symmetry. apply (flt_trans fo L z x y); assumption. Qed.
End Derived.
