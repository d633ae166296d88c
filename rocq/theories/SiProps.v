(** C117-C118: running the saturation step twice; brighter data, lower thresholds. *)
From Verif Require Import Base BaseLemmas FLaws SatModel SatSpec SatProofs SatProps.
From Coq Require Import Lia FunctionalExtensionality.

(** ** Specification *)
(** the second call: the same science data and reference arrays, the flags the first call returned *)
Definition again (fo : FOps) (inp : sat_in fo) (out : sat_out fo) : sat_in fo :=
  {| s_nints := s_nints fo inp; s_ngroups := s_ngroups fo inp; s_nrows := s_nrows fo inp; s_ncols := s_ncols fo inp; s_data := s_data fo inp;
     s_gdq := fun i => nth i (o_gdq fo out) (s_gdq fo inp i); s_pdq := o_pdq fo out; s_thr := s_thr fo inp; s_satdq := s_satdq fo inp; s_atod := s_atod fo inp;
     s_grow := s_grow fo inp; s_zframe := match o_zframe fo out with Some z => Some (fun i => nth i z (fun _ _ => fzero fo)) | None => None end;
     s_rp := s_rp fo inp; s_bias := s_bias fo inp |}.

Lemma near_0 r c r' c' : near 0 r c r' c' <-> r' = r /\ c' = c.
Proof. unfold near. lia. Qed.
(** two steps of at most [n] inside a rectangle are one step of at most [2 n] *)
Lemma near_twice n nr nc r c (P : nat -> nat -> Prop) : r < nr -> c < nc ->
  near_any n nr nc (near_any n nr nc P) r c <-> near_any (2 * n) nr nc P r c.
Proof.
  intros R C. unfold near_any, near. split.
  - intros (r1 & c1 & _ & _ & A & r2 & c2 & B1 & B2 & B & D). exists r2, c2. repeat split; try assumption; lia.
  - intros (r2 & c2 & B1 & B2 & B & D).
    assert (M : forall x y m, x < m -> y < m -> x <= y + 2 * n -> y <= x + 2 * n -> exists q, q < m /\ x <= q + n /\ q <= x + n /\ y <= q + n /\ q <= y + n).
    { clear. intros x y m X Y E F. destruct (Nat.le_gt_cases x y); [exists (Nat.min y (x + n))|exists (Nat.max y (x - n))]; lia. }
    destruct (M r r2 nr) as (qr & Q1 & Q2 & Q3 & Q4 & Q5); try lia. destruct (M c c2 nc) as (qc & W1 & W2 & W3 & W4 & W5); try lia.
    exists qr, qc. repeat split; try assumption. exists r2, c2. repeat split; assumption.
Qed.
Lemma near_any_ext n nr nc (P Q : nat -> nat -> Prop) r c : (forall r c, r < nr -> c < nc -> P r c <-> Q r c) -> near_any n nr nc P r c <-> near_any n nr nc Q r c.
Proof. intro H. unfold near_any. split; intros (r' & c' & A & B & C & D); exists r', c'; (split; [exact A|]; split; [exact B|]; split; [exact C|]; apply (H r' c' A B), D). Qed.
Lemma near_any_self n nr nc (P : nat -> nat -> Prop) r c : r < nr -> c < nc -> P r c -> near_any n nr nc P r c.
Proof. intros. exists r, c. unfold near. repeat split; try assumption; lia. Qed.

Section Twice.
  Variables (fo : FOps) (fmean : list fo -> fo) (kd ks ka kn : N) (inp : sat_in fo) (out out2 : sat_out fo) (i : nat) (w w2 : nat -> img N).
  Hypothesis HD : kd <> ks /\ ka <> ks /\ kd <> ka.
  Hypothesis H1 : flag_saturated_pixels fo fmean (mk_flags kd ks ka kn) inp = Some out.
  Hypothesis H2 : flag_saturated_pixels fo fmean (mk_flags kd ks ka kn) (again fo inp out) = Some out2.
  Hypothesis W1 : nth_error (o_gdq fo out) i = Some w.
  Hypothesis W2 : nth_error (o_gdq fo out2) i = Some w2.
  Lemma gdq2 : s_gdq fo (again fo inp out) i = w.
  Proof. cbn [again s_gdq]. apply nth_error_nth, W1. Qed.
  Lemma seed2 g r c : g < s_ngroups fo inp -> r < s_nrows fo inp -> c < s_ncols fo inp ->
    sat_seed ks kn (again fo inp out) i g r c <-> sat_spec ks kn inp i g r c.
  Proof.
    intros G R C. unfold sat_seed at 1. rewrite gdq2.
    pose proof (C01_saturated_exactly fo fmean kd ks ka kn inp out w i HD H1 W1 g r c G R C) as E.
    assert (E' : N.testbit (w g r c) ks = true <-> sat_spec ks kn inp i g r c) by exact E. rewrite E'. split; [|tauto].
    intros [A|A]; [exact A|]. apply near_any_self; [assumption..|]. right. exact A.
  Qed.
  Lemma spec2 g r c : g < s_ngroups fo inp -> r < s_nrows fo inp -> c < s_ncols fo inp ->
    sat_spec ks kn (again fo inp out) i g r c <-> near_any (2 * s_grow fo inp) (s_nrows fo inp) (s_ncols fo inp) (sat_seed ks kn inp i g) r c.
  Proof.
    intros G R C. unfold sat_spec at 1. cbn [again s_grow s_nrows s_ncols]. rewrite <- near_twice by assumption. apply near_any_ext. intros r' c' R' C'. apply seed2; assumption.
  Qed.
  Lemma sat2 g r c : g < s_ngroups fo inp -> r < s_nrows fo inp -> c < s_ncols fo inp ->
    N.testbit (w2 g r c) ks = true <-> near_any (2 * s_grow fo inp) (s_nrows fo inp) (s_ncols fo inp) (sat_seed ks kn inp i g) r c.
  Proof.
    intros G R C. rewrite <- spec2 by assumption. exact (C01_saturated_exactly fo fmean kd ks ka kn (again fo inp out) out2 w2 i HD H2 W2 g r c G R C).
  Qed.
  Lemma same0 g r c : s_grow fo inp = 0 -> g < s_ngroups fo inp -> r < s_nrows fo inp -> c < s_ncols fo inp -> w2 g r c = w g r c.
  Proof.
    intros Z G R C. apply N.bits_inj. intro b.
    pose proof (proj1 (C03_only_adds fo fmean kd ks ka kn (again fo inp out) out2 w2 i HD H2 W2 g r c b G R C)) as Up. rewrite gdq2 in Up.
    destruct (N.testbit (w g r c) b) eqn:B; [apply Up; reflexivity|]. clear Up.
    destruct (N.testbit (w2 g r c) b) eqn:B2; [|reflexivity]. exfalso.
    assert (SP : forall g r c, g < s_ngroups fo inp -> r < s_nrows fo inp -> c < s_ncols fo inp -> sat_spec ks kn (again fo inp out) i g r c <-> sat_spec ks kn inp i g r c).
    { intros g' r' c' G' R' C'. rewrite spec2 by assumption. unfold sat_spec. rewrite Z. reflexivity. }
    destruct (proj2 (C03_only_adds fo fmean kd ks ka kn (again fo inp out) out2 w2 i HD H2 W2 g r c b G R C) B2) as [E|[E|E]]; [rewrite gdq2; exact B|subst b..].
    - pose proof (C01_saturated_exactly fo fmean kd ks ka kn inp out w i HD H1 W1 g r c G R C) as E1.
      assert (E' : N.testbit (w g r c) ks = true <-> sat_spec ks kn inp i g r c) by exact E1. rewrite B in E'.
      pose proof (C01_saturated_exactly fo fmean kd ks ka kn (again fo inp out) out2 w2 i HD H2 W2 g r c G R C) as E2.
      assert (E3 : N.testbit (w2 g r c) ks = true <-> sat_spec ks kn (again fo inp out) i g r c) by exact E2.
      enough (false = true) by discriminate. apply E', SP, E3, B2; assumption.
    - pose proof (proj1 (C04_ad_floor fo fmean kd ks ka kn inp out w i HD H1 W1 g r c G R C)) as E1. rewrite B in E1.
      pose proof (proj1 (C04_ad_floor fo fmean kd ks ka kn (again fo inp out) out2 w2 i HD H2 W2 g r c G R C)) as E2. rewrite gdq2 in E2. cbn [again s_data] in E2.
      destruct (proj1 E2 B2) as [X|X]; [congruence|]. enough (false = true) by discriminate. apply E1. right. exact X.
    - pose proof (C06_partial_saturation fo fmean kd ks ka kn inp out w i HD H1 W1 g r c G R C) as E1. rewrite B in E1.
      pose proof (C06_partial_saturation fo fmean kd ks ka kn (again fo inp out) out2 w2 i HD H2 W2 g r c G R C) as E2. rewrite gdq2 in E2.
      cbn [again s_rp s_ngroups s_grow s_nrows s_ncols] in E2. enough (false = true) by discriminate. apply E1.
      assert (NW : ~ (N.testbit (s_gdq fo inp i g r c) kd = true \/ floor_spec inp i g r c)) by (intro X; assert (false = true) by (apply E1; tauto); discriminate).
      destruct (proj1 E2 B2) as [X|[X|(rp & Rp & X)]]; [congruence|right; left; exact X|]. right; right. exists rp. split; [exact Rp|].
      destruct X as [(Gn & r' & c' & R' & C' & Nr & X)|(Gn & -> & X)].
      + left. split; [exact Gn|]. rewrite Z in Nr. apply near_0 in Nr. destruct Nr as [-> ->]. apply near_any_self; [assumption..|].
        destruct X as (X1 & X2 & X3 & X4 & X5). cbn [again s_ngroups] in *.
        split; [exact X1|]. split; [exact X2|]. split; [intro Y; apply X3, SP, Y; assumption|]. split; [exact NW|]. apply SP, X5; assumption.
      + right. split; [exact Gn|]. split; [reflexivity|]. destruct X as (X1 & X2 & X3 & X4). split; [exact X1|]. split; [exact X2|].
        split; [apply SP, X3; assumption|]. intro Y. apply X4, SP, Y; assumption.
  Qed.
End Twice.

(** ** C117 *)
(** without growing, the second call changes no flag *)
Theorem C117_idempotent : forall fo fmean kd ks ka kn inp out out2 w w2 i, kd <> ks /\ ka <> ks /\ kd <> ka -> s_grow fo inp = 0 ->
  flag_saturated_pixels fo fmean (mk_flags kd ks ka kn) inp = Some out ->
  flag_saturated_pixels fo fmean (mk_flags kd ks ka kn) (again fo inp out) = Some out2 ->
  nth_error (o_gdq fo out) i = Some w -> nth_error (o_gdq fo out2) i = Some w2 ->
  forall g r c, g < s_ngroups fo inp -> r < s_nrows fo inp -> c < s_ncols fo inp -> w2 g r c = w g r c.
Proof. intros fo fmean kd ks ka kn inp out out2 w w2 i HD Z H1 H2 W1 W2 g r c. exact (same0 fo fmean kd ks ka kn inp out out2 i w w2 HD H1 H2 W1 W2 g r c Z). Qed.
Print Assumptions C117_idempotent.
(** with growing by [n], two calls flag what one call growing by [2 n] flags *)
Theorem C117_grows_again : forall fo fmean kd ks ka kn inp out out2 w w2 i, kd <> ks /\ ka <> ks /\ kd <> ka ->
  flag_saturated_pixels fo fmean (mk_flags kd ks ka kn) inp = Some out ->
  flag_saturated_pixels fo fmean (mk_flags kd ks ka kn) (again fo inp out) = Some out2 ->
  nth_error (o_gdq fo out) i = Some w -> nth_error (o_gdq fo out2) i = Some w2 ->
  forall g r c, g < s_ngroups fo inp -> r < s_nrows fo inp -> c < s_ncols fo inp ->
  (N.testbit (w2 g r c) ks = true <->
   exists r' c', r' < s_nrows fo inp /\ c' < s_ncols fo inp /\ near (2 * s_grow fo inp) r c r' c' /\
     (N.testbit (s_gdq fo inp i g r' c') ks = true \/
      exists g', g' <= g /\ fge fo (s_data fo inp i g' r' c')
          (eff_threshold fo (N.testbit (s_satdq fo inp i g' r' c') kn) (s_thr fo inp i g' r' c') (s_atod fo inp)) = true)).
Proof. intros fo fmean kd ks ka kn inp out out2 w w2 i HD H1 H2 W1 W2 g r c. exact (sat2 fo fmean kd ks ka kn inp out out2 i w w2 HD H1 H2 W1 W2 g r c). Qed.
Print Assumptions C117_grows_again.

(** "a second call changes nothing" is false when flags are grown: (2, 2) is saturated only after the second call *)
Theorem C117_idempotent_refuted : exists (inp : sat_in B32) out out2 w w2 g r c,
  flag_saturated_pixels B32 ex_mean (mk_flags 0 1 6 5) inp = Some out /\ flag_saturated_pixels B32 ex_mean (mk_flags 0 1 6 5) (again B32 inp out) = Some out2 /\
  nth_error (o_gdq B32 out) 0 = Some w /\ nth_error (o_gdq B32 out2) 0 = Some w2 /\ (g < s_ngroups B32 inp /\ r < s_nrows B32 inp /\ c < s_ncols B32 inp) /\
  N.testbit (w g r c) 1 = false /\ N.testbit (w2 g r c) 1 = true.
Proof.
  destruct (flag_saturated_pixels B32 ex_mean (mk_flags 0 1 6 5) ex_in) as [out|] eqn:E1.
  2:{ exfalso. assert (X : match flag_saturated_pixels B32 ex_mean (mk_flags 0 1 6 5) ex_in with Some _ => true | None => false end = true) by (vm_compute; reflexivity). rewrite E1 in X. discriminate. }
  destruct (flag_saturated_pixels B32 ex_mean (mk_flags 0 1 6 5) (again B32 ex_in out)) as [out2|] eqn:E2.
  2:{ exfalso. assert (X : match flag_saturated_pixels B32 ex_mean (mk_flags 0 1 6 5) ex_in with Some o => match flag_saturated_pixels B32 ex_mean (mk_flags 0 1 6 5) (again B32 ex_in o) with Some _ => true | None => false end | None => false end = true) by (vm_compute; reflexivity).
      rewrite E1, E2 in X. discriminate. }
  assert (X : match flag_saturated_pixels B32 ex_mean (mk_flags 0 1 6 5) ex_in with Some o => match flag_saturated_pixels B32 ex_mean (mk_flags 0 1 6 5) (again B32 ex_in o) with
      Some o2 => match nth_error (o_gdq B32 o) 0, nth_error (o_gdq B32 o2) 0 with Some w, Some w2 => negb (N.testbit (w 1 2 2) 1) && N.testbit (w2 1 2 2) 1 | _, _ => false end | None => false end | None => false end = true) by (vm_compute; reflexivity).
  rewrite E1, E2 in X. destruct (nth_error (o_gdq B32 out) 0) as [w|] eqn:W; [|discriminate]. destruct (nth_error (o_gdq B32 out2) 0) as [w2|] eqn:W2; [|discriminate].
  apply andb_prop in X. destruct X as [X1 X2]. apply negb_true_iff in X1.
  exists ex_in, out, out2, w, w2, 1, 2, 2. repeat split; try assumption; cbn; lia.
Qed.
Print Assumptions C117_idempotent_refuted.

(** the call writes into the caller's threshold and reference DQ arrays (saturation.py:98-108); a call given the arrays as the first call
    left them returns the same *)
Definition left_behind (fo : FOps) (fl : sat_flags) (inp : sat_in fo) (more : sat_in fo) : sat_in fo :=
  {| s_nints := s_nints fo more; s_ngroups := s_ngroups fo more; s_nrows := s_nrows fo more; s_ncols := s_ncols fo more; s_data := s_data fo more;
     s_gdq := s_gdq fo more; s_pdq := s_pdq fo more; s_thr := thr' fo fl inp; s_satdq := satdq' fo fl inp; s_atod := s_atod fo more;
     s_grow := s_grow fo more; s_zframe := s_zframe fo more; s_rp := s_rp fo more; s_bias := s_bias fo more |}.
Theorem C117_references : forall fo fmean kd ks ka kn inp more, let fl := mk_flags kd ks ka kn in
  s_thr fo more = s_thr fo inp -> s_satdq fo more = s_satdq fo inp -> s_atod fo more = s_atod fo inp ->
  flag_saturated_pixels fo fmean fl (left_behind fo fl inp more) = flag_saturated_pixels fo fmean fl more.
Proof.
  intros fo fmean kd ks ka kn inp more fl E1 E2 E3. set (m2 := left_behind fo fl inp more).
  assert (NC : no_check fo fl m2 = no_check fo fl more).
  { do 4 (apply functional_extensionality; intro). unfold no_check. cbn [m2 left_behind s_satdq s_thr]. rewrite E1, E2. unfold satdq', thr', no_check.
    cbn [fl mk_flags f_nsc]. rewrite !land_bit_eqb. destruct (fisnan fo (s_thr fo inp x x0 x1 x2)) eqn:Nn.
    - rewrite N.lor_spec, bit_testbit, N.eqb_refl, !orb_true_r. reflexivity.
    - rewrite orb_false_r. destruct (N.testbit (s_satdq fo inp x x0 x1 x2) kn); [reflexivity|]. exact Nn. }
  assert (TH : thr' fo fl m2 = thr' fo fl more).
  { do 4 (apply functional_extensionality; intro). unfold thr' at 1 2. rewrite NC. destruct (no_check fo fl more x x0 x1 x2) eqn:K; [reflexivity|].
    cbn [m2 left_behind s_thr]. unfold thr'. replace (no_check fo fl inp x x0 x1 x2) with (no_check fo fl more x x0 x1 x2) by (unfold no_check; rewrite E1, E2; reflexivity). rewrite K, E1. reflexivity. }
  assert (SD : satdq' fo fl m2 = satdq' fo fl more).
  { do 4 (apply functional_extensionality; intro). unfold satdq' at 1. cbn [m2 left_behind s_satdq s_thr]. unfold satdq'. rewrite E1, E2. cbn [fl mk_flags f_nsc].
    destruct (fisnan fo (s_thr fo inp x x0 x1 x2)) eqn:Nn; destruct (fisnan fo (thr' fo _ inp x x0 x1 x2)) eqn:Nt; try reflexivity.
    - rewrite <- N.lor_assoc, N.lor_diag. reflexivity.
    - unfold thr', no_check, fl in Nt. cbn [mk_flags f_nsc] in Nt. rewrite land_bit_eqb, Nn, orb_false_r in Nt. destruct (N.testbit (s_satdq fo inp x x0 x1 x2) kn) eqn:M; [|congruence].
      apply N.bits_inj. intro b. rewrite N.lor_spec, bit_testbit. destruct (N.eqb_spec kn b) as [<-|]; [rewrite M; reflexivity|apply orb_false_r]. }
  assert (IG : forall i, integ fo fmean fl m2 i = integ fo fmean fl more i).
  { intro i. unfold integ. assert (F1 : forward_pass fo fl m2 i = forward_pass fo fl more i) by (unfold forward_pass, forward_group; rewrite TH; reflexivity).
    assert (F2 : backward_pass fo fmean fl m2 i = backward_pass fo fmean fl more i) by (unfold backward_pass, backward_group; rewrite TH, NC; reflexivity).
    assert (F3 : group2_pass fo fmean fl m2 i = group2_pass fo fmean fl more i) by (unfold group2_pass; rewrite TH; reflexivity).
    assert (F4 : zframe_pass fo fl m2 i = zframe_pass fo fl more i) by (unfold zframe_pass; rewrite TH; reflexivity).
    rewrite F1, F2, F3, F4. reflexivity. }
  assert (IS : forall l, integs fo fmean fl m2 l = integs fo fmean fl more l).
  { induction l as [|x l IH]; [reflexivity|]. cbn [integs]. rewrite IG, IH. reflexivity. }
  unfold flag_saturated_pixels. rewrite IS, SD. reflexivity.
Qed.
Print Assumptions C117_references.

(** ** C118 *)
Lemma fle_trans fo (L : FLaws fo) x y z : fle fo x y = true -> fle fo y z = true -> fle fo x z = true.
Proof.
  rewrite !(fle_spec fo L), !andb_true_iff, !negb_true_iff. intros [[A B] C] [[_ D] E]. split; [split; assumption|]. exact (nflt_trans fo L z y x B E C).
Qed.
Theorem C118_brighter : forall fo, FLaws fo -> forall fmean kd ks ka kn inp inp' out out' w w' i, kd <> ks /\ ka <> ks /\ kd <> ka ->
  flag_saturated_pixels fo fmean (mk_flags kd ks ka kn) inp = Some out ->
  flag_saturated_pixels fo fmean (mk_flags kd ks ka kn) inp' = Some out' ->
  nth_error (o_gdq fo out) i = Some w -> nth_error (o_gdq fo out') i = Some w' ->
  s_ngroups fo inp' = s_ngroups fo inp -> s_nrows fo inp' = s_nrows fo inp -> s_ncols fo inp' = s_ncols fo inp -> s_grow fo inp <= s_grow fo inp' ->
  (forall g r c, g < s_ngroups fo inp -> r < s_nrows fo inp -> c < s_ncols fo inp ->
     fle fo (s_data fo inp i g r c) (s_data fo inp' i g r c) = true /\
     fle fo (eff_threshold fo (N.testbit (s_satdq fo inp' i g r c) kn) (s_thr fo inp' i g r c) (s_atod fo inp'))
            (eff_threshold fo (N.testbit (s_satdq fo inp i g r c) kn) (s_thr fo inp i g r c) (s_atod fo inp)) = true /\
     (N.testbit (s_gdq fo inp i g r c) ks = true -> N.testbit (s_gdq fo inp' i g r c) ks = true)) ->
  forall g r c, g < s_ngroups fo inp -> r < s_nrows fo inp -> c < s_ncols fo inp ->
  N.testbit (w g r c) ks = true -> N.testbit (w' g r c) ks = true.
Proof.
  intros fo L fmean kd ks ka kn inp inp' out out' w w' i HD H1 H2 W1 W2 Eg Er Ec Gr H g r c G R C S.
  apply (C01_saturated_exactly fo fmean kd ks ka kn inp out w i HD H1 W1 g r c G R C) in S. destruct S as (r' & c' & R' & C' & Nr & S).
  apply (C01_saturated_exactly fo fmean kd ks ka kn inp' out' w' i HD H2 W2 g r c); [lia..|]. rewrite Er, Ec. exists r', c'. split; [exact R'|]. split; [exact C'|].
  split; [unfold near in *; lia|]. destruct S as [S|(g' & G' & S)]; [left; apply (H g r' c' G R' C'), S|]. right. exists g'. split; [exact G'|].
  destruct (H g' r' c' ltac:(lia) R' C') as (A & B & _). unfold fge in *. eapply fle_trans; [exact L|exact B|]. eapply fle_trans; [exact L|exact S|exact A].
Qed.
Print Assumptions C118_brighter.
(** and the A/D floor flag is never gained *)
Theorem C118_floor : forall fo, FLaws fo -> forall fmean kd ks ka kn inp inp' out out' w w' i, kd <> ks /\ ka <> ks /\ kd <> ka ->
  flag_saturated_pixels fo fmean (mk_flags kd ks ka kn) inp = Some out ->
  flag_saturated_pixels fo fmean (mk_flags kd ks ka kn) inp' = Some out' ->
  nth_error (o_gdq fo out) i = Some w -> nth_error (o_gdq fo out') i = Some w' ->
  s_ngroups fo inp' = s_ngroups fo inp -> s_nrows fo inp' = s_nrows fo inp -> s_ncols fo inp' = s_ncols fo inp ->
  forall g r c, g < s_ngroups fo inp -> r < s_nrows fo inp -> c < s_ncols fo inp -> s_gdq fo inp' i g r c = s_gdq fo inp i g r c ->
  fle fo (s_data fo inp i g r c) (s_data fo inp' i g r c) = true -> N.testbit (w' g r c) ka = true -> N.testbit (w g r c) ka = true.
Proof.
  intros fo L fmean kd ks ka kn inp inp' out out' w w' i HD H1 H2 W1 W2 Eg Er Ec g r c G R C Q D S.
  apply (proj1 (C04_ad_floor fo fmean kd ks ka kn inp out w i HD H1 W1 g r c G R C)).
  apply (proj1 (C04_ad_floor fo fmean kd ks ka kn inp' out' w' i HD H2 W2 g r c ltac:(lia) ltac:(lia) ltac:(lia))) in S. rewrite Q in S. destruct S as [S|S]; [left; exact S|].
  right. eapply fle_trans; [exact L|exact D|exact S].
Qed.
Print Assumptions C118_floor.

(** ** Examples *)
(** the input of the saturation examples without growing: both calls return, and something is flagged *)
Definition ex_in0 : sat_in B32 :=
  {| s_nints := 1; s_ngroups := 3; s_nrows := 4; s_ncols := 4; s_data := ex_data; s_gdq := fun _ _ _ _ => 0%N; s_pdq := fun _ _ => 0%N; s_thr := s_thr B32 ex_in;
     s_satdq := fun _ _ _ _ => 0%N; s_atod := fofZ B32 65535; s_grow := 0; s_zframe := None; s_rp := s_rp B32 ex_in; s_bias := fun _ _ _ => fzero B32 |}.
Example C117_example : match flag_saturated_pixels B32 ex_mean (mk_flags 0 1 6 5) ex_in0 with
  | Some o => match flag_saturated_pixels B32 ex_mean (mk_flags 0 1 6 5) (again B32 ex_in0 o) with
    | Some o2 => map (fun w => map (fun g => map (fun k => w g k k) [0; 1; 2; 3]) [0; 1; 2]) (o_gdq B32 o2) = [[[1; 0; 0; 65]; [2; 0; 0; 0]; [2; 0; 0; 0]]]%N
    | None => False end | None => False end.
Proof. vm_compute. reflexivity. Qed.
(** raising every sample by nothing but lowering the threshold from 100 to 20 *)
Definition ex_in1 : sat_in B32 :=
  {| s_nints := 1; s_ngroups := 3; s_nrows := 4; s_ncols := 4; s_data := ex_data; s_gdq := fun _ _ _ _ => 0%N; s_pdq := fun _ _ => 0%N; s_thr := fun _ _ _ _ => fofZ B32 20;
     s_satdq := fun _ _ _ _ => 0%N; s_atod := fofZ B32 65535; s_grow := 0; s_zframe := None; s_rp := s_rp B32 ex_in; s_bias := fun _ _ _ => fzero B32 |}.
Example C118_example : (forall g r c, g < 3 -> r < 4 -> c < 4 ->
     fle B32 (s_data B32 ex_in0 0 g r c) (s_data B32 ex_in1 0 g r c) = true /\
     fle B32 (eff_threshold B32 (N.testbit (s_satdq B32 ex_in1 0 g r c) 5) (s_thr B32 ex_in1 0 g r c) (s_atod B32 ex_in1))
             (eff_threshold B32 (N.testbit (s_satdq B32 ex_in0 0 g r c) 5) (s_thr B32 ex_in0 0 g r c) (s_atod B32 ex_in0)) = true) /\
  match flag_saturated_pixels B32 ex_mean (mk_flags 0 1 6 5) ex_in1 with
  | Some o => map (fun w => map (fun g => map (fun k => w g k k) [0; 1; 2; 3]) [0; 1; 2]) (o_gdq B32 o) = [[[2; 0; 0; 65]; [2; 0; 0; 0]; [2; 0; 0; 0]]]%N
  | None => False end.
Proof.
  split; [|vm_compute; reflexivity]. intros g r c G R C.
  destruct g as [|[|[|g]]]; [| | |lia]; (destruct r as [|[|[|[|r]]]]; [| | | |lia]); (destruct c as [|[|[|[|c]]]]; [| | | |lia]); (split; vm_compute; reflexivity).
Qed.
