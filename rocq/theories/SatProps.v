(** Properties C01-C06 of the saturation step (stcal.saturation.saturation).
    Flags are arbitrary distinct single-bit masks [bit kd], [bit ks], [bit ka]
    (DO_NOT_USE, SATURATED, AD_FLOOR) and [bit kn] (NO_SAT_CHECK).  [fo] is any
    floating-point arithmetic, [fmean] any averaging function. *)
From Verif Require Import Base BaseLemmas SatModel SatSpec SatProofs.

Definition mk_flags (kd ks ka kn : N) : sat_flags :=
  {| f_dnu := bit kd; f_sat := bit ks; f_adf := bit ka; f_nsc := bit kn |}.

Section Spec.
Context {fo : FOps} (kd ks kn : N) (inp : sat_in fo).
(** effective threshold of a pixel in a group *)
Definition eff (i g r c : nat) : fo :=
  eff_threshold fo (N.testbit (s_satdq fo inp i g r c) kn) (s_thr fo inp i g r c) (s_atod fo inp).
(** flagged on input in this group, or at/above threshold now or in an earlier group *)
Definition sat_seed (i g r c : nat) : Prop :=
  N.testbit (s_gdq fo inp i g r c) ks = true \/
  exists g', g' <= g /\ fge fo (s_data fo inp i g' r c) (eff i g' r c) = true.
Definition sat_spec (i g r c : nat) : Prop :=
  near_any (s_grow fo inp) (s_nrows fo inp) (s_ncols fo inp) (sat_seed i g) r c.
Definition floor_spec (i g r c : nat) : Prop := fle fo (s_data fo inp i g r c) (fzero fo) = true.

(** dilution factor of a group: mean read time over last read time *)
Definition dilution (fmean : list fo -> fo) (rp : list (list fo)) (g : nat) : fo :=
  fdiv fo (fmean (nth g rp [])) (last (nth g rp []) (fzero fo)).
(** a group that is only partially saturated *)
Definition partial_spec (fmean : list fo -> fo) (rp : list (list fo)) (i g r c : nat) : Prop :=
  feq fo (dilution fmean rp g) (fone fo) = false /\
  fge fo (s_data fo inp i g r c)
    (fmul fo (eff i g r c)
       (if N.testbit (s_satdq fo inp i g r c) kn || fisnan fo (s_thr fo inp i g r c)
        then fone fo else dilution fmean rp g)) = true /\
  ~ sat_spec i g r c /\
  ~ (N.testbit (s_gdq fo inp i g r c) kd = true \/ floor_spec i g r c) /\
  sat_spec i (g + 1) r c.
(** the extra rule for the second group: the first group extrapolated to the end of the
    third stays below threshold, the jump from group 1 to 2 exceeds the headroom divided by
    the number of reads, the third group is saturated and the second is not *)
Definition second_spec (fmean : list fo -> fo) (rp : list (list fo)) (i r c : nat) : Prop :=
  let d0 := s_data fo inp i 0 r c in let d1 := s_data fo inp i 1 r c in
  let b := s_bias fo inp i r c in let t := eff i 0 r c in
  flt fo (fadd fo (fmul fo (fdiv fo (fsub fo d0 b) (fmean (nth 0 rp [])))
                           (last (nth 2 rp []) (fzero fo))) b) t = true /\
  fgt fo (fsub fo d1 d0)
      (fdiv fo (fsub fo t d0) (fofZ fo (Z.of_nat (length (nth 1 rp []))))) = true /\
  sat_spec i 2 r c /\ ~ sat_spec i 1 r c.
End Spec.

Lemma land_bit_eqb w k : N.eqb (N.land w (bit k)) (bit k) = N.testbit w k.
Proof.
  rewrite <- has_bit. unfold has.
  destruct (N.eqb_spec (N.land w (bit k)) (bit k)) as [H|H].
  - rewrite H. unfold bit. rewrite N.shiftl_1_l.
    destruct (N.eqb_spec (2 ^ k) 0) as [E|]; [|reflexivity]. apply N.pow_nonzero in E; [destruct E|discriminate].
  - destruct (N.eqb_spec (N.land w (bit k)) 0) as [H0|H0]; [reflexivity|].
    exfalso; apply H, N.bits_inj; intro j. rewrite N.land_spec, bit_testbit.
    destruct (N.eqb_spec k j) as [<-|]; [|apply andb_false_r]. rewrite andb_true_r.
    rewrite <- has_bit. unfold has. destruct (N.eqb_spec (N.land w (bit k)) 0); [contradiction|reflexivity].
Qed.

Section Main.
Context (fo : FOps) (fmean : list fo -> fo) (kd ks ka kn : N) (inp : sat_in fo).
Let fl := mk_flags kd ks ka kn.

Lemma no_check_spec i g r c : no_check fo fl inp i g r c =
  N.testbit (s_satdq fo inp i g r c) kn || fisnan fo (s_thr fo inp i g r c).
Proof. unfold no_check; cbn [f_nsc fl mk_flags]. rewrite land_bit_eqb; reflexivity. Qed.
Lemma thr_eff i g r c : thr' fo fl inp i g r c = eff kn inp i g r c.
Proof. unfold thr'; rewrite no_check_spec. reflexivity. Qed.

Context (out : sat_out fo) (w : nat -> img N) (i : nat).
Hypothesis Hdist : kd <> ks /\ ka <> ks /\ kd <> ka.
Hypothesis Hout : flag_saturated_pixels fo fmean fl inp = Some out.
Hypothesis Hw : nth_error (o_gdq fo out) i = Some w.

Lemma int_lt : i < s_nints fo inp.
Proof.
  assert (i < length (o_gdq fo out)) by (apply nth_error_Some; congruence).
  revert H Hout. unfold flag_saturated_pixels. destruct (integs _ _ _ _ _) as [outs|] eqn:E; [|discriminate].
  cbn [bind]. intros H [= <-]. cbn [o_gdq] in H.
  rewrite map_length, (integs_length _ _ _ _ _ _ E), seq_length in H. exact H.
Qed.

Lemma all_bits g r c : g < s_ngroups fo inp -> r < s_nrows fo inp -> c < s_ncols fo inp ->
    (forall j, j <> ks -> j <> kd -> j <> ka ->
       N.testbit (w g r c) j = N.testbit (s_gdq fo inp i g r c) j) /\
    (N.testbit (w g r c) ks = true <-> sat_spec ks kn inp i g r c) /\
    (N.testbit (w g r c) ka = true <->
       N.testbit (s_gdq fo inp i g r c) ka = true \/ floor_spec inp i g r c) /\
    (N.testbit (w g r c) kd = true <->
       N.testbit (s_gdq fo inp i g r c) kd = true \/ floor_spec inp i g r c \/
       exists rp, s_rp fo inp = Some rp /\
       ((g + 1 < s_ngroups fo inp /\
         near_any (s_grow fo inp) (s_nrows fo inp) (s_ncols fo inp)
            (partial_spec kd ks kn inp fmean rp i g) r c) \/
        (2 < s_ngroups fo inp /\ g = 1 /\ second_spec ks kn inp fmean rp i r c))).
Proof.
  intros Hg Hr Hc. destruct Hdist as (D1 & D2 & D3).
  destruct (flagged_integ fo fmean (mk_flags kd ks ka kn) inp out i Hout int_lt) as (x & Ex & Ex').
  assert (fst x = w) by congruence. subst w. clear Ex'.
  destruct (integ_bits fo fmean kd ks ka kn D1 D2 D3 inp i x Ex g r c Hg Hr Hc)
    as (B1 & B2 & B3 & B4 & B5).
  assert (S : forall h r c, near_any (s_grow fo inp) (s_nrows fo inp) (s_ncols fo inp)
     (fun r0 c0 => N.testbit (s_gdq fo inp i h r0 c0) ks = true \/
        exists g', g' <= h /\ fge fo (s_data fo inp i g' r0 c0) (thr' fo fl inp i g' r0 c0) = true) r c
     <-> sat_spec ks kn inp i h r c).
  { intros h r0 c0. unfold sat_spec. split; apply near_any_ext; intros r' c' _ _; unfold sat_seed;
      setoid_rewrite thr_eff; reflexivity. }
  split; [exact B1|]. split; [rewrite B2; apply S|]. split; [exact B3|].
  destruct (s_rp fo inp) as [rp|] eqn:Erp.
  2:{ rewrite (B4 eq_refl). unfold floor_spec. split; [tauto|].
      intros [H|[H|(rp & [=] & _)]]; tauto. }
  destruct (B5 rp eq_refl) as (g1 & G1 & G2). rewrite G2. clear B4 B5 G2.
  assert (T : forall h r c, h < s_ngroups fo inp -> r < s_nrows fo inp -> c < s_ncols fo inp ->
     (N.testbit (g1 h r c) ks = false <-> ~ sat_spec ks kn inp i h r c) /\
     (N.testbit (g1 h r c) ks = true <-> sat_spec ks kn inp i h r c) /\
     (N.testbit (g1 h r c) kd = false <->
        ~ (N.testbit (s_gdq fo inp i h r c) kd = true \/ floor_spec inp i h r c))).
  { intros h r0 c0 Hh Hr0 Hc0. destruct (G1 h Hh r0 c0 Hr0 Hc0) as (_ & F2 & F3 & _).
    assert (F2' : N.testbit (g1 h r0 c0) ks = true <-> sat_spec ks kn inp i h r0 c0)
      by (etransitivity; [exact F2|apply S]).
    split; [|split; [exact F2'|]].
    - rewrite <- F2'. destruct (N.testbit (g1 h r0 c0) ks); split; congruence.
    - unfold floor_spec. rewrite <- F3. destruct (N.testbit (g1 h r0 c0) kd); split; congruence. }
  unfold floor_spec at 1.
  assert (P : g + 1 < s_ngroups fo inp -> forall r' c', r' < s_nrows fo inp -> c' < s_ncols fo inp ->
     ((feq fo (fdiv fo (fmean (nth g rp [])) (last (nth g rp []) (fzero fo))) (fone fo) = false /\
      fge fo (s_data fo inp i g r' c') (fmul fo (thr' fo fl inp i g r' c')
         (if no_check fo fl inp i g r' c' then fone fo
          else fdiv fo (fmean (nth g rp [])) (last (nth g rp []) (fzero fo)))) = true /\
      N.testbit (g1 g r' c') ks = false /\ N.testbit (g1 g r' c') kd = false /\
      N.testbit (g1 (g + 1) r' c') ks = true) <-> partial_spec kd ks kn inp fmean rp i g r' c')).
  { intros Hg1 r' c' Hr' Hc'. unfold partial_spec, dilution.
    destruct (T g r' c' Hg Hr' Hc') as (T1 & _ & T3). destruct (T (g + 1) r' c' Hg1 Hr' Hc') as (_ & T2 & _).
    rewrite T1, T2, T3, thr_eff, no_check_spec. reflexivity. }
  assert (Q : 2 < s_ngroups fo inp ->
    (flt fo (fadd fo (fmul fo (fdiv fo (fsub fo (s_data fo inp i 0 r c) (s_bias fo inp i r c)) (fmean (nth 0 rp [])))
                           (last (nth 2 rp []) (fzero fo))) (s_bias fo inp i r c)) (thr' fo fl inp i 0 r c) = true /\
     fgt fo (fsub fo (s_data fo inp i 1 r c) (s_data fo inp i 0 r c))
      (fdiv fo (fsub fo (thr' fo fl inp i 0 r c) (s_data fo inp i 0 r c)) (fofZ fo (Z.of_nat (length (nth 1 rp []))))) = true /\
     N.testbit (g1 2 r c) ks = true /\ N.testbit (g1 1 r c) ks = false) <->
    second_spec ks kn inp fmean rp i r c).
  { intros H2. unfold second_spec; cbv zeta.
    destruct (T 1 r c ltac:(lia) Hr Hc) as (T1 & _). destruct (T 2 r c ltac:(lia) Hr Hc) as (_ & T2 & _).
    rewrite T1, T2, thr_eff. reflexivity. }
  split.
  - intros [H|[H|[(H1 & H)|(H1 & H2 & H)]]]; [tauto|tauto| |].
    + right; right. exists rp; split; [reflexivity|]. left; split; [exact H1|].
      revert H; apply near_any_ext. intros; apply P; assumption.
    + right; right. exists rp; split; [reflexivity|]. right. repeat split; try assumption; apply Q; assumption.
  - intros [H|[H|(rp' & [= <-] & [(H1 & H)|(H1 & H2 & H)])]]; [tauto|tauto| |].
    + right; right; left. split; [exact H1|].
      revert H; apply near_any_ext. intros; symmetry; apply P; assumption.
    + right; right; right. split; [assumption|]. split; [assumption|]. apply (proj2 (Q H1)); exact H.
Qed.
End Main.

(** ** C01 *)
(** With flags distinct and the call returning, SATURATED is set in group g of a pixel
    exactly when the specification says so, for every integration. *)
Theorem C01_saturated_exactly : forall fo fmean kd ks ka kn inp out w i,
  kd <> ks /\ ka <> ks /\ kd <> ka ->
  flag_saturated_pixels fo fmean (mk_flags kd ks ka kn) inp = Some out ->
  nth_error (o_gdq fo out) i = Some w ->
  forall g r c, g < s_ngroups fo inp -> r < s_nrows fo inp -> c < s_ncols fo inp ->
  (N.testbit (w g r c) ks = true <->
   exists r' c', r' < s_nrows fo inp /\ c' < s_ncols fo inp /\
     near (s_grow fo inp) r c r' c' /\
     (N.testbit (s_gdq fo inp i g r' c') ks = true \/
      exists g', g' <= g /\
        fge fo (s_data fo inp i g' r' c')
          (eff_threshold fo (N.testbit (s_satdq fo inp i g' r' c') kn)
                            (s_thr fo inp i g' r' c') (s_atod fo inp)) = true)).
Proof. intros fo fmean kd ks ka kn inp out w i HD HO HW g r c Hg Hr Hc.
  exact (proj1 (proj2 (all_bits fo fmean kd ks ka kn inp out w i HD HO HW g r c Hg Hr Hc))). Qed.
Print Assumptions C01_saturated_exactly.

(** The call returns, with one DQ cube per integration, whenever the image is at least
    2n x 2n and every group has a non-empty read-pattern entry (if there is one). *)
Theorem C01_returns : forall fo fmean kd ks ka kn inp,
  2 * s_grow fo inp <= s_nrows fo inp -> 2 * s_grow fo inp <= s_ncols fo inp ->
  (forall rp, s_rp fo inp = Some rp -> forall g, g < s_ngroups fo inp -> nth g rp [] <> []) ->
  exists out, flag_saturated_pixels fo fmean (mk_flags kd ks ka kn) inp = Some out /\
              length (o_gdq fo out) = s_nints fo inp.
Proof. exact flag_total. Qed.
Print Assumptions C01_returns.

(** Once a sample of a pixel reaches the threshold, that pixel and its neighbourhood stay
    flagged in all later groups of the integration. *)
Theorem C01_persists : forall fo fmean kd ks ka kn inp out w i,
  kd <> ks /\ ka <> ks /\ kd <> ka ->
  flag_saturated_pixels fo fmean (mk_flags kd ks ka kn) inp = Some out ->
  nth_error (o_gdq fo out) i = Some w ->
  forall g g' r c r' c', g <= g' -> g' < s_ngroups fo inp ->
  r < s_nrows fo inp -> c < s_ncols fo inp -> r' < s_nrows fo inp -> c' < s_ncols fo inp ->
  fge fo (s_data fo inp i g r c)
      (eff_threshold fo (N.testbit (s_satdq fo inp i g r c) kn) (s_thr fo inp i g r c) (s_atod fo inp)) = true ->
  near (s_grow fo inp) r' c' r c ->
  N.testbit (w g' r' c') ks = true.
Proof. intros fo fmean kd ks ka kn inp out w i HD HO HW g g' r c r' c' Hgg Hg Hr Hc Hr' Hc' Hs Hn.
  apply (C01_saturated_exactly fo fmean kd ks ka kn inp out w i HD HO HW g' r' c' Hg Hr' Hc').
  exists r, c. split; [exact Hr|split; [exact Hc|split; [exact Hn|]]].
  right; exists g; split; assumption. Qed.
Print Assumptions C01_persists.

(** ** C02 *)
Theorem C02_dilation : forall n nr nc sat_k (gdq : img N), 1 <= n -> 2 * n <= nr -> 2 * n <= nc ->
  exists g', adjacent_pixels n nr nc (bit sat_k) gdq = Some g' /\
    forall r c, r < nr -> c < nc ->
      (forall j, j <> sat_k -> N.testbit (g' r c) j = N.testbit (gdq r c) j) /\
      (N.testbit (g' r c) sat_k = true <->
       exists r' c', r' < nr /\ c' < nc /\ near n r c r' c' /\ N.testbit (gdq r' c') sat_k = true).
Proof.
  intros n nr nc k gdq Hn Hr Hc.
  destruct (grow_total n nr nc k gdq Hr Hc) as [g' E]. exists g'.
  pose proof E as E'. unfold grow in E'. destruct (Nat.ltb_spec 0 n); [|lia].
  split; [exact E'|]. intros r c. apply (grow_ok n nr nc k gdq g' E).
Qed.
Print Assumptions C02_dilation.

(** Smaller images always make the growing step fail. *)
Theorem C02_small_images_fail : forall n nr nc sat_k (gdq : img N), 1 <= n -> nr < 2 * n \/ nc < 2 * n ->
  adjacent_pixels n nr nc (bit sat_k) gdq = None.
Proof. intros n nr nc k gdq Hn Hs. unfold adjacent_pixels. rewrite dilate_small by assumption. reflexivity. Qed.
Print Assumptions C02_small_images_fail.

(** ** C03 *)
Theorem C03_only_adds : forall fo fmean kd ks ka kn inp out w i,
  kd <> ks /\ ka <> ks /\ kd <> ka ->
  flag_saturated_pixels fo fmean (mk_flags kd ks ka kn) inp = Some out ->
  nth_error (o_gdq fo out) i = Some w ->
  forall g r c j, g < s_ngroups fo inp -> r < s_nrows fo inp -> c < s_ncols fo inp ->
  (N.testbit (s_gdq fo inp i g r c) j = true -> N.testbit (w g r c) j = true) /\
  (N.testbit (w g r c) j = true -> N.testbit (s_gdq fo inp i g r c) j = false ->
   j = ks \/ j = ka \/ j = kd).
Proof.
  intros fo fmean kd ks ka kn inp out w i HD HO HW g r c j Hg Hr Hc.
  destruct (all_bits fo fmean kd ks ka kn inp out w i HD HO HW g r c Hg Hr Hc) as (B1 & B2 & B3 & B4).
  destruct (N.eq_dec j ks) as [->|J1]; [split; [|tauto]|].
  { intro H; apply B2. exists r, c. repeat split; try assumption; try lia. left; exact H. }
  destruct (N.eq_dec j kd) as [->|J2]; [split; [|tauto]; intro H; apply B4; left; exact H|].
  destruct (N.eq_dec j ka) as [->|J3]; [split; [|tauto]; intro H; apply B3; left; exact H|].
  rewrite B1 by assumption. split; [tauto|congruence].
Qed.
Print Assumptions C03_only_adds.

(** Pixel DQ: input OR reference DQ, plus NO_SAT_CHECK where the threshold is NaN. *)
Theorem C03_pixel_dq : forall fo fmean kd ks ka kn inp out,
  flag_saturated_pixels fo fmean (mk_flags kd ks ka kn) inp = Some out ->
  forall r c j, N.testbit (o_pdq fo out r c) j = true <->
    N.testbit (s_pdq fo inp r c) j = true \/ N.testbit (s_satdq fo inp 0 0 r c) j = true \/
    (j = kn /\ fisnan fo (s_thr fo inp 0 0 r c) = true).
Proof.
  intros fo fmean kd ks ka kn inp out H r c j. unfold flag_saturated_pixels in H.
  apply bind_Some in H. destruct H as (outs & _ & [= <-]). cbn [o_pdq].
  rewrite N.lor_spec, orb_true_iff. unfold satdq'. cbn [f_nsc mk_flags].
  destruct (fisnan fo (s_thr fo inp 0 0 r c)).
  - rewrite N.lor_spec, bit_testbit, orb_true_iff, N.eqb_eq.
    split; [intros [K|[K|K]]|intros [K|[K|[K _]]]]; subst; tauto.
  - split; [intros [K|K]|intros [K|[K|[_ K]]]]; try tauto; discriminate.
Qed.
Print Assumptions C03_pixel_dq.

(** ** C04 *)
Theorem C04_ad_floor : forall fo fmean kd ks ka kn inp out w i,
  kd <> ks /\ ka <> ks /\ kd <> ka ->
  flag_saturated_pixels fo fmean (mk_flags kd ks ka kn) inp = Some out ->
  nth_error (o_gdq fo out) i = Some w ->
  forall g r c, g < s_ngroups fo inp -> r < s_nrows fo inp -> c < s_ncols fo inp ->
  (N.testbit (w g r c) ka = true <->
     N.testbit (s_gdq fo inp i g r c) ka = true \/
     fle fo (s_data fo inp i g r c) (fzero fo) = true) /\
  (fle fo (s_data fo inp i g r c) (fzero fo) = true -> N.testbit (w g r c) kd = true).
Proof.
  intros fo fmean kd ks ka kn inp out w i HD HO HW g r c Hg Hr Hc.
  destruct (all_bits fo fmean kd ks ka kn inp out w i HD HO HW g r c Hg Hr Hc) as (B1 & B2 & B3 & B4).
  split; [exact B3|]. intro H; apply B4; right; left; exact H.
Qed.
Print Assumptions C04_ad_floor.

(** ** C05 *)
Theorem C05_no_sat_check : forall fo fmean kd ks ka kn inp out w i,
  kd <> ks /\ ka <> ks /\ kd <> ka ->
  flag_saturated_pixels fo fmean (mk_flags kd ks ka kn) inp = Some out ->
  nth_error (o_gdq fo out) i = Some w ->
  forall g r c, g < s_ngroups fo inp -> r < s_nrows fo inp -> c < s_ncols fo inp ->
  (* the pixel is excluded from the check in every group up to g *)
  (forall g', g' <= g -> N.testbit (s_satdq fo inp i g' r c) kn = true \/
                         fisnan fo (s_thr fo inp i g' r c) = true) ->
  (* its data stay below one count above the A/D limit *)
  (forall g', g' <= g -> fge fo (s_data fo inp i g' r c) (fadd fo (s_atod fo inp) (fone fo)) = false) ->
  N.testbit (s_gdq fo inp i g r c) ks = false ->
  (N.testbit (w g r c) ks = true <->
   (* then only another pixel of the neighbourhood can have caused a flag *)
   exists r' c', (r', c') <> (r, c) /\ r' < s_nrows fo inp /\ c' < s_ncols fo inp /\
     near (s_grow fo inp) r c r' c' /\
     (N.testbit (s_gdq fo inp i g r' c') ks = true \/
      exists g', g' <= g /\
        fge fo (s_data fo inp i g' r' c')
          (eff_threshold fo (N.testbit (s_satdq fo inp i g' r' c') kn)
                            (s_thr fo inp i g' r' c') (s_atod fo inp)) = true)).
Proof.
  intros fo fmean kd ks ka kn inp out w i HD HO HW g r c Hg Hr Hc Hex Hlow Hin.
  rewrite (C01_saturated_exactly fo fmean kd ks ka kn inp out w i HD HO HW g r c Hg Hr Hc).
  split.
  - intros (r' & c' & A & B & C & D).
    destruct (Nat.eq_dec r' r) as [->|Hne]; [destruct (Nat.eq_dec c' c) as [->|Hne]|].
    + exfalso. destruct D as [D|(g' & Hg' & D)]; [congruence|].
      specialize (Hex g' Hg'); specialize (Hlow g' Hg'). unfold eff_threshold in D.
      assert (X : N.testbit (s_satdq fo inp i g' r c) kn || fisnan fo (s_thr fo inp i g' r c) = true)
        by (apply orb_true_iff; exact Hex). rewrite X in D. congruence.
    + exists r, c'. repeat split; try assumption; try apply C; congruence.
    + exists r', c'. repeat split; try assumption; try apply C; congruence.
  - intros (r' & c' & _ & A). exists r', c'. exact A.
Qed.
Print Assumptions C05_no_sat_check.

(** ** C06 *)
(** DO_NOT_USE is set exactly where it was, where the A/D floor was hit, and - with a read
    pattern - where the partial-saturation or second-group rule applies. *)
Theorem C06_partial_saturation : forall fo fmean kd ks ka kn inp out w i,
  kd <> ks /\ ka <> ks /\ kd <> ka ->
  flag_saturated_pixels fo fmean (mk_flags kd ks ka kn) inp = Some out ->
  nth_error (o_gdq fo out) i = Some w ->
  forall g r c, g < s_ngroups fo inp -> r < s_nrows fo inp -> c < s_ncols fo inp ->
  (N.testbit (w g r c) kd = true <->
     N.testbit (s_gdq fo inp i g r c) kd = true \/ floor_spec inp i g r c \/
     exists rp, s_rp fo inp = Some rp /\
     ((g + 1 < s_ngroups fo inp /\
       near_any (s_grow fo inp) (s_nrows fo inp) (s_ncols fo inp)
          (partial_spec kd ks kn inp fmean rp i g) r c) \/
      (2 < s_ngroups fo inp /\ g = 1 /\ second_spec ks kn inp fmean rp i r c))).
Proof.
  intros fo fmean kd ks ka kn inp out w i HD HO HW g r c Hg Hr Hc.
  exact (proj2 (proj2 (proj2 (all_bits fo fmean kd ks ka kn inp out w i HD HO HW g r c Hg Hr Hc)))).
Qed.
Print Assumptions C06_partial_saturation.

Corollary C06_no_read_pattern : forall fo fmean kd ks ka kn inp out w i,
  kd <> ks /\ ka <> ks /\ kd <> ka ->
  flag_saturated_pixels fo fmean (mk_flags kd ks ka kn) inp = Some out ->
  nth_error (o_gdq fo out) i = Some w -> s_rp fo inp = None ->
  forall g r c, g < s_ngroups fo inp -> r < s_nrows fo inp -> c < s_ncols fo inp ->
  (N.testbit (w g r c) kd = true <->
     N.testbit (s_gdq fo inp i g r c) kd = true \/ fle fo (s_data fo inp i g r c) (fzero fo) = true).
Proof.
  intros fo fmean kd ks ka kn inp out w i HD HO HW Hrp g r c Hg Hr Hc.
  rewrite (C06_partial_saturation fo fmean kd ks ka kn inp out w i HD HO HW g r c Hg Hr Hc).
  unfold floor_spec. split; [|tauto]. intros [H|[H|(rp & E & _)]]; try tauto; congruence.
Qed.
Print Assumptions C06_no_read_pattern.

(** ** C55 *)
(** A ZEROFRAME sample is replaced by 0 exactly when it is non-positive or within the grow
    radius of a ZEROFRAME sample at or above threshold; all other samples are kept. *)
Theorem C55_zeroframe : forall fo fmean kd ks ka kn inp out i zf,
  kd <> ks /\ ka <> ks ->
  flag_saturated_pixels fo fmean (mk_flags kd ks ka kn) inp = Some out ->
  s_zframe fo inp = Some zf -> i < s_nints fo inp ->
  exists zs z', o_zframe fo out = Some zs /\ nth_error zs i = Some z' /\
  forall r c, r < s_nrows fo inp -> c < s_ncols fo inp ->
   let bad := fle fo (zf i r c) (fzero fo) = true \/
     near_any (s_grow fo inp) (s_nrows fo inp) (s_ncols fo inp)
       (fun r' c' => fge fo (zf i r' c')
          (eff_threshold fo (N.testbit (s_satdq fo inp i 0 r' c') kn)
                            (s_thr fo inp i 0 r' c') (s_atod fo inp)) = true) r c in
   (bad -> z' r c = fzero fo) /\ (~ bad -> z' r c = zf i r c).
Proof.
  intros fo fmean kd ks ka kn inp out i zf (D1 & D2) HO HZ Hi.
  unfold flag_saturated_pixels in HO. apply bind_Some in HO.
  destruct HO as (outs & E & [= <-]). cbn [o_zframe]. rewrite HZ.
  assert (X : forall l outs, integs fo fmean (mk_flags kd ks ka kn) inp l = Some outs ->
     exists zs, flat_map (fun x : (nat -> img N) * option (img fo) =>
          match snd x with Some z => [z] | None => [] end) outs = zs /\
      forall k, k < length l -> exists z', nth_error zs k = Some z' /\
        zframe_pass fo (mk_flags kd ks ka kn) inp (nth k l 0) (zf (nth k l 0)) = Some z').
  { clear - HZ. induction l as [|a l IH]; cbn [integs]; intros outs E.
    - injection E as <-. eexists; split; [reflexivity|]. cbn [length]; lia.
    - apply bind_Some in E; destruct E as (x & Ex & E).
      apply bind_Some in E; destruct E as (xs & Exs & [= <-]).
      destruct (IH xs Exs) as (zs & Ez & Hk).
      unfold integ in Ex.
      apply bind_Some in Ex; destruct Ex as (g1 & _ & Ex).
      apply bind_Some in Ex; destruct Ex as (g2 & _ & Ex).
      apply bind_Some in Ex; destruct Ex as (g3 & _ & Ex).
      rewrite HZ in Ex. apply bind_Some in Ex; destruct Ex as (z & Ez' & [= <-]).
      cbn [flat_map snd app]. rewrite Ez. eexists; split; [reflexivity|].
      intros [|k] Hlt; cbn [nth nth_error length] in *; [exists z; auto|]. apply Hk; lia. }
  destruct (X _ _ E) as (zs & Ez & Hk).
  destruct (Hk i) as (z' & Hz' & Hp); [rewrite seq_length; exact Hi|].
  rewrite seq_nth in Hp by exact Hi. cbn [plus] in Hp.
  exists zs, z'. split; [f_equal; exact Ez|]. split; [exact Hz'|].
  intros r c Hr Hc. 
  destruct (zframe_pass_ok fo kd ks ka kn inp D1 D2 i (zf i) z' Hp r c Hr Hc) as [P1 P2].
  cbv zeta. split; [intros [H|H]; apply P1; [left; exact H|right]|intro H; apply P2; intros [K|K]; apply H; [left; exact K|right]].
  - revert H; apply near_any_ext; intros r' c' _ _; rewrite (thr_eff fo kd ks ka kn inp); reflexivity.
  - revert K; apply near_any_ext; intros r' c' _ _; rewrite (thr_eff fo kd ks ka kn inp); reflexivity.
Qed.
Print Assumptions C55_zeroframe.

(** ** Concrete instances *)
Section Instances.
(** One 4x4 integration, three groups, IEEE binary32: the pixel (0,0) reaches its
    threshold of 100 in group 1; (3,3) is 0 in group 0; n = 1. *)
Let z (k : Z) : B32 := fofZ B32 k.
Definition ex_data (i g r c : nat) : B32 :=
  match g, r, c with
  | 0, 0, 0 => z 90 | 1, 0, 0 => z 100 | 2, 0, 0 => z 20
  | 0, 3, 3 => z 0
  | _, _, _ => z 10
  end.
Definition ex_in : sat_in B32 :=
  {| s_nints := 1; s_ngroups := 3; s_nrows := 4; s_ncols := 4;
     s_data := ex_data; s_gdq := fun _ _ _ _ => 0%N; s_pdq := fun _ _ => 0%N;
     s_thr := fun _ _ r c => if Nat.eqb r 2 && Nat.eqb c 2 then fnan B32 else z 100;
     s_satdq := fun _ _ _ _ => 0%N; s_atod := z 65535; s_grow := 1; s_zframe := Some (fun _ => ex_data 0 1);
     s_rp := Some [[z 1; z 2]; [z 3; z 4]; [z 5; z 6]]; s_bias := fun _ _ _ => z 0 |}.
Definition ex_mean (l : list B32) : B32 :=
  fdiv B32 (fold_left (fadd B32) l (fzero B32)) (fofZ B32 (Z.of_nat (length l))).
Let res := flag_saturated_pixels B32 ex_mean (mk_flags 0 1 6 5) ex_in.

(** DQ of (0,0), (1,1), (2,2), (3,3) in groups 0,1,2; pixel DQ of (2,2); ZEROFRAME. *)
Example C01_C06_instance :
  match res with
  | Some o => match nth_error (o_gdq B32 o) 0 with
     | Some w => map (fun g => map (fun k => w g k k) [0; 1; 2; 3]) [0; 1; 2]
                 = [[1; 1; 0; 65]; [2; 2; 0; 0]; [2; 2; 0; 0]]%N
     | None => False end /\ o_pdq B32 o 2 2 = 32%N /\
       match o_zframe B32 o with
       | Some [zz] => zz 0 0 = fzero B32 /\ zz 1 1 = fzero B32 /\ zz 2 2 = z 10
       | _ => False end
  | None => False end.
Proof. vm_compute. repeat split. Qed.

(** The hypotheses of the theorems are met by this input. *)
Example C01_hypotheses_met :
  (0 <> 1 /\ 6 <> 1 /\ 0 <> 6)%N /\
  (exists out w, res = Some out /\ nth_error (o_gdq B32 out) 0 = Some w) /\
  2 * s_grow B32 ex_in <= s_nrows B32 ex_in /\ 2 * s_grow B32 ex_in <= s_ncols B32 ex_in /\
  (forall rp, s_rp B32 ex_in = Some rp -> forall g, g < s_ngroups B32 ex_in -> nth g rp [] <> []).
Proof.
  split; [repeat split; discriminate|]. split.
  - destruct (C01_returns B32 ex_mean 0 1 6 5 ex_in) as (out & E & L); [cbn; lia|cbn; lia| |].
    + intros rp [= <-] g Hg. cbn in Hg. destruct g as [|[|[|g]]]; cbn; try discriminate; lia.
    + destruct (o_gdq B32 out) as [|w ws] eqn:Eo; [discriminate|]. exists out, w. split; [exact E|].
      rewrite Eo; reflexivity.
  - repeat split; cbn; try lia. intros rp [= <-] g Hg.
    destruct g as [|[|[|g]]]; cbn; try discriminate; lia.
Qed.

(** C05: the unchecked pixel (2,2) stays below atod+1 and is outside the flagged area. *)
Example C05_instance :
  fisnan B32 (s_thr B32 ex_in 0 0 2 2) = true /\
  forallb (fun g => negb (fge B32 (s_data B32 ex_in 0 g 2 2) (fadd B32 (s_atod B32 ex_in) (fone B32)))) [0;1;2] = true.
Proof. vm_compute. split; reflexivity. Qed.

(** C02: radius 2 on a 4 x 5 image. *)
Example C02_instance :
  match adjacent_pixels 2 4 5 (bit 1) (fun r c => if Nat.eqb r 0 && Nat.eqb c 0 then 7%N else 4%N) with
  | Some g => map (fun r => map (g r) (seq 0 5)) (seq 0 4)
      = [[7;6;6;4;4];[6;6;6;4;4];[6;6;6;4;4];[4;4;4;4;4]]%N
  | None => False end.
Proof. vm_compute. reflexivity. Qed.
Example C02_small_instance : adjacent_pixels 2 3 5 (bit 1) (fun _ _ => 0%N) = None.
Proof. vm_compute. reflexivity. Qed.
End Instances.
