(** Lemmas about the OLS fitter's segments and data-quality words. *)
From Verif Require Import Base BaseLemmas Cas22Model Cas22Spec Cas22Proofs OlsModel OlsSpec.
From Coq Require Import Sorting.Sorted.

(** ** Segments *)
Definition adds (l : list (nat * nat)) : slist := fold_left add_segment l sl_empty.
Lemma adds_snoc l x : adds (l ++ [x]) = add_segment (adds l) x.
Proof. unfold adds. rewrite fold_left_app. reflexivity. Qed.

(** the scan finds the runs *)
Definition ext1 (f : oflags) (g : nat -> N) (s : nat) : nat :=
  if Nat.ltb 0 s && N.eqb (N.ldiff (g (s - 1)) (o_pers f)) (o_jump f) then s - 1 else s.
Lemma flags_zero f g k : Z.eqb (flags_of f g k) 0 = N.eqb (N.ldiff (g k) (o_pers f)) 0.
Proof. unfold flags_of. destruct (N.eqb_spec (N.ldiff (g k) (o_pers f)) 0) as [E|E]; [rewrite E; reflexivity|]. apply Z.eqb_neq. lia. Qed.
Lemma scan_fold f g m :
  let st := fold_left (init_step (flags_of f g)) (seq 0 m) ([], None) in
  fold_left (seg_step f g) (seq 0 m) (None, sl_empty) = (option_map (ext1 f g) (snd st), adds (map (extend f g) (fst st))).
Proof.
  cbv zeta. induction m as [|m IH]; [reflexivity|].
  rewrite seq_S, !fold_left_app. cbn [fold_left Nat.add]. rewrite IH.
  pose proof (init_inv (flags_of f g) m) as H. cbv zeta in H. destruct (fold_left (init_step (flags_of f g)) _ _) as [rs start]. destruct H as (_ & _ & T). cbn [fst snd] in *.
  unfold seg_step, init_step. rewrite flags_zero. destruct start as [s|]; cbn [option_map]; destruct (N.eqb _ 0); cbn [fst snd option_map]; try reflexivity.
  rewrite map_app. cbn [map]. rewrite adds_snoc. unfold extend. cbn [fst snd]. replace (m - 1 + 1) with m by lia. reflexivity.
Qed.
Lemma scan_runs f g n : scan_segments f g n = prune (adds (map (extend f g) (init_ramps (flags_of f g) n))).
Proof.
  unfold scan_segments, init_ramps. rewrite scan_fold.
  pose proof (init_inv (flags_of f g) n) as H. cbv zeta in H. destruct (fold_left (init_step (flags_of f g)) _ _) as [rs start]. destruct H as (_ & _ & T). cbn [fst snd] in *.
  destruct start as [s|]; cbn [option_map]; [|reflexivity].
  rewrite map_app. cbn [map]. rewrite adds_snoc. unfold extend at 3. cbn [fst snd]. replace (n - 1 + 1) with n by lia. reflexivity.
Qed.

(** adding and pruning keep what they should *)
Definition valid (s : nat * nat) : Prop := fst s < snd s.
Lemma long_valid s : valid s -> long s = negb (Nat.eqb 1 (snd s - fst s)).
Proof. unfold valid, long. intro V. destruct (Nat.eqb_spec 1 (snd s - fst s)); cbn [negb]; [apply Nat.ltb_ge|apply Nat.ltb_lt]; lia. Qed.
Lemma adds_inv l : Forall valid l ->
  sl_size (adds l) = length (sl_nodes (adds l)) /\ Forall valid (sl_nodes (adds l)) /\
  (if existsb long l then 1 < sl_max (adds l) /\ filter long (sl_nodes (adds l)) = filter long l
    else sl_nodes (adds l) = l /\ sl_max (adds l) = (if Nat.eqb (length l) 0 then 0 else 1)).
Proof.
  induction l as [|x l IH] using rev_ind; intro V.
  - cbn. repeat split; constructor.
  - apply Forall_app in V. destruct V as [V Vx]. inversion Vx as [|? ? Ux _]; subst. destruct (IH V) as (S0 & N0 & M). clear IH.
    rewrite adds_snoc, existsb_app. cbn [existsb]. rewrite orb_false_r. unfold add_segment.
    set (a := adds l) in *. destruct (Nat.eqb_spec 1 (snd x - fst x)) as [L1|L1].
    + assert (Lx : long x = false) by (rewrite long_valid, <- L1 by assumption; reflexivity). rewrite Lx, orb_false_r.
      destruct (existsb long l) eqn:E.
      * destruct M as [M1 M2]. rewrite (proj2 (Nat.ltb_lt 1 (sl_max a)) M1). cbn [andb]. split; [assumption|]. split; [assumption|].
        split; [assumption|]. rewrite filter_app. cbn [filter]. rewrite Lx, app_nil_r. assumption.
      * destruct M as (M1 & M2). assert (Lt : Nat.ltb 1 (sl_max a) = false) by (apply Nat.ltb_ge; rewrite M2; destruct (Nat.eqb (length l) 0); lia).
        rewrite Lt. cbn [andb sl_size sl_nodes sl_max]. split; [|split; [apply Forall_app; auto|]].
        { rewrite app_length. cbn [length]. destruct (sl_nodes a); cbn [length] in *; lia. }
        split; [rewrite M1; reflexivity|]. rewrite app_length. cbn [length]. rewrite M2, <- L1.
        destruct (Nat.eqb_spec (length l + 1) 0); [lia|]. destruct (Nat.eqb (length l) 0); reflexivity.
    + cbn [andb sl_size sl_nodes sl_max]. assert (Lx : long x = true) by (rewrite long_valid by assumption; apply negb_true_iff, Nat.eqb_neq; assumption).
      rewrite Lx, orb_true_r. split; [|split; [apply Forall_app; auto|]].
      { rewrite app_length. cbn [length]. destruct (sl_nodes a); cbn [length] in *; lia. }
      split. { unfold long in Lx. apply Nat.ltb_lt in Lx. destruct (Nat.ltb_spec (sl_max a) (snd x - fst x)); lia. }
      rewrite !filter_app. cbn [filter]. rewrite Lx. f_equal. destruct (existsb long l) eqn:E; [apply M|]. destruct M as [-> _]. reflexivity.
Qed.
Lemma filter_all {A} (p : A -> bool) l : Forall (fun x => p x = true) l -> filter p l = l.
Proof. induction 1 as [|x l H _ IH]; [reflexivity|]. cbn [filter]. rewrite H, IH. reflexivity. Qed.
Lemma existsb_filter {A} (p : A -> bool) l : existsb p l = negb (Nat.eqb (length (filter p l)) 0).
Proof. induction l as [|x l IH]; [reflexivity|]. cbn [existsb filter]. destruct (p x); [reflexivity|exact IH]. Qed.
Lemma filter_len {A} (p : A -> bool) l : length (filter p l) <= length l.
Proof. induction l as [|x l IH]; [reflexivity|]. cbn [filter]. destruct (p x); cbn [length]; lia. Qed.
Lemma prune_kept l : Forall valid l ->
  sl_nodes (prune (adds l)) = kept l /\ (sl_size (prune (adds l)) = 0 <-> l = []).
Proof.
  intro V. destruct (adds_inv l V) as (S0 & N0 & M). unfold prune, kept. set (a := adds l) in *. rewrite S0.
  assert (FL : filter (fun s : nat * nat => negb (Nat.eqb 1 (snd s - fst s))) (sl_nodes a) = filter long (sl_nodes a)).
  { clear -N0. induction N0 as [|s r U _ IH]; [reflexivity|]. cbn [filter]. rewrite <- (long_valid s U), IH. reflexivity. }
  destruct (existsb long l) eqn:E.
  - destruct M as [M1 M2]. pose proof E as E'. rewrite existsb_filter, <- M2, negb_true_iff, Nat.eqb_neq in E'.
    pose proof (filter_len long (sl_nodes a)) as LE.
    assert (NL : l <> []) by (intros ->; discriminate).
    destruct (Nat.ltb_spec (length (sl_nodes a)) 2).
    + rewrite S0. split; [|split; [lia|contradiction]]. rewrite <- M2. destruct (sl_nodes a) as [|s [|s' r]]; cbn [length] in *; [lia| |lia].
      cbn [filter] in *. destruct (long s); [reflexivity|cbn [length] in *; lia].
    + destruct (Nat.ltb_spec (sl_max a) 2); [lia|]. cbn [sl_nodes sl_size]. rewrite FL. split; [assumption|]. split; [lia|contradiction].
  - destruct M as (M1 & M2). rewrite M1 in *. destruct (Nat.ltb_spec (length l) 2).
    + rewrite M1, S0. split; [destruct l as [|x [|y r]]; cbn [length] in *; [reflexivity|reflexivity|lia]|]. destruct l; cbn; split; intro; try reflexivity; discriminate.
    + rewrite M2. destruct (Nat.eqb_spec (length l) 0); [lia|]. cbn [Nat.ltb Nat.leb sl_nodes sl_size]. split; [reflexivity|]. split; [lia|intros ->; cbn in *; lia].
Qed.
Lemma extend_valid f g n r : is_runs (flags_of f g) n r -> Forall valid (map (extend f g) r).
Proof.
  intros [[S _] _]. apply Forall_map, Forall_forall. intros x I. specialize (S x I). unfold valid, extend. cbn [fst snd]. destruct (_ && _); lia.
Qed.
Theorem segments_kept f g n r : is_runs (flags_of f g) n r ->
  sl_nodes (scan_segments f g n) = kept (map (extend f g) r) /\ (sl_size (scan_segments f g n) = 0 <-> r = []).
Proof.
  intro H. rewrite scan_runs, (runs_unique _ _ _ _ (init_ramps_runs (flags_of f g) n) H).
  destruct (prune_kept _ (extend_valid f g n r H)) as [P Q]. split; [assumption|]. rewrite Q. destruct r; cbn; split; intro; try reflexivity; discriminate.
Qed.

(** segments are in order and disjoint *)
Definition seg_before (a b : nat * nat) : Prop := snd a <= fst b.
Lemma sorted_filter {A} (R : A -> A -> Prop) p l : StronglySorted R l -> StronglySorted R (filter p l).
Proof.
  induction 1 as [|x l S IH F]; cbn [filter]; [constructor|]. destruct (p x); [|assumption]. constructor; [assumption|].
  apply Forall_forall. intros y I. apply filter_In in I. rewrite Forall_forall in F. apply F. tauto.
Qed.
Lemma runs_sorted f g n r : is_runs (flags_of f g) n r -> StronglySorted seg_before (map (extend f g) r).
Proof.
  intros [[V S] C]. clear C. induction S as [|x l S IH F]; cbn [map]; [constructor|]. constructor.
  - apply IH. intros y I. apply V. right. assumption.
  - apply Forall_map. rewrite Forall_forall in *. intros y I. specialize (F y I). unfold seg_before, extend. cbn [fst snd]. destruct (_ && _); lia.
Qed.
Lemma kept_sorted R l : StronglySorted R l -> StronglySorted R (kept l).
Proof.
  intro S. unfold kept. destruct (existsb long l); [apply sorted_filter; assumption|].
  destruct S as [|x l S F]; cbn [firstn]; [constructor|]. repeat constructor.
Qed.
Lemma kept_in l s : In s (kept l) -> In s l.
Proof. unfold kept. destruct (existsb long l); [intro I; apply filter_In in I; tauto|]. destruct l; cbn [firstn]; [intros []|intros [->|[]]; left; reflexivity]. Qed.

(** ** Counting *)
Lemma count_range p n : (0 <= count p n <= Z.of_nat n)%Z.
Proof. unfold count. pose proof (filter_len p (seq 0 n)). rewrite seq_length in H. lia. Qed.
Lemma count_all_gen p a n : Nat.eqb (length (filter p (seq a n))) n = forallb p (seq a n).
Proof.
  revert a. induction n as [|n IH]; intro a; [reflexivity|]. cbn [seq filter forallb]. destruct (p a); cbn [length andb].
  - cbn [Nat.eqb]. apply IH.
  - apply Nat.eqb_neq. pose proof (filter_len p (seq (S a) n)). rewrite seq_length in H. lia.
Qed.
Lemma count_all p n : Z.eqb (Z.of_nat n) (count p n) = forallb p (seq 0 n).
Proof. rewrite <- count_all_gen. unfold count. destruct (Nat.eqb_spec (length (filter p (seq 0 n))) n); [apply Z.eqb_eq|apply Z.eqb_neq]; lia. Qed.
Lemma count_any p n : Z.ltb 0 (count p n) = existsb p (seq 0 n).
Proof. rewrite existsb_filter. unfold count. destruct (Nat.eqb_spec (length (filter p (seq 0 n))) 0); cbn [negb]; [apply Z.ltb_ge|apply Z.ltb_lt]; lia. Qed.
Lemma count_none p n : Z.eqb 0 (count p n) = negb (existsb p (seq 0 n)).
Proof. rewrite <- count_any. pose proof (count_range p n). destruct (Z.ltb_spec 0 (count p n)); [apply Z.eqb_neq|apply Z.eqb_eq]; lia. Qed.

(** ** Data quality *)
Section DQ.
  Variable fo : FOps.
  Variable powf : fo -> fo -> fo.
  Variable m : ometa fo.
  Variable p : opix fo.
  Notation f := (m_f fo m). Notation ng := (m_ng fo m).
  Notation d := (x_gdq fo p).
  (** the ZEROFRAME stands in for the ramp *)
  Definition zf_used (k : nat) : bool :=
    negb (m_sup fo m) && negb (existsb (fun j => N.eqb 0 (d k j)) (seq 0 ng)) &&
    match x_zf fo p with Some z => negb (feq fo (fzero fo) (z k)) | None => false end.
  Lemma prep_zf k : i_zf fo (prep fo m p k) = zf_used k.
  Proof.
    unfold prep, zf_used. destruct (m_sup fo m); [reflexivity|]. cbn [negb andb]. cbn [prep0 i_good i_gdq].
    destruct (Z.eqb_spec 1 (count (fun j => N.eqb 0 (d k j)) ng)) as [E|E]; cbn [andb].
    - assert (A : existsb (fun j => N.eqb 0 (d k j)) (seq 0 ng) = true) by (rewrite <- count_any; apply Z.ltb_lt; lia).
      rewrite A. cbn [negb andb]. destruct (N.eqb 0 (d k 0)); [reflexivity|]. rewrite count_none, A. destruct (x_zf fo p); reflexivity.
    - rewrite count_none. destruct (x_zf fo p); [|rewrite andb_false_r; reflexivity]. destruct (negb (existsb _ _)); cbn [andb]; [|reflexivity]. destruct (negb _); reflexivity.
  Qed.
  Lemma prep_rest k : let i := prep fo m p k in
    i_gdq fo i = (if zf_used k then upd 0 0%N (d k) else d k) /\
    i_jump fo i = existsb (fun j => has (d k j) (o_jump f)) (seq 0 ng) /\
    i_pers fo i = existsb (fun j => has (d k j) (o_pers f)) (seq 0 ng) /\
    i_chg fo i = existsb (fun j => has (d k j) (o_chg f)) (seq 0 ng) /\
    i_dnusat fo i = (count (fun j => has (d k j) (o_dnu f) || has (d k j) (o_sat f)) ng - (if zf_used k then 1 else 0))%Z /\
    i_sat fo i = (let c := count (fun j => has (d k j) (o_sat f)) ng in if zf_used k && Z.eqb (Z.of_nat ng) c then (c - 1)%Z else c).
  Proof.
    cbv zeta. rewrite <- prep_zf. unfold prep. destruct (m_sup fo m); [cbn; rewrite Z.sub_0_r; repeat split|].
    destruct (_ && _); [cbn; rewrite Z.sub_0_r; repeat split|]. destruct (x_zf fo p) as [z|]; [|cbn; rewrite Z.sub_0_r; repeat split].
    destruct (_ && _); [|cbn; rewrite Z.sub_0_r; repeat split]. cbn [i_gdq i_jump i_pers i_chg i_dnusat i_sat i_zf prep0 andb]. repeat split.
  Qed.
  Lemma fit_slope_dq i mr s q : q_dq fo (fst (fit_slope fo powf m p i mr s q)) = q_dq fo q.
  Proof. unfold fit_slope. destruct (Nat.eqb _ 0); [reflexivity|]. destruct (has _ _); reflexivity. Qed.

  Definition any_sat (k : nat) : bool := existsb (fun j => has (d k j) (o_sat f)) (seq 0 ng).
  Definition all_bad (k : nat) : bool := forallb (fun j => has (d k j) (o_dnu f) || has (d k j) (o_sat f)) (seq 0 ng).
  (** flags of one integration *)
  Definition gdnu (k : nat) : bool := negb (zf_used k) && (has (d k 0) (o_sat f) || all_bad k).
  Definition gsat (k : nat) : bool := any_sat k && negb (zf_used k && Nat.eqb ng 1).
  Definition int_word (k : nat) : N :=
    N.lor (N.lor (int_dq0 fo m p (prep fo m p k)) (flag_if (gdnu k) (o_dnu f))) (flag_if (gsat k) (o_sat f)).
  Lemma all_bad_nonempty k : 1 <= ng -> forallb (fun j => has (d k j) (o_sat f)) (seq 0 ng) = true -> has (d k 0) (o_sat f) = true.
  Proof. intros N A. rewrite forallb_forall in A. apply A. apply in_seq. lia. Qed.
  Lemma first_any k : 1 <= ng -> has (d k 0) (o_sat f) = true -> any_sat k = true.
  Proof. intros N A. apply existsb_exists. exists 0. split; [apply in_seq; lia|assumption]. Qed.
  Lemma part_gsat k : 1 <= ng -> Z.ltb 0 (i_sat fo (prep fo m p k)) = gsat k.
  Proof.
    intro N. destruct (prep_rest k) as (_ & _ & _ & _ & _ & ->). unfold gsat, any_sat. cbv zeta. set (c := count _ _).
    assert (A : existsb (fun j => has (d k j) (o_sat f)) (seq 0 ng) = Z.ltb 0 c) by (symmetry; apply count_any). rewrite A.
    pose proof (count_range (fun j => has (d k j) (o_sat f)) ng) as Rg. fold c in Rg.
    destruct (zf_used k); cbn [andb negb]; [|rewrite andb_true_r; reflexivity].
    destruct (Z.eqb_spec (Z.of_nat ng) c); destruct (Nat.eqb_spec ng 1); cbn [negb]; rewrite ?andb_true_r, ?andb_false_r.
    - apply Z.ltb_ge. lia.
    - destruct (Z.ltb_spec 0 c); [apply Z.ltb_lt; lia|lia].
    - apply Z.ltb_ge. lia.
    - reflexivity.
  Qed.
  Ltac nbits := apply N.bits_inj; intro; rewrite ?N.lor_spec, ?flag_if_testbit.
  (** the DQ after the fit of one integration, before partial saturation is added *)
  Lemma integration_word k mr : 1 <= ng ->
    let w := q_dq fo (fst (fit_integration fo powf m p mr k)) in
    N.lor w (flag_if (gsat k) (o_sat f)) = int_word k /\
    w = N.lor (N.lor (int_dq0 fo m p (prep fo m p k)) (flag_if (gdnu k) (o_dnu f)))
        (flag_if (negb (zf_used k) && has (d k 0) (o_sat f)) (o_sat f)).
  Proof.
    intro N. cbv zeta. unfold fit_integration. destruct (prep_rest k) as (G & _ & _ & _ & D & S0). rewrite G, D, S0. clear G D S0. cbv zeta.
    unfold int_word, gdnu, gsat. pose proof (first_any k N) as FA. pose proof (all_bad_nonempty k N) as AB.
    pose proof (count_range (fun j => has (d k j) (o_dnu f) || has (d k j) (o_sat f)) ng) as Rg.
    destruct (zf_used k); cbn [andb negb].
    - replace (has (upd 0 0%N (d k) 0) (o_sat f)) with false by (rewrite upd_same; reflexivity).
      set (c := count _ _) in *. destruct (Z.eqb_spec (Z.of_nat ng) (c - 1)); [lia|]. rewrite fit_slope_dq. cbn [q_dq].
      split; nbits; cbn [andb]; rewrite ?orb_false_r; reflexivity.
    - rewrite Z.sub_0_r, count_all. fold (all_bad k). rewrite count_all. set (A := forallb _ _) in *. set (s0 := has (d k 0) (o_sat f)) in *.
      destruct (all_bad k); cbn [orb].
      + cbn [fst q_dq]. destruct s0; [rewrite (FA eq_refl)|]; (destruct A; [try (discriminate (AB eq_refl))|]); split; nbits; cbn [andb orb]; rewrite ?orb_false_r, ?orb_true_r; repeat match goal with |- context [N.testbit ?a ?b] => destruct (N.testbit a b) end; reflexivity.
      + rewrite fit_slope_dq. cbn [q_dq]. rewrite orb_false_r. destruct s0; [rewrite (FA eq_refl)|]; split; nbits; cbn [andb orb]; rewrite ?orb_false_r, ?orb_true_r; repeat match goal with |- context [N.testbit ?a ?b] => destruct (N.testbit a b) end; reflexivity.
  Qed.
  Lemma finish_word k mr : 1 <= ng -> q_dq fo (u_fit fo (finish_integration fo powf m p mr k)) = int_word k.
  Proof.
    intro N. destruct (integration_word k mr N) as [W _]. unfold finish_integration. rewrite (part_gsat k N). destruct (fit_integration fo powf m p mr k) as [q c].
    cbn [fst u_fit q_dq] in *. rewrite <- W. destruct (gsat k); cbn [flag_if]; [reflexivity|rewrite N.lor_0_r; reflexivity].
  Qed.

  Lemma fit_pixel_ints : map (q_dq fo) (snd (fit_pixel fo powf m p)) = map (fun k => q_dq fo (u_fit fo (finish_integration fo powf m p (median_rate fo m p) k))) (seq 0 (m_nints fo m)).
  Proof. unfold fit_pixel. cbn [snd]. rewrite !map_map. reflexivity. Qed.
  Lemma map_nth_seq {A} (l : list A) dflt : map (fun k => nth k l dflt) (seq 0 (length l)) = l.
  Proof.
    clear. induction l as [|x l IH]; [reflexivity|]. cbn [length seq map nth]. f_equal. rewrite <- seq_shift, map_map. exact IH.
  Qed.
  Lemma chargeloss_dq r : length (snd r) = m_nints fo m ->
    q_dq fo (fst (chargeloss fo m p r)) = q_dq fo (fst r) /\ map (q_dq fo) (snd (chargeloss fo m p r)) = map (q_dq fo) (snd r).
  Proof.
    intro L. unfold chargeloss. destruct (x_orig fo p) as [o|]; [|split; reflexivity]. destruct (negb _); [split; reflexivity|]. cbn [fst snd].
    split; [reflexivity|]. rewrite map_map. rewrite <- (map_nth_seq (map (q_dq fo) (snd r)) (q_dq fo (fst r))), map_length, L.
    apply map_ext. intro k. rewrite map_nth. destruct (i_chg fo _); reflexivity.
  Qed.
  Lemma fit_pixel_length : length (snd (fit_pixel fo powf m p)) = m_nints fo m.
  Proof. unfold fit_pixel. cbn [snd]. rewrite !map_length, seq_length. reflexivity. Qed.
  Lemma pixel_words : 1 <= ng -> map (q_dq fo) (snd (ols_pixel fo powf m p)) = map int_word (seq 0 (m_nints fo m)).
  Proof.
    intro N. unfold ols_pixel. rewrite (proj2 (chargeloss_dq _ fit_pixel_length)), fit_pixel_ints. apply map_ext. intro k. apply finish_word. assumption.
  Qed.

  Variables dnu jump sat pers ngval chg : N.
  Hypothesis Hf : f = flags_at dnu jump sat pers ngval chg.
  Hypothesis Hd : NoDup [dnu; jump; sat; pers; ngval].
  Hypothesis N1 : 1 <= ng.
  Hypothesis I1 : 1 <= m_nints fo m.
  Lemma word_bit k j : N.testbit (int_word k) j =
    N.testbit (pixel_dq fo m p) j || (existsb (fun i => has (d k i) (o_jump f)) (seq 0 ng) && N.eqb jump j)
    || (existsb (fun i => has (d k i) (o_pers f)) (seq 0 ng) && N.eqb pers j) || (gdnu k && N.eqb dnu j) || (gsat k && N.eqb sat j).
  Proof.
    unfold int_word, int_dq0. destruct (prep_rest k) as (_ & -> & -> & _). rewrite !N.lor_spec, !flag_if_testbit.
    rewrite Hf. cbn [flags_at o_jump o_pers o_dnu o_sat]. rewrite !bit_testbit. reflexivity.
  Qed.
  Lemma udnu_bit k mr : u_dnu fo (finish_integration fo powf m p mr k) = N.testbit (int_word k) dnu.
  Proof.
    unfold finish_integration. destruct (integration_word k mr N1) as [W1 _]. destruct (fit_integration fo powf m p mr k) as [q c]. cbn [u_dnu fst] in *.
    rewrite <- W1, N.lor_spec, flag_if_testbit. rewrite Hf. cbn [flags_at o_dnu o_sat]. rewrite has_bit, bit_testbit.
    replace (N.eqb sat dnu) with false; [rewrite andb_false_r, orb_false_r; reflexivity|]. symmetry. apply N.eqb_neq. inversion Hd as [|? ? X _]. intros ->. apply X. cbn. tauto.
  Qed.
  Lemma usat_bit k mr : u_sat fo (finish_integration fo powf m p mr k) = true -> N.testbit (int_word k) sat = true.
  Proof.
    unfold finish_integration. destruct (integration_word k mr N1) as [W1 _]. destruct (fit_integration fo powf m p mr k) as [q c]. cbn [u_sat fst] in *.
    rewrite <- W1, N.lor_spec. rewrite Hf. cbn [flags_at o_sat]. rewrite has_bit. intros ->. reflexivity.
  Qed.
  Lemma neqs : N.eqb jump dnu = false /\ N.eqb sat dnu = false /\ N.eqb pers dnu = false.
  Proof. inversion Hd as [|? ? X _]. cbn in X. rewrite !N.eqb_neq. intuition congruence. Qed.
  Theorem exposure_word j : N.testbit (q_dq fo (fst (ols_pixel fo powf m p))) j =
    if N.eqb j dnu then forallb (fun w => N.testbit w j) (map (q_dq fo) (snd (ols_pixel fo powf m p)))
    else existsb (fun w => N.testbit w j) (map (q_dq fo) (snd (ols_pixel fo powf m p))).
  Proof.
    rewrite (pixel_words N1). unfold ols_pixel. rewrite (proj1 (chargeloss_dq _ fit_pixel_length)).
    unfold fit_pixel. cbn [fst q_dq]. set (mr := median_rate fo m p). set (ks := seq 0 (m_nints fo m)).
    assert (K0 : In 0 ks) by (unfold ks; apply in_seq; lia).
    set (outs := map (finish_integration fo powf m p mr) ks).
    assert (D : forallb (u_dnu fo) outs = forallb (fun w => N.testbit w dnu) (map int_word ks)).
    { unfold outs. generalize ks. intro l0. induction l0 as [|k l IH]; [reflexivity|]. cbn [map forallb]. rewrite udnu_bit, IH. reflexivity. }
    assert (Sx : forallb (u_sat fo) outs = true -> existsb (fun w => N.testbit w sat) (map int_word ks) = true).
    { intro A. rewrite forallb_forall in A. apply existsb_exists. exists (int_word 0). split; [apply in_map; assumption|].
      apply (usat_bit 0 mr). apply A. unfold outs. apply in_map. assumption. }
    assert (P : existsb (u_part fo) outs = existsb gsat ks).
    { unfold outs. generalize ks. intro l0. induction l0 as [|k l IH]; [reflexivity|]. cbn [map existsb]. rewrite IH. f_equal. unfold finish_integration.
      rewrite (part_gsat k N1). destruct (fit_integration fo powf m p mr k). reflexivity. }
    assert (J : existsb (i_jump fo) (map (prep fo m p) ks) = existsb (fun k => existsb (fun i => has (d k i) (o_jump f)) (seq 0 ng)) ks).
    { clearbody ks. clear. induction ks as [|k l IH]; [reflexivity|]. cbn [map existsb]. rewrite IH. f_equal. apply prep_rest. }
    assert (Q : existsb (i_pers fo) (map (prep fo m p) ks) = existsb (fun k => existsb (fun i => has (d k i) (o_pers f)) (seq 0 ng)) ks).
    { clearbody ks. clear. induction ks as [|k l IH]; [reflexivity|]. cbn [map existsb]. rewrite IH. f_equal. apply prep_rest. }
    rewrite D, P, J, Q. clear D P J Q.
    set (aj := existsb (fun k => existsb (fun i => has (d k i) (o_jump f)) _) ks). set (ap := existsb (fun k => existsb (fun i => has (d k i) (o_pers f)) _) ks).
    set (ad := forallb _ (map int_word ks)). set (as_ := forallb (u_sat fo) outs) in *.
    transitivity (N.testbit (pixel_dq fo m p) j || (aj && N.eqb jump j) || (ap && N.eqb pers j) || (ad && N.eqb dnu j) || (as_ && N.eqb sat j) || (existsb gsat ks && N.eqb sat j)).
    { rewrite Hf. cbn [flags_at o_dnu o_sat o_jump o_pers]. destruct ad, as_, (existsb gsat ks), aj, ap; cbn [flag_if andb]; rewrite ?N.lor_spec, ?bit_testbit, ?N.bits_0, ?orb_false_r; reflexivity. }
    destruct neqs as (E1 & E2 & E3).
    destruct (N.eqb_spec j dnu) as [->|NE].
    - rewrite E1, E2, E3, N.eqb_refl, !andb_false_r, !orb_false_r, andb_true_r. fold ad.
      destruct (N.testbit (pixel_dq fo m p) dnu) eqn:PD; [|reflexivity]. cbn [orb]. symmetry. unfold ad. apply forallb_forall.
      intros w I. apply in_map_iff in I. destruct I as (k & <- & _). rewrite word_bit, PD. reflexivity.
    - assert (E : N.eqb dnu j = false) by (apply N.eqb_neq; congruence). rewrite E, andb_false_r, orb_false_r.
      apply eq_true_iff_eq. rewrite existsb_exists. rewrite !orb_true_iff, !andb_true_iff. split.
      + intros [[[[H|[H1 H2]]|[H1 H2]]|[H1 H2]]|[H1 H2]].
        * exists (int_word 0). split; [apply in_map; assumption|]. rewrite word_bit, H. reflexivity.
        * apply existsb_exists in H1. destruct H1 as (k & I & H1). exists (int_word k). split; [apply in_map; assumption|]. rewrite word_bit, H1, H2. cbn [andb]. rewrite orb_true_r. reflexivity.
        * apply existsb_exists in H1. destruct H1 as (k & I & H1). exists (int_word k). split; [apply in_map; assumption|]. rewrite word_bit, H1, H2. cbn [andb]. rewrite orb_true_r. reflexivity.
        * apply N.eqb_eq in H2. subst j. specialize (Sx H1). apply existsb_exists in Sx. exact Sx.
        * apply existsb_exists in H1. destruct H1 as (k & I & H1). exists (int_word k). split; [apply in_map; assumption|]. rewrite word_bit, H1, H2. cbn [andb]. apply orb_true_r.
      + intros (w & I & H). apply in_map_iff in I. destruct I as (k & <- & I). rewrite word_bit, E, andb_false_r, orb_false_r, !orb_true_iff, !andb_true_iff in H.
        destruct H as [[[H|[H1 H2]]|[H1 H2]]|[H1 H2]].
        * tauto.
        * left. left. left. right. split; [|assumption]. apply existsb_exists. exists k. split; assumption.
        * left. left. right. split; [|assumption]. apply existsb_exists. exists k. split; assumption.
        * right. split; [|assumption]. apply existsb_exists. exists k. split; assumption.
  Qed.
End DQ.
