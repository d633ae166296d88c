(** C26-C29, C64-C67: the Casertano+22 ramp fit. *)
From Verif Require Import Base BaseLemmas FLaws RBase JumpProofs JumpStage Cas22Model Cas22Spec Cas22Proofs Cas22Fit.
From Coq Require Import Sorting.Sorted ZifyBool Reals Lra.
Local Open Scope nat_scope.

(** ** C26 *)
Theorem C26_runs : forall dq n, is_runs dq n (init_ramps dq n).
Proof. exact init_ramps_runs. Qed.
Print Assumptions C26_runs.
Theorem C26_maximal_runs : forall dq n s e,
  In (s, e) (init_ramps dq n) <->
  s <= e < n /\ (forall k, s <= k <= e -> dq k = 0%Z) /\ (s = 0 \/ dq (s - 1) <> 0%Z) /\ (e = n - 1 \/ dq (e + 1) <> 0%Z).
Proof.
  intros dq n s e. destruct (init_ramps_runs dq n) as [SP C]. pose proof (proj1 SP) as W. split.
  - intro I. specialize (W (s, e) I). cbn [fst snd] in W.
    assert (K : forall k, s <= k <= e -> k < n /\ dq k = 0%Z) by (intros k Hk; apply C; exists (s, e); auto).
    assert (N : forall k r', In r' (init_ramps dq n) -> fst r' <= k <= snd r' -> (k + 1 = s \/ k = e + 1) -> False).
    { intros k r' I' H' Hk. apply in_split in I. destruct I as (A & B & E). rewrite E in SP, I'. apply sep_app in SP. destruct SP as (_ & SB & G).
      apply sep_cons in SB. destruct SB as (_ & _ & GB). rewrite Forall_forall in GB. apply in_app_or in I'. destruct I' as [I'|[<-|I']].
      - specialize (G r' (s, e) I' (or_introl eq_refl)). unfold gap in G. cbn [fst snd] in *. lia.
      - cbn [fst snd] in *. lia.
      - specialize (GB r' I'). unfold gap in GB. cbn [fst snd] in *. lia. }
    split; [split; [assumption|apply (K e); lia]|]. split; [intros; apply K; assumption|]. split.
    + destruct (Nat.eq_dec s 0) as [|S0]; [auto|right]. intro Z0. destruct (proj2 (C (s - 1))) as (r' & I' & H').
      * split; [|assumption]. destruct (K s); lia.
      * apply (N (s - 1) r' I' H'). lia.
    + destruct (Nat.eq_dec e (n - 1)) as [|E0]; [auto|right]. intro Z0. destruct (K e) as [L _]; [lia|]. destruct (proj2 (C (e + 1))) as (r' & I' & H').
      * split; [lia|assumption].
      * apply (N (e + 1) r' I' H'). lia.
  - intros (H & K & Bs & Be). destruct (proj2 (C s)) as ([s' e'] & I & H'); [split; [lia|apply K; lia]|]. cbn [fst snd] in H'.
    assert (K' : forall k, s' <= k <= e' -> k < n /\ dq k = 0%Z) by (intros k Hk; apply C; exists (s', e'); auto).
    assert (s' = s). { destruct (Nat.eq_dec s' s); [assumption|]. destruct Bs as [|Bs]; [lia|]. contradict Bs. apply K'. lia. }
    assert (e' <= e).
    { destruct (Nat.le_gt_cases e' e); [assumption|]. destruct Be as [Be|Be]; [destruct (K' e') as [Q _]; lia|]. contradict Be. apply K'. lia. }
    assert (e <= e').
    { destruct (Nat.le_gt_cases e e') as [|Q]; [assumption|]. exfalso.
      destruct (proj2 (C (e' + 1))) as (r' & I' & H2); [split; [lia|apply K; lia]|].
      apply in_split in I. destruct I as (A & B & E). rewrite E in SP, I'. apply sep_app in SP. destruct SP as (_ & SB & G).
      apply sep_cons in SB. destruct SB as (_ & _ & GB). rewrite Forall_forall in GB. apply in_app_or in I'. destruct I' as [I'|[<-|I']].
      - specialize (G r' (s', e') I' (or_introl eq_refl)). unfold gap in G. cbn [fst snd] in *. lia.
      - cbn [fst snd] in *. lia.
      - specialize (GB r' I'). unfold gap in GB. cbn [fst snd] in *. lia. }
    replace e with e' by lia. subst s'. exact I.
Qed.
Print Assumptions C26_maximal_runs.
Theorem C26_time_order : forall dq n, StronglySorted (fun a b => snd a + 1 < fst b) (init_ramps dq n).
Proof. intros. apply (init_ramps_runs dq n). Qed.
Print Assumptions C26_time_order.
Example C26_example : init_ramps (fun k => nth k [0; 0; 4; 0; 1; 2; 0; 0; 0]%Z 1%Z) 9 = [(0, 1); (3, 3); (6, 8)].
Proof. reflexivity. Qed.

(** ** C27 *)
Lemma fit_statistic_idx (fo : FOps) (t tau : nat -> fo) nr b slope r : fst r < snd r -> fst (fit_statistic fo t tau nr b slope r) < snd r - fst r.
Proof.
  intro H. unfold fit_statistic. destruct (Nat.eqb_spec (fst r) (snd r)); [lia|]. cbv zeta.
  match goal with |- fst (fold_left ?f ?l ?x) < _ => assert (G : forall l' st, (forall k, In k l' -> k < snd r - fst r) -> fst st < snd r - fst r -> fst (fold_left f l' st) < snd r - fst r) end.
  { induction l' as [|k l' IH]; intros st Hl Hst; [exact Hst|]. cbn [fold_left]. apply IH; [intros; apply Hl; right; assumption|].
    destruct (flt fo _ _); [apply Hl; left; reflexivity|exact Hst]. }
  apply G; [intros k I; apply in_seq in I; lia|cbn [fst]; lia].
Qed.
Lemma detect_in_range (fo : FOps) : FLaws fo -> fisnan fo (fnan fo) = true -> forall lg t tau nr u ic cc b r f k,
  fst r <= snd r -> detect fo lg t tau nr u ic cc b r f = Some k -> k < snd r - fst r.
Proof.
  intros L HN lg t tau nr u ic cc b r f k H D. unfold detect in D. destruct u; [|discriminate].
  destruct (Nat.eq_dec (fst r) (snd r)) as [E|E].
  - unfold fit_statistic in D. rewrite E, Nat.eqb_refl in D. rewrite (lt_nan_r fo L) in D by exact HN. discriminate.
  - pose proof (fit_statistic_idx fo t tau nr b (f_slope f) r ltac:(lia)) as Q. destruct (fit_statistic _ _ _ _ _ _ _) as [k' st]. destruct (flt fo _ _); [|discriminate].
    injection D as <-. exact Q.
Qed.

(** the detection buffer: what a pixel writes, and that a ramp reads nothing else *)
Lemma fill_pixel_spec (fo : FOps) (y t tau : nat -> fo) nr rn n b d i : (d = 1 \/ d = 2) -> i + d < n ->
  fill_pixel fo y t tau nr rn n b d i = pixel_at fo y t tau nr rn d i.
Proof.
  intros D H. unfold fill_pixel. destruct (Nat.ltb_spec i (n - 1)); [|lia]. destruct D as [-> | ->]; cbn [Nat.eqb]; [reflexivity|].
  destruct (Nat.ltb_spec i (n - 2)); [reflexivity|lia].
Qed.
Definition same_on (fo : FOps) (r : ramp) (b1 b2 : buffer fo) : Prop := forall d i, (d = 1 \/ d = 2) -> fst r <= i -> i + d <= snd r -> b1 d i = b2 d i.
Lemma statistic_buf (fo : FOps) (t tau : nat -> fo) nr b1 b2 d i slope c : b1 d i = b2 d i ->
  statistic fo t tau nr b1 d i slope c = statistic fo t tau nr b2 d i slope c.
Proof. intro H. unfold statistic. rewrite H. reflexivity. Qed.
Lemma detect_buf (fo : FOps) lg t tau nr u ic cc b1 b2 r f : fst r <= snd r -> same_on fo r b1 b2 ->
  detect fo lg t tau nr u ic cc b1 r f = detect fo lg t tau nr u ic cc b2 r f.
Proof.
  intros H B. unfold detect. destruct u; [|reflexivity].
  assert (E : fit_statistic fo t tau nr b1 (f_slope f) r = fit_statistic fo t tau nr b2 (f_slope f) r); [|rewrite E; reflexivity].
  unfold fit_statistic. destruct (Nat.eqb_spec (fst r) (snd r)); [reflexivity|]. cbv zeta.
  rewrite (statistic_buf fo t tau nr b1 b2 1 (snd r - 1)) by (apply B; [auto|lia|lia]).
  apply fold_left_ext_in. intros st k I. apply in_seq in I.
  rewrite (statistic_buf fo t tau nr b1 b2 1 (fst r + k)) by (apply B; [auto|lia|lia]).
  rewrite (statistic_buf fo t tau nr b1 b2 2 (fst r + k)) by (apply B; [auto|lia|lia]). reflexivity.
Qed.

(** The loop stops (the model's iteration bound is never hit) and accounts for every resultant. *)
Theorem C27_accounts : forall fo, FLaws fo -> fisnan fo (fnan fo) = true -> forall pow lg use_jump ic cc t tau nr n y dq rn b,
  exists out b', fit_jumps fo pow lg use_jump ic cc t tau nr n y dq rn b = Some (out, b') /\
  (* every good resultant ends in exactly one final ramp, unflagged, or is flagged as a jump *)
  (forall k, k < n -> dq k = 0%Z ->
     (p_dq fo out k = 0%Z /\ ~ In k (p_jumps fo out) /\ exists! r, In r (map fst (p_fits fo out)) /\ fst r <= k <= snd r) \/
     (p_dq fo out k = JUMP_DET /\ In k (p_jumps fo out) /\ forall r, In r (map fst (p_fits fo out)) -> ~ fst r <= k <= snd r)) /\
  (* other flags are left alone and such resultants are in no ramp *)
  (forall k, n <= k \/ dq k <> 0%Z -> p_dq fo out k = dq k /\ ~ In k (p_jumps fo out) /\ forall r, In r (map fst (p_fits fo out)) -> ~ fst r <= k <= snd r) /\
  (* jumps come in pairs of neighbouring resultants, none twice *)
  NoDup (p_jumps fo out) /\ (exists js, p_jumps fo out = flat_map (fun j => [j; j + 1]) js) /\
  (* the recorded ramps are the maximal runs of the returned DQ, latest first *)
  map fst (p_fits fo out) = rev (init_ramps (p_dq fo out) n) /\
  (* each with its own fit, in which no further jump is seen *)
  (forall r f, In (r, f) (p_fits fo out) -> f = fit_ramp fo pow y t tau nr rn r /\ detect fo lg t tau nr use_jump ic cc b' r f = None) /\
  (* the reported numbers are the combination of these fits *)
  p_avg fo out = average fo (map snd (p_fits fo out)).
Proof.
  intros fo L HN pow lg use_jump ic cc t tau nr n y dq rn b. unfold fit_jumps. set (b' := if use_jump then _ else b).
  destruct (split_total (rfit fo) (fit_ramp fo pow y t tau nr rn) (detect fo lg t tau nr use_jump ic cc b')
     (detect_in_range fo L HN lg t tau nr use_jump ic cc b') n dq n (le_n n)) as (w & E & I & ST).
  rewrite E. cbn [bind]. eexists. exists b'. split; [reflexivity|]. cbn [p_dq p_fits p_jumps p_avg].
  pose proof (final_ramps _ _ _ _ _ w I ST) as FR. destruct I as [R Fi J ND IN DQ].
  rewrite ST in R. cbn [rev app] in R. destruct R as [SP C].
  assert (CV : forall k, covered (rev (map fst (w_fits w))) k <-> exists r, In r (map fst (w_fits w)) /\ fst r <= k <= snd r).
  { intro k. unfold covered. setoid_rewrite <- in_rev. reflexivity. }
  assert (JN : forall k, w_dq w k = 0%Z -> ~ In k (w_jumps w)).
  { intros k Z0 H. rewrite DQ in Z0. apply existsb_in in H. rewrite H in Z0. discriminate. }
  split; [|split; [|split; [exact ND|split; [exact J|split; [exact FR|split; [exact Fi|reflexivity]]]]]].
  - intros k Hk Z0. pose proof (DQ k) as D. destruct (existsb (Nat.eqb k) (w_jumps w)) eqn:EX.
    + right. split; [exact D|]. split; [apply existsb_in; exact EX|]. intros r Ir Hr.
      assert (Q : covered (rev (map fst (w_fits w))) k) by (apply CV; eauto). apply C in Q. destruct Q as [_ Q]. rewrite D in Q. discriminate.
    + left. rewrite Z0 in D. split; [exact D|]. split; [apply JN; exact D|].
      destruct (proj2 (C k) (conj Hk D)) as (r & Ir & Hr). exists r. split; [split; [apply in_rev; exact Ir|exact Hr]|].
      intros r' [Ir' Hr']. apply -> in_rev in Ir'.
      apply in_split in Ir. destruct Ir as (A & B & E'). rewrite E' in SP, Ir'. apply sep_app in SP. destruct SP as (_ & SB & G).
      apply sep_cons in SB. destruct SB as (_ & _ & GB). rewrite Forall_forall in GB. apply in_app_or in Ir'. destruct Ir' as [Ir'|[Ir'|Ir']].
      * specialize (G r' r Ir' (or_introl eq_refl)). unfold gap in G. clear -G Hr Hr'. lia.
      * exact Ir'.
      * specialize (GB r' Ir'). unfold gap in GB. clear -GB Hr Hr'. lia.
  - intros k Hk. assert (NI : ~ In k (w_jumps w)) by (intro Q; apply IN in Q; clear -Q Hk; destruct Q; lia || tauto || (destruct Hk; [lia|contradiction])).
    assert (EX : existsb (Nat.eqb k) (w_jumps w) = false) by (destruct (existsb _ _) eqn:Q; [apply existsb_in in Q; contradiction|reflexivity]).
    assert (D : w_dq w k = dq k) by (rewrite DQ, EX; reflexivity). split; [exact D|]. split; [exact NI|]. intros r Ir Hr.
    assert (Q : covered (rev (map fst (w_fits w))) k) by (apply CV; eauto). apply C in Q. destruct Q as [Q1 Q2]. rewrite D in Q2. destruct Hk; [lia|contradiction].
Qed.
Print Assumptions C27_accounts.
(** Without jump detection nothing is flagged. *)
Theorem C27_no_detection : forall fo pow lg ic cc t tau nr n y dq rn b,
  exists out, fit_jumps fo pow lg false ic cc t tau nr n y dq rn b = Some (out, b) /\ p_dq fo out = dq /\ p_jumps fo out = [] /\
  p_fits fo out = map (fun r => (r, fit_ramp fo pow y t tau nr rn r)) (rev (init_ramps dq n)).
Proof.
  intros. unfold fit_jumps. destruct (split_record (rfit fo) (fit_ramp fo pow y t tau nr rn) (detect fo lg t tau nr false ic cc b) dq n) as (w & E & H1 & H2 & H3).
  - reflexivity.
  - rewrite E. cbn [bind]. eexists. split; [reflexivity|]. cbn [p_dq p_fits p_jumps]. auto.
Qed.
Print Assumptions C27_no_detection.

(** ** C64: the returned DQ explains the result *)
(** Fitting again with the returned DQ gives the same numbers, whether jump detection is switched on or
    off, bit for bit in any arithmetic. *)
Theorem C64_refit : forall fo, FLaws fo -> fisnan fo (fnan fo) = true -> forall pow lg use_jump again ic cc t tau nr n y dq rn b out b',
  fit_jumps fo pow lg use_jump ic cc t tau nr n y dq rn b = Some (out, b') -> (again = true -> use_jump = true) ->
  exists out2 b2, fit_jumps fo pow lg again ic cc t tau nr n y (p_dq fo out) rn b' = Some (out2, b2) /\
  p_avg fo out2 = p_avg fo out /\ p_fits fo out2 = p_fits fo out /\ p_dq fo out2 = p_dq fo out /\ p_jumps fo out2 = [].
Proof.
  intros fo L HN pow lg use_jump again ic cc t tau nr n y dq rn b out b' H HA.
  destruct (C27_accounts fo L HN pow lg use_jump ic cc t tau nr n y dq rn b) as (o & bb & E & _ & _ & _ & _ & FR & Fi & AV). rewrite H in E. injection E as <- <-.
  unfold fit_jumps in H |- *. set (b1 := if use_jump then _ else b) in H. destruct (split_ramps _ _ _ _ dq n) as [w0|]; [|discriminate]. cbn [bind] in H.
  assert (EB : b' = b1) by congruence. clear H.
  set (b2 := if again then _ else b').
  assert (D : forall r, In r (init_ramps (p_dq fo out) n) -> detect fo lg t tau nr again ic cc b2 r (fit_ramp fo pow y t tau nr rn r) = None).
  { intros r I. destruct again; [|reflexivity]. rewrite (HA eq_refl) in *.
    destruct (init_ramps_runs (p_dq fo out) n) as [[SP _] C].
    assert (Q1 : fst r <= snd r) by (apply SP; exact I).
    assert (Q2 : snd r < n) by (apply (C (snd r)); exists r; auto).
    rewrite (detect_buf fo lg t tau nr true ic cc b2 b'); [|exact Q1|].
    2:{ intros d i Hd H1 H2. subst b2 b'. unfold b1. rewrite (HA eq_refl), !fill_pixel_spec by (assumption || lia). reflexivity. }
    apply in_rev in I. rewrite <- FR in I. apply in_map_iff in I. destruct I as ((r0 & f) & <- & I). cbn [fst]. destruct (Fi r0 f I) as [-> Q]. exact Q. }
  destruct (split_record (rfit fo) (fit_ramp fo pow y t tau nr rn) (detect fo lg t tau nr again ic cc b2) (p_dq fo out) n D) as (w & E & H1 & H2 & H3).
  rewrite E. cbn [bind]. eexists. exists b2. split; [reflexivity|]. cbn [p_dq p_fits p_jumps p_avg].
  assert (EF : w_fits w = p_fits fo out).
  { rewrite H2, <- FR, map_map. rewrite <- (map_id (p_fits fo out)) at 2. apply map_ext_in. intros [r f] I. cbn [fst]. f_equal. symmetry. apply (Fi r f I). }
  rewrite EF, H1, H3. auto.
Qed.
Print Assumptions C64_refit.

(** ** C65: pixels are independent *)
Lemma loop_ext (fo : FOps) (A : Type) (fit : ramp -> A) d1 d2 n fuel : forall w,
  (forall r f k, fst r <= snd r -> d1 r f = Some k -> k < snd r - fst r) ->
  (forall r f, fst r <= snd r -> snd r < n -> d1 r f = d2 r f) -> (forall r, In r (w_stack w) -> fst r <= snd r /\ snd r < n) ->
  loop A fit d1 fuel w = loop A fit d2 fuel w.
Proof.
  induction fuel as [|fuel IH]; intros w R D H; cbn [loop]; destruct (w_stack w) as [|r rest] eqn:E; try reflexivity.
  assert (Hr : fst r <= snd r /\ snd r < n) by (apply H; left; reflexivity).
  assert (EB : body A fit d1 r rest w = body A fit d2 r rest w) by (unfold body; rewrite D by apply Hr; reflexivity).
  rewrite EB. apply IH; [assumption|assumption|]. rewrite <- EB. intros x I. unfold body in I. destruct (d1 r (fit r)) as [k|] eqn:K; cbn [w_stack] in I.
  - pose proof (R _ _ _ (proj1 Hr) K). destruct (Nat.ltb_spec (fst r) (k + fst r)), (Nat.ltb_spec (k + fst r + 1) (snd r)); cbn [In] in I;
      repeat (destruct I as [<-|I]; [cbn [fst snd]; lia|]); apply H; right; exact I.
  - apply H. right. exact I.
Qed.
(** what fit_jumps returns for a pixel does not depend on what the shared buffer contained *)
Theorem C65_buffer_irrelevant : forall fo, FLaws fo -> fisnan fo (fnan fo) = true -> forall pow lg use_jump ic cc t tau nr n y dq rn b1 b2,
  option_map fst (fit_jumps fo pow lg use_jump ic cc t tau nr n y dq rn b1) = option_map fst (fit_jumps fo pow lg use_jump ic cc t tau nr n y dq rn b2).
Proof.
  intros fo L HN pow lg use_jump ic cc t tau nr n y dq rn b1 b2. unfold fit_jumps. cbv zeta.
  destruct use_jump.
  - set (B1 := fill_pixel _ _ _ _ _ _ _ b1). set (B2 := fill_pixel _ _ _ _ _ _ _ b2).
    assert (E : split_ramps (rfit fo) (fit_ramp fo pow y t tau nr rn) (detect fo lg t tau nr true ic cc B1) n dq n
              = split_ramps (rfit fo) (fit_ramp fo pow y t tau nr rn) (detect fo lg t tau nr true ic cc B2) n dq n).
    { unfold split_ramps. apply (loop_ext fo _ _ _ _ n).
      - apply detect_in_range; assumption.
      - intros r f H1 H2. apply detect_buf; [assumption|]. intros d i Hd H3 H4. unfold B1, B2. rewrite !fill_pixel_spec by (assumption || lia). reflexivity.
      - cbn [w_stack]. intros r I. apply in_rev in I. destruct (init_ramps_runs dq n) as [[SP _] C]. split; [apply SP; exact I|]. apply (C (snd r)). exists r. specialize (SP r I). auto. }
    rewrite E. clear E. match goal with |- context [split_ramps ?a ?b ?c ?d ?e ?f] => destruct (split_ramps a b c d e f) as [w|] end; reflexivity.
  - destruct (split_ramps _ _ (detect fo lg t tau nr false ic cc b1) _ _ _) eqn:E1, (split_ramps _ _ (detect fo lg t tau nr false ic cc b2) _ _ _) eqn:E2;
      change (detect fo lg t tau nr false ic cc b1) with (detect fo lg t tau nr false ic cc b2) in E1; rewrite E1 in E2; try discriminate; [injection E2 as <-|]; reflexivity.
Qed.
Print Assumptions C65_buffer_irrelevant.
(** The output for pixel [p] of an image is the output of that pixel fitted alone. *)
Theorem C65_pixels_independent : forall fo, FLaws fo -> fisnan fo (fnan fo) = true ->
  forall pow lg use_jump ic cc read_time pattern n np y dq rn b0,
  n = length pattern -> (use_jump = true -> n <> 0) ->
  let alone := fun p b => fit_jumps fo pow lg use_jump ic cc (fun i => t_bar_of fo read_time (nth i pattern [])) (fun i => tau_of fo read_time (nth i pattern []))
      (fun i => length (nth i pattern [])) n (fun i => y i p) (fun i => dq i p) (rn p) b in
  exists outs, fit_ramps fo pow lg use_jump ic cc read_time pattern n np y dq rn b0 = Some outs /\ length outs = np /\
  forall p b, p < np -> exists out b', alone p b = Some (out, b') /\
     nth_error outs p = Some (p_avg fo out, fadd fo (f_read (p_avg fo out)) (f_poisson (p_avg fo out)), p_dq fo out).
Proof.
  intros fo L HN pow lg use_jump ic cc read_time pattern n np y dq rn b0 HL HU. cbv zeta. unfold fit_ramps.
  replace (negb (Nat.eqb n (length pattern)) || use_jump && Nat.eqb n 0) with false.
  2:{ subst n. rewrite Nat.eqb_refl. cbn [negb orb]. destruct use_jump; [|reflexivity]. cbn [andb]. symmetry. apply Nat.eqb_neq. auto. }
  cbv zeta. set (alone := fun p b => fit_jumps fo pow lg use_jump ic cc (fun i => t_bar_of fo read_time (nth i pattern [])) (fun i => tau_of fo read_time (nth i pattern []))
      (fun i => length (nth i pattern [])) n (fun i => y i p) (fun i => dq i p) (rn p) b).
  match goal with |- context [foldM ?f (seq 0 np) _] => set (step := f) end.
  assert (G : forall m, exists outs b1, foldM step (seq 0 m) ([], b0) = Some (outs, b1) /\ length outs = m /\
     forall p b, p < m -> exists out b', alone p b = Some (out, b') /\
     nth_error outs p = Some (p_avg fo out, fadd fo (f_read (p_avg fo out)) (f_poisson (p_avg fo out)), p_dq fo out)).
  { induction m as [|m (outs & b1 & E & LEN & IH)]; [exists [], b0; split; [reflexivity|split; [reflexivity|lia]]|].
    rewrite seq_S, foldM_app, E. cbn [bind foldM Nat.add].
    destruct (C27_accounts fo L HN pow lg use_jump ic cc (fun i => t_bar_of fo read_time (nth i pattern [])) (fun i => tau_of fo read_time (nth i pattern []))
      (fun i => length (nth i pattern [])) n (fun i => y i m) (fun i => dq i m) (rn m) b1) as (o & b2 & EO & _).
    change (alone m b1 = Some (o, b2)) in EO. unfold step at 1. fold (alone m b1). rewrite EO. cbn [bind].
    eexists. exists b2. split; [reflexivity|]. split; [rewrite app_length; cbn; lia|]. intros p b Hp. destruct (Nat.eq_dec p m) as [->|NE].
    - pose proof (C65_buffer_irrelevant fo L HN pow lg use_jump ic cc (fun i => t_bar_of fo read_time (nth i pattern [])) (fun i => tau_of fo read_time (nth i pattern []))
      (fun i => length (nth i pattern [])) n (fun i => y i m) (fun i => dq i m) (rn m) b b1) as Q. change (option_map fst (alone m b) = option_map fst (alone m b1)) in Q.
      rewrite EO in Q. destruct (alone m b) as [[o' b']|]; [|discriminate]. cbn in Q. injection Q as ->. exists o, b'. split; [reflexivity|].
      rewrite nth_error_app2 by lia. replace (m - length outs) with 0 by lia. reflexivity.
    - destruct (IH p b) as (o' & b' & A1 & A2); [lia|]. exists o', b'. split; [exact A1|]. rewrite nth_error_app1 by lia. exact A2. }
  destruct (G np) as (outs & b1 & E & LEN & H). rewrite E. cbn [bind fst]. exists outs. auto.
Qed.
Print Assumptions C65_pixels_independent.
Theorem C65_wrong_length : forall fo pow lg use_jump ic cc read_time pattern n np y dq rn b0,
  n <> length pattern -> fit_ramps fo pow lg use_jump ic cc read_time pattern n np y dq rn b0 = None.
Proof. intros. unfold fit_ramps. apply Nat.eqb_neq in H. rewrite H. reflexivity. Qed.
Print Assumptions C65_wrong_length.

(** ** C28: the weighted fit *)
Local Open Scope R_scope.
(** The fit of a ramp of two or more resultants with distinct first and last mean times is a linear
    estimator [sum c_i y_i] with [sum c_i = 0] and [sum c_i t_i = 1]; the reported variances are those of
    this estimator for independent read noise and for Poisson counts with covariance [cov]. *)
Theorem C28_estimator : forall pow, pow_ok pow -> forall y t tau nr rn r,
  (fst r < snd r)%nat -> t (fst r) <> t (snd r) -> (forall i, (fst r <= i <= snd r)%nat -> (1 <= nr i)%nat) ->
  let l := members r in let f := fit_ramp RF pow y t tau nr rn r in
  exists c : nat -> R,
    Rsum (map c l) = 0 /\ Rsum (map (fun i => c i * t i) l) = 1 /\
    f_slope f = Rsum (map (fun i => c i * y i) l) /\
    f_read f = Rsum (map (fun i => c i * c i * (rn * rn / INR (nr i))) l) /\
    f_poisson f = Rsum (map (fun i => Rsum (map (fun j => c i * c j * (if Nat.eqb i j then tau i else t (Nat.min i j))) l)) l).
Proof.
  intros pow HP y t tau nr rn r H T K. cbv zeta. destruct (fit_ramp_good pow y t tau nr rn HP r H T K) as (E & C0 & C1). rewrite E.
  exists (co pow y t nr rn r). split; [exact C0|]. split; [exact C1|]. split; [reflexivity|]. split; [|reflexivity].
  cbn [fitR f_read]. apply Rsum_ext. intros. unfold Rdiv. ring.
Qed.
Print Assumptions C28_estimator.
Theorem C28_linear_ramp : forall pow, pow_ok pow -> forall y t tau nr rn r a b,
  (fst r < snd r)%nat -> t (fst r) <> t (snd r) -> (forall i, (fst r <= i <= snd r)%nat -> (1 <= nr i)%nat) ->
  (forall i, (fst r <= i <= snd r)%nat -> y i = a + b * t i) ->
  f_slope (fit_ramp RF pow y t tau nr rn r) = b.
Proof.
  intros pow HP y t tau nr rn r a b H T K Y. destruct (C28_estimator pow HP y t tau nr rn r H T K) as (c & C0 & C1 & E & _). rewrite E.
  rewrite (Rsum_ext _ (fun i => a * c i + b * (c i * t i))).
  2:{ intros i I. apply members_in in I. rewrite (Y i) by lia. ring. }
  rewrite Rsum_plus, !Rsum_scal, C0, C1. change (F RF) with R. ring.
Qed.
Print Assumptions C28_linear_ramp.
(** Adding a constant to all resultants changes nothing. *)
Theorem C28_shift : forall pow y t tau nr rn r k,
  fit_ramp RF pow (fun i => y i + k) t tau nr rn r = fit_ramp RF pow y t tau nr rn r.
Proof.
  intros pow y t tau nr rn r k. destruct (Nat.le_gt_cases (snd r) (fst r)) as [H|H].
  - unfold fit_ramp. destruct (Nat.leb_spec (snd r + 1 - fst r) 1); [reflexivity|lia].
  - rewrite !fit_ramp_R by assumption.
    assert (PW : ramp_power RF (fun i => y i + k) rn r = ramp_power RF y rn r).
    { unfold ramp_power. cbv zeta. cbn [fsub RF]. replace (y (snd r) + k - (y (fst r) + k)) with (y (snd r) - y (fst r)) by ring. reflexivity. }
    assert (WT : wt pow (fun i => y i + k) t nr rn r = wt pow y t nr rn r).
    { unfold wt, weight_at. cbv zeta. rewrite PW. reflexivity. }
    assert (CO : co pow (fun i => y i + k) t nr rn r = co pow y t nr rn r) by (unfold co; rewrite WT; reflexivity).
    assert (D : det pow (fun i => y i + k) t nr rn r = det pow y t nr rn r) by (unfold det; rewrite WT; reflexivity).
    rewrite D. destruct (Reqb (det pow y t nr rn r) 0); [reflexivity|]. unfold fitR. f_equal.
    + rewrite (Rsum_ext _ (fun i => co pow y t nr rn r i * y i + k * co pow y t nr rn r i)) by (intros; rewrite CO; ring).
      rewrite Rsum_plus, Rsum_scal. unfold co at 2. rewrite cf_sum0. change (F RF) with R. ring.
    + apply Rsum_ext. intros. rewrite CO. reflexivity.
    + unfold quad. apply Rsum_ext. intros i _. apply Rsum_ext. intros j _. rewrite !CO. reflexivity.
Qed.
Print Assumptions C28_shift.

(** ** C66: combining the ramps of a pixel *)
(** With non-negative read variances, not all zero, the combined rate is the inverse-read-variance weighted
    mean, lies between the extreme rates, and its read variance is the harmonic sum, no larger than that
    of any ramp. *)
Theorem C66_combination : forall fits : list (rfit RF),
  (forall f, In f fits -> 0 <= f_read f) -> (exists f, In f fits /\ 0 < f_read f) ->
  let used := filter (fun f : rfit RF => Rltb 0 (f_read f)) fits in
  let W := Rsum (map (fun f : rfit RF => / f_read f) used) in
  let out := average RF fits in
  0 < W /\ f_slope out = Rsum (map (fun f : rfit RF => / f_read f * f_slope f) used) / W /\
  f_read out = / W /\ f_poisson out = Rsum (map (fun f : rfit RF => / f_read f * / f_read f * f_poisson f) used) / (W * W) * Rmax (f_slope out) 0 /\
  (forall lo hi, (forall f, In f used -> lo <= f_slope f <= hi) -> lo <= f_slope out <= hi) /\
  (forall f, In f used -> f_read out <= f_read f).
Proof.
  intros fits NN (f1 & I1 & P1). cbv zeta. set (used := filter _ fits).
  set (w := fun f : rfit RF => if Reqb (f_read f) 0 then 0 else / f_read f).
  assert (U : forall f, In f used <-> In f fits /\ 0 < f_read f) by (intro f; unfold used; rewrite filter_In, Rltb_spec; reflexivity).
  assert (E : forall h : rfit RF -> R, Rsum (map (fun f => w f * h f) fits) = Rsum (map (fun f : rfit RF => / f_read f * h f) used)).
  { intro h. unfold used. clear U used I1 P1. revert NN. induction fits as [|f l IH]; intro NN; [reflexivity|]. cbn [map filter]. rewrite Rsum_cons, IH by (intros; apply NN; right; assumption).
    pose proof (NN f (or_introl eq_refl)) as N0. unfold w at 1. destruct (Reqb (f_read f) 0) eqn:EQ.
    - apply Reqb_spec in EQ. destruct (Rltb 0 (f_read f)) eqn:L; [apply Rltb_spec in L; lra|]. lra.
    - destruct (Rltb 0 (f_read f)) eqn:L; [cbn [map]; rewrite Rsum_cons; reflexivity|].
      exfalso. assert (~ 0 < f_read f) by (rewrite <- Rltb_spec; congruence). assert (f_read f <> 0) by (rewrite <- Reqb_spec; congruence). lra. }
  assert (E1 : Rsum (map w fits) = Rsum (map (fun f : rfit RF => / f_read f) used)).
  { rewrite (Rsum_ext w (fun f => w f * 1)) by (intros; ring). rewrite E. apply Rsum_ext. intros; ring. }
  set (W := Rsum (map (fun f : rfit RF => / f_read f) used)) in *.
  assert (IP : forall f, In f used -> 0 < / f_read f) by (intros f I; apply U in I; apply Rinv_0_lt_compat, I).
  assert (WP : 0 < W). { unfold W. apply (Rsum_pos _ used f1); [intros f I; left; apply IP, I|apply U; auto|apply IP, U; auto]. }
  pose proof (average_R fits) as A. cbv zeta in A. fold w in A. rewrite E1 in A. replace (Reqb W 0) with false in A.
  2:{ symmetry. destruct (Reqb W 0) eqn:Q; [apply Reqb_spec in Q; lra|reflexivity]. }
  rewrite (E (fun f => f_slope f)) in A.
  assert (ER : Rsum (map (fun f => w f * w f * f_read f) fits) = W).
  { rewrite (Rsum_ext _ (fun f => w f * (w f * f_read f))) by (intros; ring). rewrite (E (fun f => w f * f_read f)). unfold W. apply Rsum_ext.
    intros f I. apply U in I. unfold w. destruct (Reqb (f_read f) 0) eqn:Q; [apply Reqb_spec in Q; lra|]. field. lra. }
  assert (EP : Rsum (map (fun f => w f * w f * f_poisson f) fits) = Rsum (map (fun f : rfit RF => / f_read f * / f_read f * f_poisson f) used)).
  { rewrite (Rsum_ext _ (fun f => w f * (w f * f_poisson f))) by (intros; ring). rewrite (E (fun f => w f * f_poisson f)). apply Rsum_ext.
    intros f I. apply U in I. unfold w. destruct (Reqb (f_read f) 0) eqn:Q; [apply Reqb_spec in Q; lra|]. ring. }
  rewrite ER, EP in A. rewrite A. cbn [f_slope f_read f_poisson]. change (F RF) with R in *.
  split; [exact WP|]. split; [reflexivity|]. split; [field; lra|]. split; [reflexivity|]. split.
  - intros lo hi B. assert (Q1 : lo * W <= Rsum (map (fun f : rfit RF => / f_read f * f_slope f) used)).
    { unfold W. rewrite <- Rsum_scal. apply Rsum_le. intros f I. pose proof (B f I). pose proof (IP f I). change (F RF) with R in *. nra. }
    assert (Q2 : Rsum (map (fun f : rfit RF => / f_read f * f_slope f) used) <= hi * W).
    { unfold W. rewrite <- Rsum_scal. apply Rsum_le. intros f I. pose proof (B f I). pose proof (IP f I). change (F RF) with R in *. nra. }
    set (X := Rsum _) in *. split.
    + apply (Rmult_le_reg_r W); [exact WP|]. unfold Rdiv. rewrite Rmult_assoc, Rinv_l by lra. lra.
    + apply (Rmult_le_reg_r W); [exact WP|]. unfold Rdiv. rewrite Rmult_assoc, Rinv_l by lra. lra.
  - intros f I. pose proof (Rsum_ge_member (fun f : rfit RF => / f_read f) used f ltac:(intros x Ix; left; apply IP, Ix) I) as Q. fold W in Q. cbn beta in Q.
    replace (W / (W * W)) with (/ W) by (field; lra). apply U in I. destruct I as [_ I]. change (F RF) with R in *.
    rewrite <- (Rinv_inv (f_read f)). apply Rinv_le_contravar; [apply Rinv_0_lt_compat, I|exact Q].
Qed.
Print Assumptions C66_combination.

(** ** C28, one pixel *)
Lemma ramps_two dq n i : (i + 1 < n)%nat -> dq i = 0%Z -> dq (i + 1)%nat = 0%Z -> exists r, In r (init_ramps dq n) /\ (fst r < snd r)%nat.
Proof.
  intros H A B. destruct (init_ramps_runs dq n) as [[W SS] C]. assert (C1 : covered (init_ramps dq n) i) by (apply C; split; [lia|assumption]). assert (C2 : covered (init_ramps dq n) (i + 1)) by (apply C; split; [lia|assumption]). destruct C1 as (r & I & K).
  exists r. split; [exact I|]. destruct C2 as (r' & I' & K').
  destruct (Nat.le_gt_cases (i + 1) (snd r)); [lia|]. exfalso.
  destruct (In_nth _ _ (0, 0)%nat I) as (p & P & E). destruct (In_nth _ _ (0, 0)%nat I') as (q & Q & E').
  assert (forall a b, (a < b < length (init_ramps dq n))%nat -> (snd (nth a (init_ramps dq n) (0, 0)) + 1 < fst (nth b (init_ramps dq n) (0, 0)))%nat) as SN.
  { clear - SS. revert SS. generalize (init_ramps dq n) as l. induction l as [|x l IH]; intros SS a b Hab; [cbn in Hab; lia|]. inversion SS as [|? ? S1 S2]; subst.
    destruct b; [lia|]. destruct a; cbn [nth length] in *; [|apply IH; [assumption|lia]]. rewrite Forall_forall in S2. apply S2, nth_In. lia. }
  pose proof (W r I). pose proof (W r' I'). destruct (lt_eq_lt_dec p q) as [[L|L]|L].
  - specialize (SN p q ltac:(lia)). rewrite E, E' in SN. lia.
  - subst q. rewrite E in E'. subst r'. lia.
  - specialize (SN q p ltac:(lia)). rewrite E, E' in SN. lia.
Qed.
Lemma fold_const {A B} (g : A -> B -> A) (P : A -> Prop) l : forall x, P x -> (forall x k, In k l -> P x -> P (g x k)) -> P (fold_left g l x).
Proof. induction l as [|k l IH]; intros x H G; [exact H|]. cbn [fold_left]. apply IH; [apply G; [left; reflexivity|exact H]|intros; apply G; [right; assumption|assumption]]. Qed.
(** A pixel whose good resultants lie on the line [a + b t], with at least two adjacent good resultants,
    distinct mean times and non-zero read noise, gets the rate [b]; jump detection with thresholds that are
    non-negative on the clipped rate range flags nothing. *)
Theorem C28_linear_pixel : forall pow lg, pow_ok pow -> forall use_jump ic cc t tau nr n y dq rn buf a b,
  (forall i, (i < n)%nat -> dq i = 0%Z -> y i = a + b * t i) ->
  (forall i j, (i < j < n)%nat -> t i <> t j) -> (forall i, (i < n)%nat -> (1 <= nr i)%nat) -> rn <> 0 ->
  (exists i, (i + 1 < n)%nat /\ dq i = 0%Z /\ dq (i + 1)%nat = 0%Z) ->
  (use_jump = true -> forall x, 1 <= x <= 10000 -> 0 <= ic - cc * lg x) ->
  exists out buf', fit_jumps RF pow lg use_jump ic cc t tau nr n y dq rn buf = Some (out, buf') /\
    f_slope (p_avg RF out) = b /\ 0 < f_read (p_avg RF out) /\ p_dq RF out = dq /\ p_jumps RF out = [].
Proof.
  intros pow lg HP use_jump ic cc t tau nr n y dq rn buf a b Y T K RN (i0 & G0 & G1 & G2) TH.
  destruct (init_ramps_runs dq n) as [[W SS] C].
  assert (RNG : forall r, In r (init_ramps dq n) -> (fst r <= snd r < n)%nat /\ forall k, (fst r <= k <= snd r)%nat -> y k = a + b * t k).
  { intros r I. assert (Q : forall k, (fst r <= k <= snd r)%nat -> (k < n)%nat /\ dq k = 0%Z) by (intros k Hk; apply C; exists r; auto).
    pose proof (W r I). split; [destruct (Q (snd r)); lia|]. intros k Hk. destruct (Q k Hk). apply Y; assumption. }
  assert (FIT : forall r, In r (init_ramps dq n) -> (fst r < snd r)%nat -> let f := fit_ramp RF pow y t tau nr rn r in f_slope f = b /\ 0 < f_read f).
  { intros r I L f. destruct (RNG r I) as [Q1 Q2]. assert (Q3 : t (fst r) <> t (snd r)) by (apply T; lia). assert (Q4 : forall i, (fst r <= i <= snd r)%nat -> (1 <= nr i)%nat) by (intros; apply K; lia).
    split; [apply (C28_linear_ramp pow HP y t tau nr rn r a b L Q3 Q4 Q2)|].
    unfold f. rewrite (proj1 (fit_ramp_good pow y t tau nr rn HP r L Q3 Q4)). apply read_pos; assumption. }
  assert (SING : forall r, (snd r <= fst r)%nat -> fit_ramp RF pow y t tau nr rn r = zfit RF).
  { intros r L. unfold fit_ramp. destruct (Nat.leb_spec (snd r + 1 - fst r) 1); [reflexivity|lia]. }
  set (B := if use_jump then fill_pixel RF y t tau nr rn n buf else buf).
  destruct (split_record (rfit RF) (fit_ramp RF pow y t tau nr rn) (detect RF lg t tau nr use_jump ic cc B) dq n) as (w & E & H1 & H2 & H3).
  - intros r I. unfold detect. destruct use_jump; [|reflexivity]. specialize (TH eq_refl).
    assert (T0 : forall s : R, 0 <= threshold RF lg ic cc s).
    { intro s. unfold threshold. change (flt RF) with Rltb. cbn [fone fsub fmul RF]. change (fz RF 10000) with 10000.
      assert (D : 1 <= (if Rltb (if Rltb 1 s then s else 1) 10000 then if Rltb 1 s then s else 1 else 10000) <= 10000); [|apply TH, D].
      destruct (Rltb 1 s) eqn:E1; [apply Rltb_spec in E1|].
      - destruct (Rltb s 10000) eqn:E2; [apply Rltb_spec in E2|]; lra.
      - destruct (Rltb 1 10000) eqn:E2; lra. }
    assert (S0 : snd (fit_statistic RF t tau nr B (f_slope (fit_ramp RF pow y t tau nr rn r)) r) = 0).
    { unfold fit_statistic. destruct (Nat.eqb_spec (fst r) (snd r)) as [Q|Q]; [reflexivity|]. destruct (RNG r I) as [R1 R2]. assert (L : (fst r < snd r)%nat) by lia.
      destruct (FIT r I L) as [FS _]. rewrite FS. cbv zeta.
      assert (ST : forall d i c, (d = 1 \/ d = 2)%nat -> (fst r <= i)%nat -> (i + d <= snd r)%nat -> statistic RF t tau nr B d i b c = 0).
      { intros d i c D A1 A2. unfold statistic, B. rewrite fill_pixel_spec by (auto; lia). unfold pixel_at, fixed_at. cbv zeta. cbn [x_diff x_recip x_slope x_diff2 fsub fdiv RF].
        rewrite (R2 (i + d)%nat), (R2 i) by lia. assert (t i <> t (i + d)%nat) by (apply T; lia).
        replace ((a + b * t (i + d)%nat - (a + b * t i)) / (t (i + d)%nat - t i)) with b by (field; lra).
        unfold Rdiv at 1. change (F RF) with R. ring. }
      apply (fold_const _ (fun st => snd st = 0)).
      - cbn [snd]. apply ST; [auto|lia|lia].
      - intros [k0 s0] k Hk Hs. cbn [snd] in *. apply in_seq in Hk. rewrite !ST by (auto; lia). subst s0. unfold fmaxf. cbn [fisnan RF]. change (flt RF) with Rltb.
        destruct (Rltb 0 0) eqn:Z; [apply Rltb_spec in Z; lra|]. rewrite Z. reflexivity. }
    destruct (fit_statistic RF t tau nr B (f_slope (fit_ramp RF pow y t tau nr rn r)) r) as [k st]. cbn [snd] in S0. subst st. change (flt RF) with Rltb.
    destruct (Rltb _ 0) eqn:Z; [|reflexivity]. apply Rltb_spec in Z. specialize (T0 (f_slope (fit_ramp RF pow y t tau nr rn r))). lra.
  - unfold fit_jumps. cbv zeta. fold B. rewrite E. cbn [bind]. eexists. eexists. split; [reflexivity|]. cbn [p_avg p_dq p_jumps]. rewrite H2, H1, H3, map_map. cbn [snd].
    set (fits := map _ _).
    assert (FI : forall f, In f fits -> f = zfit RF \/ f_slope f = b /\ 0 < f_read f).
    { intros f I. unfold fits in I. apply in_map_iff in I. destruct I as (r & <- & I). apply in_rev in I. destruct (Nat.le_gt_cases (snd r) (fst r)) as [L|L]; [left; apply SING, L|right; apply (FIT r I L)]. }
    destruct (C66_combination fits) as (P1 & P2 & P3 & _ & P5 & _).
    + intros f I. destruct (FI f I) as [-> |[_ Q]]; [cbn; lra|lra].
    + destruct (ramps_two dq n i0 G0 G1 G2) as (r & I & L). exists (fit_ramp RF pow y t tau nr rn r). split; [|apply (FIT r I L)]. unfold fits. apply (in_map (fit_ramp RF pow y t tau nr rn)), in_rev. rewrite rev_involutive. exact I.
    + split; [|split; [rewrite P3; apply Rinv_0_lt_compat, P1|auto]].
      destruct (P5 b b) as [U1 U2]; [|lra]. intros f I. apply filter_In in I. destruct I as [I I2]. apply Rltb_spec in I2. destruct (FI f I) as [-> |[Q _]]; [cbn in I2; lra|lra].
Qed.
Print Assumptions C28_linear_pixel.

(** ** C67: mean times, tau and the Poisson variance *)
Lemma Zfold_sum l : forall a, fold_left Z.add l a = (a + fold_right Z.add 0 l)%Z.
Proof. induction l as [|x l IH]; intro a; cbn [fold_left fold_right]; [lia|]. rewrite IH. lia. Qed.
Lemma pair_sum_sorted : forall l : list Z, StronglySorted Z.le l -> forall s,
  Rsum (map (fun a => Rsum (map (fun b => Rmin (IZR a) (IZR b)) l)) l) =
  IZR (fold_right Z.add 0%Z (map (fun p => (2 * (Z.of_nat (s + length l) - Z.of_nat (fst p)) - 1) * snd p)%Z (combine (seq s (length l)) l))).
Proof.
  induction l as [|x l IH]; intros H s; [reflexivity|]. inversion H as [|? ? H1 H2]; subst. rewrite Forall_forall in H2.
  cbn [map length seq combine fold_right fst snd]. rewrite !Rsum_cons, plus_IZR.
  replace (s + Datatypes.S (length l))%nat with (Datatypes.S s + length l)%nat by lia. rewrite <- (IH H1 (Datatypes.S s)).
  rewrite (Rsum_ext (fun b => Rmin (IZR x) (IZR b)) (fun _ => IZR x)) by (intros b I; apply Rmin_left, IZR_le, H2, I).
  rewrite (Rsum_ext (fun a => Rsum (Rmin (IZR a) (IZR x) :: map (fun b => Rmin (IZR a) (IZR b)) l)) (fun a => IZR x + Rsum (map (fun b => Rmin (IZR a) (IZR b)) l))).
  2:{ intros a I. rewrite Rsum_cons. f_equal. apply Rmin_right, IZR_le, H2, I. }
  rewrite Rsum_plus, !Rsum_const, Rmin_left by lra. rewrite mult_IZR, !minus_IZR, mult_IZR, minus_IZR, <- !INR_IZR_INZ, plus_INR, !S_INR. ring.
Qed.
Lemma sum_ints (l : list Z) : sum RF (map (fz RF) l) = Rsum (map IZR l).
Proof. rewrite sum_R. reflexivity. Qed.
Theorem C67_tau : forall (rt : R) l, l <> [] -> StronglySorted Z.le l -> tau_of RF rt l = pcov rt l l.
Proof.
  intros rt l N H. unfold tau_of, pcov. rewrite (pair_sum_sorted l H 0), Zfold_sum, Z.add_0_l. cbn [plus].
  unfold fz. cbn [fmul fdiv fofZ RF]. rewrite mult_IZR, <- INR_IZR_INZ.
  assert (INR (length l) <> 0) by (apply not_0_INR; destruct l; [congruence|discriminate]). change (F RF) with R. field. assumption.
Qed.
Print Assumptions C67_tau.
(** A read pattern whose read numbers never decrease, within and across resultants: [tau] is the variance of
    a resultant, the earlier mean time is the covariance of two resultants. *)
Definition in_order (pattern : list (list Z)) : Prop :=
  (forall i, (i < length pattern)%nat -> nth i pattern [] <> [] /\ StronglySorted Z.le (nth i pattern [])) /\
  (forall i j, (i < j < length pattern)%nat -> forall a b, In a (nth i pattern []) -> In b (nth j pattern []) -> (a <= b)%Z).
Theorem C67_covariance : forall (rt : R) pattern i j, in_order pattern -> (i < length pattern)%nat -> (j < length pattern)%nat ->
  (if Nat.eqb i j then tau_of RF rt (nth i pattern []) else t_bar_of RF rt (nth (Nat.min i j) pattern [])) = pcov rt (nth i pattern []) (nth j pattern []).
Proof.
  intros rt pattern i j [O1 O2] Hi Hj. destruct (Nat.eqb_spec i j) as [<-|N]; [apply C67_tau; apply O1, Hi|].
  assert (NZ : forall k, (k < length pattern)%nat -> INR (length (nth k pattern [])) <> 0).
  { intros k Hk. apply not_0_INR. destruct (nth k pattern []) eqn:E; [destruct (O1 k Hk); congruence|discriminate]. }
  pose proof (NZ i Hi). pose proof (NZ j Hj). unfold t_bar_of, pcov. rewrite sum_ints. unfold fn. cbn [fmul fdiv fofZ RF]. rewrite <- INR_IZR_INZ. change (F RF) with R.
  destruct (Nat.lt_ge_cases i j) as [L|L].
  - rewrite Nat.min_l by lia. rewrite (Rsum_ext (fun s => Rsum (map (fun t => Rmin (IZR s) (IZR t)) (nth j pattern []))) (fun s => INR (length (nth j pattern [])) * IZR s)).
    2:{ intros s I. rewrite (Rsum_ext _ (fun _ => IZR s)) by (intros b Ib; apply Rmin_left, IZR_le, (O2 i j); [lia|assumption|assumption]). apply Rsum_const. }
    rewrite Rsum_scal. field. auto.
  - rewrite Nat.min_r by lia. rewrite (Rsum_ext (fun s => Rsum (map (fun t => Rmin (IZR s) (IZR t)) (nth j pattern []))) (fun s => Rsum (map IZR (nth j pattern [])))).
    2:{ intros s I. apply Rsum_ext. intros b Ib. apply Rmin_right, IZR_le, (O2 j i); [lia|assumption|assumption]. }
    rewrite Rsum_const. field. auto.
Qed.
Print Assumptions C67_covariance.
(** The Poisson variance of a ramp fit is the variance, per unit rate, of its linear estimator. *)
Theorem C67_poisson_variance : forall pow, pow_ok pow -> forall y (rt : R) pattern rn r, rt <> 0 -> in_order pattern ->
  let t := fun i => t_bar_of RF rt (nth i pattern []) in
  (fst r < snd r < length pattern)%nat -> t (fst r) <> t (snd r) ->
  let f := fit_ramp RF pow y t (fun i => tau_of RF rt (nth i pattern [])) (fun i => length (nth i pattern [])) rn r in
  exists c : nat -> R, f_slope f = Rsum (map (fun i => c i * y i) (members r)) /\
    f_poisson f = Rsum (map (fun i => Rsum (map (fun j => c i * c j * pcov rt (nth i pattern []) (nth j pattern [])) (members r))) (members r)).
Proof.
  intros pow HP y rt pattern rn r R0 O t L T f.
  destruct (C28_estimator pow HP y t (fun i => tau_of RF rt (nth i pattern [])) (fun i => length (nth i pattern [])) rn r ltac:(lia) T) as (c & _ & _ & E1 & _ & E2).
  - intros i Hi. destruct (proj1 O i ltac:(lia)) as [Q _]. destruct (nth i pattern []); [congruence|cbn; lia].
  - exists c. split; [exact E1|]. unfold f. rewrite E2. apply Rsum_ext. intros i Ii. apply members_in in Ii. apply Rsum_ext. intros j Ij. apply members_in in Ij.
    rewrite <- C67_covariance by (assumption || lia). reflexivity.
Qed.
Print Assumptions C67_poisson_variance.
(** The variance of a difference used by the jump statistic. *)
Theorem C67_difference_variance : forall (rt : R) pattern d i, in_order pattern -> 0 <= rt -> (1 <= d)%nat -> (i + d < length pattern)%nat ->
  let A := nth i pattern [] in let B := nth (i + d) pattern [] in
  x_slope RF (fixed_at RF (fun i => t_bar_of RF rt (nth i pattern [])) (fun i => tau_of RF rt (nth i pattern [])) (fun i => length (nth i pattern [])) d i)
  = pcov rt B B + pcov rt A A - 2 * pcov rt A B.
Proof.
  intros rt pattern d i O RT D H A B. unfold fixed_at. cbn [x_slope]. unfold cmin.
  pose proof (C67_covariance rt pattern i i O ltac:(lia) ltac:(lia)) as Q1. pose proof (C67_covariance rt pattern (i + d) (i + d) O H H) as Q2. pose proof (C67_covariance rt pattern i (i + d) O ltac:(lia) H) as Q3.
  rewrite Nat.eqb_refl in Q1, Q2. destruct (Nat.eqb_spec i (i + d)) as [|_]; [lia|]. rewrite Nat.min_l in Q3 by lia. fold A in Q1, Q3 |- *. fold B in Q2, Q3 |- *. rewrite Q1, Q2.
  assert (LE : t_bar_of RF rt A <= t_bar_of RF rt B).
  { assert (LA : 0 < INR (length A)) by (apply lt_0_INR; destruct (proj1 O i ltac:(lia)) as [N _]; fold A in N; destruct A; [congruence|cbn; lia]).
    assert (LB : 0 < INR (length B)) by (apply lt_0_INR; destruct (proj1 O (i + d)%nat H) as [N _]; fold B in N; destruct B; [congruence|cbn; lia]).
    unfold t_bar_of. rewrite !sum_ints. unfold fn. cbn [fmul fdiv fofZ RF]. rewrite <- !INR_IZR_INZ. apply Rmult_le_compat_l; [exact RT|].
    assert (M : Rsum (map IZR A) * INR (length B) <= Rsum (map IZR B) * INR (length A)).
    { replace (Rsum (map IZR A) * INR (length B)) with (Rsum (map (fun s => Rsum (map (fun _ => IZR s) B)) A)).
      2:{ rewrite (Rsum_ext _ (fun s => INR (length B) * IZR s)) by (intros; apply Rsum_const). rewrite Rsum_scal. ring. }
      replace (Rsum (map IZR B) * INR (length A)) with (Rsum (map (fun _ => Rsum (map IZR B)) A)) by (rewrite Rsum_const; ring).
      apply Rsum_le. intros a Ia. apply Rsum_le. intros b Ib. apply IZR_le, (proj2 O i (i + d)%nat); [lia|assumption|assumption]. }
    apply (Rmult_le_reg_r (INR (length A) * INR (length B))); [apply Rmult_lt_0_compat; assumption|].
    replace (Rsum (map IZR A) / INR (length A) * (INR (length A) * INR (length B))) with (Rsum (map IZR A) * INR (length B)) by (field; lra).
    replace (Rsum (map IZR B) / INR (length B) * (INR (length A) * INR (length B))) with (Rsum (map IZR B) * INR (length A)) by (field; lra). exact M. }
  change (flt RF) with Rltb. rewrite <- Q3. cbn [fadd fsub fmul RF]. change (fz RF 2) with 2.
  destruct (Rltb (t_bar_of RF rt A) (t_bar_of RF rt B)) eqn:E; [reflexivity|].
  assert (~ t_bar_of RF rt A < t_bar_of RF rt B) by (rewrite <- Rltb_spec; congruence). replace (t_bar_of RF rt B) with (t_bar_of RF rt A) by (change (F RF) with R in *; lra). reflexivity.
Qed.
Print Assumptions C67_difference_variance.

(** ** C29: the exponent table *)
Section Table.
  Variable fo : FOps.
  Definition table_ordered : Prop :=
    flt fo (fz fo 5) (fz fo 10) = true /\ flt fo (fz fo 10) (fz fo 20) = true /\ flt fo (fz fo 20) (fz fo 50) = true /\ flt fo (fz fo 50) (fz fo 100) = true.
End Table.
Lemma table_generic (fo : FOps) : FLaws fo -> table_ordered fo -> forall x : fo,
  (flt fo x (fz fo 5) = true -> get_power fo x = fzero fo) /\
  (fle fo (fz fo 5) x = true -> flt fo x (fz fo 10) = true -> get_power fo x = fdiv fo (fz fo 4) (fz fo 10)) /\
  (fle fo (fz fo 10) x = true -> flt fo x (fz fo 20) = true -> get_power fo x = fone fo) /\
  (fle fo (fz fo 20) x = true -> flt fo x (fz fo 50) = true -> get_power fo x = fz fo 3) /\
  (fle fo (fz fo 50) x = true -> flt fo x (fz fo 100) = true -> get_power fo x = fz fo 6) /\
  (fle fo (fz fo 100) x = true -> get_power fo x = fz fo 10) /\
  (fisnan fo x = true -> get_power fo x = fz fo 10).
Proof.
  intros L (A & B & C & D) x.
  assert (NLE : forall k, fle fo k x = true -> flt fo x k = false).
  { intros k H. rewrite (fle_spec fo L) in H. destruct (flt fo x k); [|reflexivity]. rewrite andb_false_r in H. discriminate. }
  assert (DN : forall k k', flt fo k k' = true -> flt fo x k' = false -> flt fo x k = false).
  { intros k k' H N. destruct (flt fo x k) eqn:E; [|reflexivity]. rewrite (flt_trans fo L _ _ _ E H) in N. discriminate. }
  unfold get_power, PTABLE. cbn [find fst].
  repeat split; intros.
  - rewrite H. reflexivity.
  - rewrite (NLE _ H), H0. reflexivity.
  - apply NLE in H. rewrite (DN _ _ A H), H, H0. reflexivity.
  - apply NLE in H. pose proof (DN _ _ B H). rewrite (DN _ _ A H1), H1, H, H0. reflexivity.
  - apply NLE in H. pose proof (DN _ _ C H). pose proof (DN _ _ B H1). rewrite (DN _ _ A H2), H2, H1, H, H0. reflexivity.
  - apply NLE in H. pose proof (DN _ _ D H). pose proof (DN _ _ C H0). pose proof (DN _ _ B H1). rewrite (DN _ _ A H2), H2, H1, H0, H. reflexivity.
  - rewrite !(lt_nan_l fo L) by exact H. reflexivity.
Qed.
(** single precision, as in the code: every value, infinities and NaN included, is in one of the cases *)
Theorem C29_table : forall x : B32,
  (flt B32 x (fz B32 5) = true -> get_power B32 x = fzero B32) /\
  (fle B32 (fz B32 5) x = true -> flt B32 x (fz B32 10) = true -> get_power B32 x = fdiv B32 (fz B32 4) (fz B32 10)) /\
  (fle B32 (fz B32 10) x = true -> flt B32 x (fz B32 20) = true -> get_power B32 x = fone B32) /\
  (fle B32 (fz B32 20) x = true -> flt B32 x (fz B32 50) = true -> get_power B32 x = fz B32 3) /\
  (fle B32 (fz B32 50) x = true -> flt B32 x (fz B32 100) = true -> get_power B32 x = fz B32 6) /\
  (fle B32 (fz B32 100) x = true -> get_power B32 x = fz B32 10) /\
  (fisnan B32 x = true -> get_power B32 x = fz B32 10).
Proof. apply table_generic; [apply ieee_laws|]. repeat split; vm_compute; reflexivity. Qed.
Print Assumptions C29_table.
Theorem C29_table_real : forall x : R,
  (x < 5 -> get_power RF x = 0) /\ (5 <= x < 10 -> get_power RF x = 4 / 10) /\ (10 <= x < 20 -> get_power RF x = 1) /\
  (20 <= x < 50 -> get_power RF x = 3) /\ (50 <= x < 100 -> get_power RF x = 6) /\ (100 <= x -> get_power RF x = 10).
Proof.
  intro x. destruct (table_generic RF RF_laws) with (x := x) as (A & B & C & D & E & G & _).
  - unfold table_ordered. change (flt RF) with Rltb. unfold fz. cbn [fofZ RF]. rewrite !Rltb_spec. lra.
  - change (flt RF) with Rltb in *. change (fle RF) with Rleb in *. unfold fz in *. cbn [fofZ RF fone fzero fdiv] in *.
    rewrite !Rltb_spec, !Rleb_spec in *. repeat split; intros; [apply A|apply B|apply C|apply D|apply E|apply G]; lra.
Qed.
Print Assumptions C29_table_real.

(** ** C66: a pixel without two adjacent good resultants *)
Theorem C66_unmeasured : forall fo, FLaws fo -> fisnan fo (fnan fo) = true -> forall pow lg use_jump ic cc t tau nr n y dq rn b,
  (forall i, (i + 1 < n)%nat -> dq i <> 0%Z \/ dq (i + 1)%nat <> 0%Z) ->
  exists out b', fit_jumps fo pow lg use_jump ic cc t tau nr n y dq rn b = Some (out, b') /\ p_dq fo out = dq /\ p_avg fo out = average fo [].
Proof.
  intros fo L HN pow lg use_jump ic cc t tau nr n y dq rn b H.
  assert (S1 : forall r, In r (init_ramps dq n) -> fst r = snd r).
  { intros [s e] I. apply C26_maximal_runs in I. destruct I as (I1 & I2 & _). cbn [fst snd]. destruct (Nat.eq_dec s e); [assumption|exfalso].
    destruct (H s ltac:(lia)) as [Q|Q]; apply Q, I2; lia. }
  set (B := if use_jump then fill_pixel fo y t tau nr rn n b else b).
  destruct (split_record (rfit fo) (fit_ramp fo pow y t tau nr rn) (detect fo lg t tau nr use_jump ic cc B) dq n) as (w & E & H1 & H2 & H3).
  - intros r I. unfold detect. destruct use_jump; [|reflexivity]. unfold fit_statistic. rewrite (S1 r I), Nat.eqb_refl, (lt_nan_r fo L) by exact HN. reflexivity.
  - unfold fit_jumps. cbv zeta. fold B. rewrite E. cbn [bind]. eexists. eexists. split; [reflexivity|]. cbn [p_dq p_avg]. split; [exact H1|].
    rewrite H2, map_map. cbn [snd]. unfold average. f_equal.
    assert (Q : forall l st, (forall r, In r l -> fst r = snd r) -> fold_left (accumulate fo) (map (fun r => fit_ramp fo pow y t tau nr rn r) l) st = st).
    { induction l as [|r l IH]; intros st Hl; [reflexivity|]. cbn [map fold_left].
      assert (N : fit_ramp fo pow y t tau nr rn r = nanfit fo).
      { unfold fit_ramp. rewrite (Hl r (or_introl eq_refl)). destruct (Nat.leb_spec (snd r + 1 - snd r) 1); [reflexivity|lia]. }
      rewrite N. unfold accumulate at 2. destruct st as [a tot]. cbn [nanfit f_slope]. rewrite HN. apply IH. intros; apply Hl; right; assumption. }
    rewrite Q; [reflexivity|]. intros r I. apply S1, in_rev, I.
Qed.
Print Assumptions C66_unmeasured.
(** in single precision: rate and all variances are zero *)
Example C66_unmeasured_zero : let f := average B32 [] in
  f_slope f = fzero B32 /\ f_read f = fzero B32 /\ f_poisson f = fzero B32 /\ fadd B32 (f_read f) (f_poisson f) = fzero B32.
Proof. vm_compute. auto. Qed.

(** ** Examples and refutations *)
From Coq Require Import SpecFloat.
Definition ex_pow (x p : B64) : B64 := if feq B64 p (fzero B64) then fone B64 else x.
Definition ex_lg (x : B64) : B64 := fzero B64.
Definition ex_run (use_jump : bool) (ys : list Z) (dqs : list Z) (rn : Z) :=
  fit_jumps B64 ex_pow ex_lg use_jump (fz B64 4) (fz B64 0) (fun i => fz B64 (Z.of_nat i + 1)) (fun i => fz B64 (Z.of_nat i + 1)) (fun _ => 1%nat)
    (length ys) (fun i => fz B64 (nth i ys 0%Z)) (fun i => nth i dqs 1%Z) (fz B64 rn) (fun _ _ => (fzero B64, fzero B64)).
Definition ex_out (use_jump : bool) (ys dqs : list Z) (rn : Z) : option (spec_float * spec_float * spec_float * list Z * list nat * list ramp) :=
  match ex_run use_jump ys dqs rn with
  | Some (o, _) => Some (f_slope (p_avg B64 o), f_read (p_avg B64 o), f_poisson (p_avg B64 o), map (p_dq B64 o) (seq 0 (length ys)), p_jumps B64 o, map fst (p_fits B64 o))
  | None => None
  end.
Notation Si := (fun z => fofZ B64 z : spec_float).
(** resultants 0 1 2 | 52 53 54: the jump is flagged at positions 2 and 3, two ramps remain, the rate is 1,
    and refitting with the returned DQ gives the same *)
Example C27_example : exists rv pv,
  ex_out true [0; 1; 2; 52; 53; 54]%Z [0; 0; 0; 0; 0; 0]%Z 1 = Some (Si 1%Z, rv, pv, [0; 0; 4; 4; 0; 0]%Z, [2; 3]%nat, [(4, 5); (0, 1)]%nat) /\
  ex_out true [0; 1; 2; 52; 53; 54]%Z [0; 0; 4; 4; 0; 0]%Z 1 = Some (Si 1%Z, rv, pv, [0; 0; 4; 4; 0; 0]%Z, [], [(4, 5); (0, 1)]%nat).
Proof. eexists. eexists. vm_compute. split; reflexivity. Qed.
(** two ramps on lines of rate 3, one good resultant alone, no jump *)
Example C28_example : exists rv pv, ex_out true [5; 8; 0; 14; 17; 20; 0; 26]%Z [0; 0; 1; 0; 0; 0; 1; 0]%Z 1 = Some (Si 3%Z, rv, pv, [0; 0; 1; 0; 0; 0; 1; 0]%Z, [], [(7, 7); (3, 5); (0, 1)]%nat)
  /\ flt B64 (fzero B64) rv = true.
Proof. eexists. eexists. vm_compute. split; reflexivity. Qed.
Example C28_pow_example : pow_ok c_pow.
Proof. exact c_pow_ok. Qed.
(** Without read noise an exactly linear ramp is reported with rate 0 and read variance 0. *)
Theorem C28_zero_read_noise_refuted : exists ys : list Z,
  (forall i, (i < 3)%nat -> nth i ys 0%Z = (3 * Z.of_nat i)%Z) /\
  ex_out false ys [0; 0; 0]%Z 0 = Some (Si 0%Z, Si 0%Z, Si 0%Z, [0; 0; 0]%Z, [], [(0, 2)]%nat).
Proof.
  exists [0; 3; 6]%Z. split; [|vm_compute; reflexivity]. intros i H. destruct i as [|[|[|i]]]; [reflexivity..|lia].
Qed.
Print Assumptions C28_zero_read_noise_refuted.
Example C66_unmeasured_example : ex_out true [9; 7; 40; 2]%Z [0; 1; 0; 2]%Z 1 = Some (Si 0%Z, Si 0%Z, Si 0%Z, [0; 1; 0; 2]%Z, [], [(2, 2); (0, 0)]%nat).
Proof. vm_compute. reflexivity. Qed.
Example C66_combination_example : let f s r : rfit RF := {| f_slope := s : RF; f_read := r : RF; f_poisson := 1 : RF |} in
  let out := average RF [f 2 1; f 0 0; f 5 (/ 2)] in f_slope out = 4 /\ f_read out = / 3.
Proof.
  intros f out. destruct (C66_combination [f 2 1; f 0 0; f 5 (/ 2)]) as (_ & A & B & _).
  - cbn [In]. intros x [<- |[<- |[<- |[]]]]; cbn; lra.
  - exists (f 2 1). cbn. split; [auto|lra].
  - fold out in A, B. change (F RF) with R in *. rewrite A, B. unfold f. cbn [filter f_read].
    assert (E1 : Rltb 0 1 = true) by (apply Rltb_spec; lra). assert (E2 : Rltb 0 0 = false) by (destruct (Rltb 0 0) eqn:E; [apply Rltb_spec in E; lra|reflexivity]). assert (E3 : Rltb 0 (/ 2) = true) by (apply Rltb_spec; lra).
    rewrite E1, E2, E3. cbn [map f_read f_slope]. rewrite !Rsum_cons, !Rsum_nil. split; lra.
Qed.
Example C67_in_order_example : in_order [[1]; [2; 3]; [5; 6; 7]]%Z.
Proof.
  split.
  - intros i H. destruct i as [|[|[|i]]]; [| | |cbn in H; lia]; (split; [discriminate|]); cbn [nth]; repeat constructor; lia.
  - intros i j H a b A B. destruct i as [|[|[|i]]]; destruct j as [|[|[|j]]]; cbn in H, A, B; lia.
Qed.
Example C67_tau_example : tau_of RF 3 [2; 3]%Z = 27 / 4.
Proof. rewrite C67_tau by (discriminate || (repeat constructor; lia)). unfold pcov. cbn [map length INR]. rewrite !Rsum_cons, !Rsum_nil, !(Rmin_left 2 2), !(Rmin_left 2 3), !(Rmin_right 3 2), !(Rmin_left 3 3) by lra. lra. Qed.
(** For reads listed out of order the formula does not give the variance. *)
Theorem C67_unordered_refuted : exists l, l <> [] /\ tau_of RF 1 l <> pcov 1 l l.
Proof.
  exists [2; 1]%Z. split; [discriminate|]. assert (E1 : tau_of RF 1 [2; 1]%Z = 7 / 4).
  { change (7 * 1 / 4 = 7 / 4). lra. }
  assert (E2 : pcov 1 [2; 1]%Z [2; 1]%Z = 5 / 4).
  { unfold pcov. cbn [map length INR]. rewrite !Rsum_cons, !Rsum_nil, !(Rmin_left 2 2), !(Rmin_right 2 1), !(Rmin_left 1 2), !(Rmin_left 1 1) by lra. lra. }
  rewrite E1, E2. change (F RF) with R. lra.
Qed.
Print Assumptions C67_unordered_refuted.

(** ** C68: when a ramp is split *)
Local Open Scope nat_scope.
(** The differences lying within a ramp: single ([d = 1]) and double ([d = 2]), from position [i]. *)
Definition within (r : ramp) (d i : nat) : Prop := (d = 1 \/ d = 2) /\ fst r <= i /\ i + d <= snd r.
Lemma fmaxf_gt (fo : FOps) : FLaws fo -> forall x a b, flt fo x (fmaxf fo a b) = true <-> flt fo x a = true \/ flt fo x b = true.
Proof.
  intros L x a b. unfold fmaxf. destruct (fisnan fo a) eqn:Na.
  - rewrite (lt_nan_r fo L x a Na). intuition discriminate.
  - destruct (fisnan fo b) eqn:Nb; [rewrite (lt_nan_r fo L x b Nb); intuition discriminate|]. destruct (flt fo a b) eqn:E.
    + split; [auto|]. intros [H|H]; [exact (flt_trans fo L _ _ _ H E)|exact H].
    + split; [auto|]. intros [H|H]; [exact H|]. destruct (flt fo x a) eqn:Q; [reflexivity|].
      rewrite (nflt_trans fo L x a b Na Q E) in H. discriminate.
Qed.
Lemma fit_statistic_max (fo : FOps) : FLaws fo -> forall (t tau : nat -> fo) nr b slope r, fst r < snd r ->
  let S d i := statistic fo t tau nr b d i slope (correction fo t r slope) in
  fisnan fo (S 1 (snd r - 1)) = false ->
  let '(k, m) := fit_statistic fo t tau nr b slope r in
  fisnan fo m = false /\ k < snd r - fst r /\
  m = (if Nat.ltb (k + 1) (snd r - fst r) then fmaxf fo (S 1 (fst r + k)) (S 2 (fst r + k)) else S 1 (fst r + k)) /\
  (forall d i, within r d i -> flt fo m (S d i) = false).
Proof.
  intros L t tau nr b slope r H S0 N. unfold fit_statistic. destruct (Nat.eqb_spec (fst r) (snd r)); [lia|]. cbv zeta.
  change (statistic fo t tau nr b 1 (snd r - 1) slope (correction fo t r slope)) with (S0 1 (snd r - 1)).
  set (M := fun k => fmaxf fo (S0 1 (fst r + k)) (S0 2 (fst r + k))).
  set (g := fun st k => _).
  assert (G : forall m st, m <= snd r - 1 - fst r -> st = fold_left g (seq 0 m) (snd r - fst r - 1, S0 1 (snd r - 1)) ->
     fisnan fo (snd st) = false /\ fst st < snd r - fst r /\
     snd st = (if Nat.ltb (fst st + 1) (snd r - fst r) then M (fst st) else S0 1 (fst r + fst st)) /\
     flt fo (snd st) (S0 1 (snd r - 1)) = false /\ forall k, k < m -> flt fo (snd st) (M k) = false).
  { induction m as [|m IH]; intros st Hm E.
    - cbn [seq fold_left] in E. subst st. cbn [fst snd]. split; [exact N|]. split; [lia|]. split.
      + destruct (Nat.ltb_spec (snd r - fst r - 1 + 1) (snd r - fst r)); [lia|]. f_equal. lia.
      + split; [apply (flt_irrefl fo L)|lia].
    - rewrite seq_S, fold_left_app in E. cbn [fold_left plus] in E. specialize (IH _ ltac:(lia) eq_refl). set (st0 := fold_left g (seq 0 m) _) in *. destruct IH as (I1 & I2 & I3 & I4 & I5).
      assert (E' : st = if flt fo (snd st0) (M m) then (m, M m) else st0) by exact E. clear E. destruct (flt fo (snd st0) (M m)) eqn:Q; subst st; cbn [fst snd].
      + assert (NM : fisnan fo (M m) = false) by (destruct (fisnan fo (M m)) eqn:NM; [rewrite (lt_nan_r fo L _ _ NM) in Q; discriminate|reflexivity]).
        split; [exact NM|]. split; [lia|]. split; [destruct (Nat.ltb_spec (m + 1) (snd r - fst r)); [reflexivity|lia]|].
        assert (T : forall x, flt fo (snd st0) x = false -> flt fo (M m) x = false).
        { intros x Hx. destruct (flt fo (M m) x) eqn:Q2; [|reflexivity]. rewrite (flt_trans fo L _ _ _ Q Q2) in Hx. discriminate. }
        split; [apply T, I4|]. intros k Hk. destruct (Nat.eq_dec k m) as [-> |]; [apply (flt_irrefl fo L)|apply T, I5; lia].
      + split; [exact I1|]. split; [exact I2|]. split; [exact I3|]. split; [exact I4|]. intros k Hk. destruct (Nat.eq_dec k m) as [-> |]; [exact Q|apply I5; lia]. }
  specialize (G (snd r - 1 - fst r) _ (Nat.le_refl _) eq_refl). destruct (fold_left g _ _) as [k m]. cbn [fst snd] in G. destruct G as (G1 & G2 & G3 & G4 & G5).
  split; [exact G1|]. split; [exact G2|]. split; [exact G3|]. intros d i (D & A & B).
  destruct (Nat.eq_dec (i + 1) (snd r)) as [Q|Q].
  - assert (d = 1) by lia. subst d. replace i with (snd r - 1) by lia. exact G4.
  - specialize (G5 (i - fst r) ltac:(lia)). unfold M in G5. replace (fst r + (i - fst r)) with i in G5 by lia.
    destruct (flt fo m (S0 d i)) eqn:Q3; [|reflexivity]. rewrite (proj2 (fmaxf_gt fo L m (S0 1 i) (S0 2 i))) in G5; [discriminate|]. destruct D as [-> | ->]; auto.
Qed.
(** A ramp is split exactly when the statistic of some single or double difference within it exceeds the
    threshold, provided the last single difference has a statistic that is a number; it is split at a position
    whose statistic is the largest. *)
Theorem C68_split_iff : forall fo, FLaws fo -> forall lg t tau nr ic cc b r f, fst r < snd r ->
  let S d i := statistic fo t tau nr b d i (f_slope f) (correction fo t r (f_slope f)) in
  let thr := threshold fo lg ic cc (f_slope f) in
  fisnan fo (S 1 (snd r - 1)) = false ->
  (detect fo lg t tau nr true ic cc b r f <> None <-> exists d i, within r d i /\ flt fo thr (S d i) = true) /\
  (forall k, detect fo lg t tau nr true ic cc b r f = Some k ->
     exists d, within r d (fst r + k) /\ flt fo thr (S d (fst r + k)) = true /\ forall d' i', within r d' i' -> flt fo (S d (fst r + k)) (S d' i') = false).
Proof.
  intros fo L lg t tau nr ic cc b r f H S0 thr N. pose proof (fit_statistic_max fo L t tau nr b (f_slope f) r H N) as FM. fold S0 in FM.
  unfold detect. fold thr. destruct (fit_statistic fo t tau nr b (f_slope f) r) as [k m]. destruct FM as (M1 & M2 & M3 & M4).
  assert (AT : flt fo thr m = true -> exists d, within r d (fst r + k) /\ flt fo thr (S0 d (fst r + k)) = true /\ S0 d (fst r + k) = m).
  { intro Q. destruct (Nat.ltb_spec (k + 1) (snd r - fst r)) as [Hk|Hk].
    - assert (MM : m = S0 1 (fst r + k) \/ m = S0 2 (fst r + k)).
      { rewrite M3. unfold fmaxf. destruct (fisnan fo (S0 1 (fst r + k))); [auto|]. destruct (fisnan fo (S0 2 (fst r + k))); [auto|]. destruct (flt fo (S0 1 (fst r + k)) (S0 2 (fst r + k))); auto. }
      destruct MM as [E|E]; [exists 1|exists 2]; (split; [unfold within; lia|rewrite <- E; auto]).
    - exists 1. split; [unfold within; lia|]. rewrite <- M3. auto. }
  split.
  - destruct (flt fo thr m) eqn:Q.
    + split; [|discriminate]. intros _. destruct (AT eq_refl) as (d & A & B & _). exists d, (fst r + k). auto.
    + split; [congruence|]. intros (d & i & A & B). exfalso. rewrite (nflt_trans fo L thr m (S0 d i) M1 Q (M4 d i A)) in B. discriminate.
  - intros k' E. destruct (flt fo thr m) eqn:Q; [|discriminate]. injection E as <-. destruct (AT eq_refl) as (d & A & B & C). exists d. split; [exact A|]. split; [exact B|].
    intros d' i' W. rewrite C. apply M4, W.
Qed.
Print Assumptions C68_split_iff.
Theorem C68_no_split : forall fo, FLaws fo -> fisnan fo (fnan fo) = true -> forall lg t tau nr ic cc b r f,
  (fst r = snd r -> detect fo lg t tau nr true ic cc b r f = None) /\ detect fo lg t tau nr false ic cc b r f = None.
Proof.
  intros fo L HN lg t tau nr ic cc b r f. split; [|reflexivity]. intro E. unfold detect, fit_statistic. rewrite E, Nat.eqb_refl, (lt_nan_r fo L) by exact HN. reflexivity.
Qed.
Print Assumptions C68_no_split.
(** A ramp in which one difference exceeds the threshold, but the last single difference has a NaN statistic
    (negative variance estimate), is not split: reads 1 | 2 | 3..102, counts 0, 5000, 10000. *)
Definition nan_t (i : nat) : B64 := t_bar_of B64 (fone B64) (nth i [[1]; [2]; map Z.of_nat (seq 3 100)]%Z []).
Definition nan_tau (i : nat) : B64 := tau_of B64 (fone B64) (nth i [[1]; [2]; map Z.of_nat (seq 3 100)]%Z []).
Definition nan_nr (i : nat) : nat := nth i [1; 1; 100] 0.
Theorem C68_nan_hides_jump_refuted : exists y : nat -> B64, let rn := fone B64 in let r := (0, 2) in
  let f := fit_ramp B64 ex_pow y nan_t nan_tau nan_nr rn r in
  let b := fill_pixel B64 y nan_t nan_tau nan_nr rn 3 (fun _ _ => (fzero B64, fzero B64)) in
  flt B64 (threshold B64 ex_lg (fz B64 4) (fz B64 0) (f_slope f)) (statistic B64 nan_t nan_tau nan_nr b 1 0 (f_slope f) (correction B64 nan_t r (f_slope f))) = true /\
  detect B64 ex_lg nan_t nan_tau nan_nr true (fz B64 4) (fz B64 0) b r f = None.
Proof. exists (fun i => fz B64 (5000 * Z.of_nat i)). cbv zeta. split; vm_compute; reflexivity. Qed.
Print Assumptions C68_nan_hides_jump_refuted.
Example C68_example : let t i := fz B64 (Z.of_nat i + 1) in let y i := fz B64 (nth i [0; 1; 2; 52; 53; 54]%Z 0%Z) in let r := (0, 5) in
  let f := fit_ramp B64 ex_pow y t t (fun _ => 1) (fone B64) r in
  let b := fill_pixel B64 y t t (fun _ => 1) (fone B64) 6 (fun _ _ => (fzero B64, fzero B64)) in
  fisnan B64 (statistic B64 t t (fun _ => 1) b 1 4 (f_slope f) (correction B64 t r (f_slope f))) = false /\
  detect B64 ex_lg t t (fun _ => 1) true (fz B64 4) (fz B64 0) b r f = Some 2.
Proof. cbv zeta. split; vm_compute; reflexivity. Qed.
