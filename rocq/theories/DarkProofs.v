From Verif Require Import Base BaseLemmas DarkModel DarkSpec.
From Coq Require Import ZifyBool ZifyNat ZifyN.

Lemma mapM_nth {A B} (f : A -> option B) l l' : mapM f l = Some l' ->
  length l' = length l /\
  forall i a, nth_error l i = Some a -> exists b, f a = Some b /\ nth_error l' i = Some b.
Proof.
  revert l'; induction l as [|x l IH]; intros l'; cbn [mapM].
  - intros [= <-]. split; [reflexivity|]. intros [|i] a; discriminate.
  - intro E. apply bind_Some in E; destruct E as (y & Ey & E).
    apply bind_Some in E; destruct E as (ys & Eys & [= <-]).
    destruct (IH ys Eys) as [L H]. split; [cbn; lia|].
    intros [|i] a; cbn; [intros [= <-]; eauto|apply H].
Qed.

Lemma mapM_total {A B} (f : A -> option B) l :
  (forall a, In a l -> exists b, f a = Some b) -> exists l', mapM f l = Some l'.
Proof. induction l as [|x l IH]; intro H; cbn [mapM]; [eauto|].
  destruct (H x (or_introl eq_refl)) as [y ->]; cbn [bind].
  destruct IH as [ys ->]; [intros a Ha; apply H; right; exact Ha|]. cbn; eauto. Qed.

Section P.
Context (fo : FOps) (fmean : list fo -> fo).

Lemma rev_two {X} (arr : list X) d : 2 <= length arr ->
  exists t, rev arr = nth (length arr - 1) arr d :: nth (length arr - 2) arr d :: t.
Proof.
  intro H. destruct (rev arr) as [|a [|b t]] eqn:E.
  - apply (f_equal (@length X)) in E; rewrite rev_length in E; cbn in E; lia.
  - apply (f_equal (@length X)) in E; rewrite rev_length in E; cbn in E; lia.
  - exists t. f_equal; [|f_equal].
    + pose proof (rev_nth (rev arr) d (n := length arr - 1)) as R.
      rewrite rev_involutive, rev_length in R. rewrite R by lia. rewrite E.
      replace (length arr - S (length arr - 1)) with 0 by lia. reflexivity.
    + pose proof (rev_nth (rev arr) d (n := length arr - 2)) as R.
      rewrite rev_involutive, rev_length in R. rewrite R by lia. rewrite E.
      replace (length arr - S (length arr - 2)) with 1 by lia. reflexivity.
Qed.

Lemma extrapolate_ok arr k : 2 <= length arr ->
  exists arr', extrapolate_int fo arr k = Some arr' /\ length arr' = length arr + k /\
   forall g r c, g < length arr + k -> nth g arr' (fun _ _ => fzero fo) r c = dark_value fo arr g r c.
Proof.
  intro H. unfold extrapolate_int.
  destruct (rev_two arr (fun _ _ => fzero fo) H) as [t ->].
  eexists; split; [reflexivity|]. split; [rewrite app_length, map_length, seq_length; reflexivity|].
  intros g r c Hg. unfold dark_value. destruct (Nat.ltb_spec g (length arr)) as [Hl|Hl].
  - rewrite app_nth1 by exact Hl. reflexivity.
  - rewrite app_nth2 by exact Hl.
    set (f := fun k0 : nat => _). 
    rewrite (nth_indep _ _ (f 0)) by (rewrite map_length, seq_length; lia).
    rewrite map_nth, seq_nth by lia. unfold f.
    replace (g - (length arr - 1)) with (1 + (g - length arr)) by lia. reflexivity.
Qed.

Lemma extrapolate_short arr k : length arr < 2 -> extrapolate_int fo arr k = None.
Proof. intro H. unfold extrapolate_int. destruct arr as [|a [|b arr]]; cbn in *; try reflexivity; lia. Qed.

Lemma zceil_ge a b : (0 < b)%Z -> (a <= b * zceil a b)%Z.
Proof. intro H. unfold zceil. pose proof (Z.mul_div_le (- a) b H). lia. Qed.

(** well-formed dark: every integration has the same number of groups *)
Definition wf_dark (d : dark fo) (dng : nat) : Prop :=
  (forall a, In a (d_data fo d) -> length a = dng) /\ d_data fo d <> [] /\
  (d_is4d fo d = false -> length (d_data fo d) = 1) /\ 1 <= d_nframes fo d.

Lemma wf_ngroups d dng : wf_dark d dng -> d_ngroups fo d = dng.
Proof. intros (H & Hne & _). unfold d_ngroups. destruct (d_data fo d) as [|a l]; [congruence|].
  cbn. apply H. left; reflexivity. Qed.

(** the extended dark: its length and its values *)
Definition enough_to_extrapolate (s : science fo) (d : dark fo) (dng : nat) : Prop :=
  2 <= dng \/
  (total_frames (c_ngroups fo s) (c_nframes fo s) (c_groupgap fo s) <=
   total_frames dng (d_nframes fo d) (d_groupgap fo d))%Z.

Lemma extended_ok s d dng : wf_dark d dng -> enough_to_extrapolate s d dng ->
  exists data ng', extended_dark fo s d = Some data /\ length data = length (d_data fo d) /\
    ng' = planes (total_frames (c_ngroups fo s) (c_nframes fo s) (c_groupgap fo s)) dng (d_nframes fo d) (d_groupgap fo d) /\
    dng <= ng' /\
    (total_frames (c_ngroups fo s) (c_nframes fo s) (c_groupgap fo s) <=
       total_frames ng' (d_nframes fo d) (d_groupgap fo d))%Z /\
    (forall i a, nth_error (d_data fo d) i = Some a ->
       exists a', nth_error data i = Some a' /\ length a' = ng' /\
         forall g r c, g < ng' -> nth g a' (fun _ _ => fzero fo) r c = dark_value fo a g r c).
Proof.
  intros W H2. pose proof (wf_ngroups d dng W) as Hng. destruct W as (W1 & W2 & W3 & W4).
  unfold extended_dark. rewrite Hng.
  set (st := total_frames (c_ngroups fo s) (c_nframes fo s) (c_groupgap fo s)).
  set (dt := total_frames dng (d_nframes fo d) (d_groupgap fo d)).
  destruct (Z.ltb_spec dt st) as [Hlt|Hge].
  - assert (H2' : 2 <= dng) by (destruct H2 as [|H2]; [assumption|fold st dt in H2; lia]).
    set (per := (Z.of_nat (d_nframes fo d) + Z.of_nat (d_groupgap fo d))%Z).
    destruct (Z.eqb_spec per 0) as [E|_]; [lia|].
    set (k := Z.to_nat (zceil (st - dt + Z.of_nat (d_groupgap fo d)) per)).
    destruct (mapM_total (fun a => extrapolate_int fo a k) (d_data fo d)) as [data E].
    { intros a Ha. destruct (extrapolate_ok a k) as (a' & Ea & _); [rewrite (W1 a Ha); lia|]. eauto. }
    exists data, (dng + k). destruct (mapM_nth _ _ _ E) as [L N].
    split; [exact E|]. split; [exact L|]. split.
    { unfold planes, frames_spanned. fold (total_frames dng (d_nframes fo d) (d_groupgap fo d)). fold st dt.
      destruct (Z.ltb_spec 0 (st - dt)); [|lia]. reflexivity. }
    split; [lia|]. split.
    + pose proof (zceil_ge (st - dt + Z.of_nat (d_groupgap fo d)) per ltac:(lia)) as Z1.
      fold k in Z1. 
      assert (Hk : Z.of_nat k = zceil (st - dt + Z.of_nat (d_groupgap fo d)) per).
      { unfold k. rewrite Z2Nat.id; [reflexivity|].
        destruct (Z_lt_le_dec (zceil (st - dt + Z.of_nat (d_groupgap fo d)) per) 0) as [Hn|]; [|assumption].
        exfalso. assert (per * zceil (st - dt + Z.of_nat (d_groupgap fo d)) per < 0)%Z
          by (apply Z.mul_pos_neg; lia). lia. }
      rewrite <- Hk in Z1. unfold total_frames. unfold dt, total_frames in Z1. unfold per in Z1. 
      rewrite Nat2Z.inj_add. nia.
    + intros i a Ha. destruct (N i a Ha) as (a' & E1 & E2).
      assert (La : length a = dng) by (apply W1; apply (nth_error_In _ _ Ha)).
      destruct (extrapolate_ok a k) as (a'' & Ea & La' & V); [lia|].
      rewrite E1 in Ea; injection Ea as <-. exists a'. split; [exact E2|]. rewrite La in *.
      split; [exact La'|exact V].
  - exists (d_data fo d), dng. split; [reflexivity|]. split; [reflexivity|]. split.
    { unfold planes, frames_spanned. fold (total_frames dng (d_nframes fo d) (d_groupgap fo d)). fold st dt.
      destruct (Z.ltb_spec 0 (st - dt)); [lia|reflexivity]. }
    split; [lia|]. split; [exact Hge|].
    intros i a Ha. exists a. split; [exact Ha|].
    assert (La : length a = dng) by (apply W1; apply (nth_error_In _ _ Ha)). split; [exact La|].
    intros g r c Hg. unfold dark_value. destruct (Nat.ltb_spec g (length a)); [reflexivity|lia].
Qed.

Lemma dark_index_int_for s d n i : 
  n <> 0 -> dark_index fo s d n i = int_for (d_is4d fo d) n (c_intstart fo s) i.
Proof.
  intros Hn. unfold dark_index, int_for. destruct (d_is4d fo d); [|reflexivity].
  destruct (c_intstart fo s) as [[|[|k]]|]; cbn [Nat.eqb]; rewrite ?andb_true_r, ?andb_false_r; try reflexivity.
  - destruct (Nat.ltb_spec i n); lia.
  - destruct (Nat.ltb_spec i n); lia.
Qed.

Lemma int_for_lt b n k i : n <> 0 -> (b = false -> n = 1) -> int_for b n k i < n.
Proof. intros H H1. unfold int_for. destruct b; [|lia]. destruct k as [[|[|k]]|]; lia. Qed.

Lemma total_frames_groups g g' nf gap : 1 <= nf ->
  (total_frames g nf gap <= total_frames g' nf gap)%Z -> g <= g'.
Proof. intros H E. unfold total_frames in E. destruct (le_lt_dec g g'); [assumption|exfalso].
  assert (Z.of_nat g' + 1 <= Z.of_nat g)%Z by lia.
  assert (Z.of_nat g' * Z.of_nat nf < Z.of_nat g * Z.of_nat nf)%Z by (apply Z.mul_lt_mono_pos_r; lia).
  assert ((Z.of_nat g' - 1) * Z.of_nat gap <= (Z.of_nat g - 1) * Z.of_nat gap)%Z
    by (apply Z.mul_le_mono_nonneg_r; lia). lia. Qed.

Lemma nan0_nth l g r c : g < length l ->
  nth g (map (nan0 fo) l) (fun _ _ => fzero fo) r c = clean fo (nth g l (fun _ _ => fzero fo) r c).
Proof. intro H. rewrite (nth_indep _ _ (nan0 fo (fun _ _ => fzero fo))) by (rewrite map_length; exact H).
  rewrite map_nth. reflexivity. Qed.

Lemma nth_error_map' {X Y} (f : X -> Y) l n x : nth_error l n = Some x -> nth_error (map f l) n = Some (f x).
Proof. apply map_nth_error. Qed.

Lemma direct_ok s d dng : wf_dark d dng -> enough_to_extrapolate s d dng ->
  c_nframes fo s = d_nframes fo d -> c_groupgap fo s = d_groupgap fo d ->
  exists o, do_correction_data fo fmean s d = Some o /\ o_status fo o = COMPLETE /\
    o_cgdq fo o = c_gdq fo s /\
    (forall i j r c, i < c_nints fo s -> j < c_ngroups fo s ->
      o_data fo o i j r c =
      fsub fo (c_data fo s i j r c)
        (clean fo (dark_value fo
           (nth (int_for (d_is4d fo d) (length (d_data fo d)) (c_intstart fo s) i) (d_data fo d) []) j r c))).
Proof.
  intros W H2 Hf Hg. destruct (extended_ok s d dng W H2) as (data & ng' & E & L & Epl & Hng & Htf & V).
  unfold do_correction_data. rewrite E; cbn [bind]. rewrite <- Hf, <- Hg.
  rewrite !Nat.ltb_irrefl, !Nat.eqb_refl; cbn [orb andb].
  destruct W as (W1 & W2 & W3 & W4).
  assert (Ln : length (d_data fo d) <> 0) by (destruct (d_data fo d); [congruence|discriminate]).
  assert (Hgr : c_ngroups fo s <= ng') by (apply (total_frames_groups _ _ (d_nframes fo d) (d_groupgap fo d));
    [exact W4|]; rewrite <- Hf, <- Hg in *; exact Htf).
  assert (K : forall i, exists a a', nth_error (d_data fo d) (int_for (d_is4d fo d) (length (d_data fo d)) (c_intstart fo s) i) = Some a
     /\ nth_error data (int_for (d_is4d fo d) (length (d_data fo d)) (c_intstart fo s) i) = Some a' /\ length a' = ng' /\
         forall g r c, g < ng' -> nth g a' (fun _ _ => fzero fo) r c = dark_value fo a g r c).
  { intro i. pose proof (int_for_lt (d_is4d fo d) _ (c_intstart fo s) i Ln W3) as Hlt.
    destruct (nth_error (d_data fo d) (int_for (d_is4d fo d) (length (d_data fo d)) (c_intstart fo s) i)) as [a|] eqn:Ea;
      [|apply nth_error_None in Ea; lia].
    destruct (V _ _ Ea) as (a' & ? & ? & ?). eauto 10. }
  unfold subtract_dark.
  assert (Sok : subtract_ok fo s d (map (map (nan0 fo)) data) = true).
  { unfold subtract_ok. apply forallb_forall. intros i _. rewrite map_length, L, dark_index_int_for by exact Ln.
    destruct (K i) as (a & a' & _ & K2 & K3 & _).
    rewrite (map_nth_error _ _ _ K2), map_length, K3. apply Nat.leb_le; exact Hgr. }
  rewrite Sok. eexists; split; [reflexivity|]. split; [reflexivity|]. split; [reflexivity|].
  intros i j r c Hi Hj. cbn [o_data]. unfold subtract_data. f_equal.
  rewrite map_length, L, dark_index_int_for by exact Ln.
  destruct (K i) as (a & a' & K1 & K2 & K3 & K4).
  rewrite (nth_error_nth _ _ _ (map_nth_error (map (nan0 fo)) _ _ K2)), (nth_error_nth _ _ _ K1).
  rewrite nan0_nth by lia. rewrite K4 by lia. reflexivity.
Qed.

(** *** Averaging *)
Lemma nth_map_proj (l : list (img fo)) t r c :
  nth t (map (fun p : img fo => p r c) l) (fzero fo) = nth t l (fun _ _ => fzero fo) r c.
Proof. revert t; induction l as [|x l IH]; intros [|t]; cbn; try reflexivity. apply IH. Qed.
Lemma nth_map_seq {X} (f : nat -> X) n t d : t < n -> nth t (map f (seq 0 n)) d = f t.
Proof. intro H. rewrite (nth_indep _ _ (f 0)) by (rewrite map_length, seq_length; exact H).
  rewrite map_nth, seq_nth by exact H. reflexivity. Qed.

Lemma avg_loop_gen arr nf gap k start : 1 <= nf ->
  (nf <> 1 \/ k = 0 \/ start + (k - 1) * (nf + gap) + nf <= length arr) ->
  exists ps, avg_loop fo fmean arr nf gap start k = Some ps /\ length ps = k /\
   forall g r c, g < k ->
     nth g ps (fun _ _ => fzero fo) r c =
     let vals := map (fun t => nth (start + g * (nf + gap) + t) arr (fun _ _ => fzero fo) r c)
                     (seq 0 (Nat.min nf (length arr - (start + g * (nf + gap))))) in
     if Nat.eqb nf 1 then hd (fzero fo) vals else fmean vals.
Proof.
  intro Hnf. revert start; induction k as [|k IH]; intros start Hlen; cbn [avg_loop].
  - eexists; split; [reflexivity|]. split; [reflexivity|]. intros; lia.
  - assert (Hb : nf <> 1 \/ start + nf <= length arr) by nia.
    assert (Hav : exists p, avg_group fo fmean arr nf start = Some p /\
       forall r c, p r c = let vals := map (fun t => nth (start + t) arr (fun _ _ => fzero fo) r c)
                                           (seq 0 (Nat.min nf (length arr - start))) in
          if Nat.eqb nf 1 then hd (fzero fo) vals else fmean vals).
    { unfold avg_group. destruct (Nat.eqb_spec nf 1) as [->|Hn].
      - destruct (nth_error arr start) as [p|] eqn:Ep; [|apply nth_error_None in Ep; lia].
        exists p. split; [reflexivity|]. intros r c. replace (Nat.min 1 (length arr - start)) with 1 by lia.
        cbn. rewrite Nat.add_0_r, (nth_error_nth _ _ _ Ep). reflexivity.
      - eexists; split; [reflexivity|]. intros r c. cbv beta zeta. f_equal.
        apply nth_ext with (d := fzero fo) (d' := fzero fo).
        { rewrite !map_length, seq_length, firstn_length, skipn_length. lia. }
        intros t Ht. rewrite map_length, firstn_length, skipn_length in Ht.
        rewrite nth_map_proj, nth_map_seq by lia. cbn [plus].
        assert (X : forall (l : list (img fo)) n t d, t < n -> nth t (firstn n l) d = nth t l d).
        { induction l as [|x l IHl]; intros [|n] [|t'] d Htn; cbn; try reflexivity; try lia. apply IHl; lia. }
        assert (Y : forall (l : list (img fo)) n t d, nth t (skipn n l) d = nth (n + t) l d).
        { induction l as [|x l IHl]; intros [|n] t' d; cbn; try reflexivity; [destruct t'; reflexivity|apply IHl]. }
        rewrite X by lia. rewrite Y. reflexivity. }
    destruct Hav as (p & Ep & Vp). rewrite Ep; cbn [bind].
    destruct (IH (start + nf + gap)) as (ps & Eps & Lps & Vps).
    { destruct Hlen as [Hlen|[Hlen|Hlen]]; [left; exact Hlen|lia|right].
      destruct k as [|k]; [left; reflexivity|right]. nia. }
    rewrite Eps; cbn [bind]. eexists; split; [reflexivity|]. split; [cbn; lia|].
    intros [|g] r c Hg; cbn [nth].
    + rewrite Vp. cbn [Nat.mul]. rewrite Nat.add_0_r. reflexivity.
    + rewrite Vps by lia. cbv zeta.
      replace (start + S g * (nf + gap)) with (start + nf + gap + g * (nf + gap)) by lia. reflexivity.
Qed.

Lemma avg_loop_length arr nf gap k : forall start ps, avg_loop fo fmean arr nf gap start k = Some ps -> length ps = k.
Proof. induction k as [|k IH]; intros start ps; cbn [avg_loop]; [intros [= <-]; reflexivity|].
  intro E. apply bind_Some in E; destruct E as (p & _ & E). apply bind_Some in E; destruct E as (q & Eq & [= <-]).
  cbn. f_equal. apply (IH _ _ Eq). Qed.

(** a single frame per group beyond the end of the dark: exception *)
Lemma avg_loop_short arr gap k start : 1 <= k -> length arr <= start + (k - 1) * (1 + gap) ->
  avg_loop fo fmean arr 1 gap start k = None.
Proof.
  revert start; induction k as [|k IH]; intros start H1 Hlen; [lia|]. cbn [avg_loop].
  unfold avg_group; cbn [Nat.eqb]. destruct (nth_error arr start) as [p|] eqn:Ep; [|reflexivity].
  cbn [bind]. assert (start < length arr) by (apply nth_error_Some; congruence).
  destruct k as [|k]; [cbn in Hlen; lia|]. rewrite IH; [reflexivity|lia|]. nia.
Qed.

Lemma averaged_gen s d dng : wf_dark d dng -> enough_to_extrapolate s d dng ->
  d_nframes fo d <= c_nframes fo s -> d_groupgap fo d <= c_groupgap fo s ->
  ~ (c_nframes fo s = d_nframes fo d /\ c_groupgap fo s = d_groupgap fo d) ->
  let P := planes (total_frames (c_ngroups fo s) (c_nframes fo s) (c_groupgap fo s)) dng (d_nframes fo d) (d_groupgap fo d) in
  (c_nframes fo s <> 1 \/ c_ngroups fo s = 0 \/
   (c_ngroups fo s - 1) * (c_nframes fo s + c_groupgap fo s) + c_nframes fo s <= P) ->
  exists o, do_correction_data fo fmean s d = Some o /\ o_status fo o = COMPLETE /\
    o_cgdq fo o = c_gdq fo s /\
    (forall i j r c, i < c_nints fo s -> j < c_ngroups fo s ->
      let k := int_for (d_is4d fo d) (length (d_data fo d)) (c_intstart fo s) i in
      (k < c_nints fo s \/ d_is4d fo d = false) ->
      let vals := map (fun t => clean fo (dark_value fo (nth k (d_data fo d) [])
                          (j * (c_nframes fo s + c_groupgap fo s) + t) r c)) (seq 0 (Nat.min (c_nframes fo s) (P - j * (c_nframes fo s + c_groupgap fo s)))) in
      o_data fo o i j r c =
      fsub fo (c_data fo s i j r c) (if Nat.eqb (c_nframes fo s) 1 then hd (fzero fo) vals else fmean vals)).
Proof.
  intros W H2 Hf Hg Hne P Hen. destruct (extended_ok s d dng W H2) as (data & ng' & E & L & Epl & Hng & Htf & V).
  unfold do_correction_data. rewrite E; cbn [bind].
  replace (Nat.ltb (c_nframes fo s) (d_nframes fo d) || Nat.ltb (c_groupgap fo s) (d_groupgap fo d))%bool with false by lia.
  replace (Nat.eqb (c_nframes fo s) (d_nframes fo d) && Nat.eqb (c_groupgap fo s) (d_groupgap fo d))%bool with false by lia.
  destruct W as (W1 & W2 & W3 & W4).
  assert (Ln : length (d_data fo d) <> 0) by (destruct (d_data fo d); [congruence|discriminate]).
  set (nf := c_nframes fo s) in *. set (gap := c_groupgap fo s) in *. set (ng := c_ngroups fo s) in *.
  fold P in Epl. rewrite <- Epl in *. clear P Epl.
  assert (Hnf : 1 <= nf) by lia.
  assert (KV : forall i a, nth_error (d_data fo d) i = Some a ->
     exists a', nth_error (map (map (nan0 fo)) data) i = Some a' /\ length a' = ng' /\
      forall g r c, g < ng' -> nth g a' (fun _ _ => fzero fo) r c = clean fo (dark_value fo a g r c)).
  { intros i a Ha. destruct (V i a Ha) as (a' & A1 & A2 & A3). exists (map (nan0 fo) a').
    split; [apply map_nth_error; exact A1|]. split; [rewrite map_length; exact A2|].
    intros g r c Hgl. rewrite nan0_nth by lia. rewrite A3 by exact Hgl. reflexivity. }
  assert (Ldata : length (map (map (nan0 fo)) data) = length (d_data fo d)) by (rewrite map_length; exact L).
  set (dt := map (map (nan0 fo)) data) in *. clearbody dt. clear E V.
  unfold average_dark. rewrite Ldata.
  set (num := if d_is4d fo d then Nat.min (length (d_data fo d)) (c_nints fo s) else length (d_data fo d)).
  assert (Hnum : num <= length (d_data fo d)) by (unfold num; destruct (d_is4d fo d); lia).
  destruct (mapM_total (fun a => avg_loop fo fmean a nf gap 0 ng) (firstn num dt)) as [front Ef].
  { intros a Ha.
    assert (Hin : In a dt) by (rewrite <- (firstn_skipn num dt); apply in_or_app; left; exact Ha).
    apply In_nth_error in Hin. destruct Hin as [i Hi].
    assert (i < length (d_data fo d)) by (rewrite <- Ldata; apply nth_error_Some; congruence).
    destruct (nth_error (d_data fo d) i) as [b|] eqn:Eb; [|apply nth_error_None in Eb; lia].
    destruct (KV i b Eb) as (a' & A1 & A2 & _). rewrite Hi in A1; injection A1 as <-.
    destruct (avg_loop_gen a nf gap ng 0 Hnf) as (ps & Eps & _); [lia|]. eauto. }
  fold nf gap ng. rewrite Ef; cbn [bind]. destruct (mapM_nth _ _ _ Ef) as [Lf Nf].
  rewrite firstn_length, Ldata in Lf.
  set (avg := front ++ repeat (repeat (fun _ _ => fzero fo) ng) (length (d_data fo d) - num)).
  assert (Lavg : length avg = length (d_data fo d)) by (unfold avg; rewrite app_length, repeat_length; lia).
  assert (Eachlen : forall a, In a avg -> length a = ng).
  { intros a Ha. apply in_app_iff in Ha. destruct Ha as [Ha|Ha].
    - apply In_nth_error in Ha. destruct Ha as [i Hi].
      assert (i < length front) by (apply nth_error_Some; congruence).
      destruct (nth_error (firstn num dt) i) as [b|] eqn:Eb;
        [|apply nth_error_None in Eb; rewrite firstn_length in Eb; lia].
      destruct (Nf i b Eb) as (ps & P1 & P2). rewrite Hi in P2; injection P2 as <-.
      apply (avg_loop_length _ _ _ _ _ _ P1).
    - apply repeat_spec in Ha. subst a. apply repeat_length. }
  unfold subtract_dark.
  assert (Sok : subtract_ok fo s d avg = true).
  { unfold subtract_ok. apply forallb_forall. intros i _. rewrite Lavg, dark_index_int_for by exact Ln.
    pose proof (int_for_lt (d_is4d fo d) _ (c_intstart fo s) i Ln W3) as Hlt.
    destruct (nth_error avg _) as [a|] eqn:Ea; [|apply nth_error_None in Ea; lia].
    apply nth_error_In in Ea. rewrite (Eachlen a Ea). apply Nat.leb_refl. }
  rewrite Sok. eexists; split; [reflexivity|]. split; [reflexivity|]. split; [reflexivity|].
  intros i j r c Hi Hj. cbv zeta. intro Hk. cbn [o_data].
  set (k := int_for (d_is4d fo d) (length (d_data fo d)) (c_intstart fo s) i) in *. unfold subtract_data. f_equal.
  rewrite Lavg, dark_index_int_for by exact Ln. fold k.
  pose proof (int_for_lt (d_is4d fo d) _ (c_intstart fo s) i Ln W3) as Hlt. fold k in Hlt.
  assert (Hkn : k < num) by (unfold num; destruct (d_is4d fo d); [destruct Hk; [lia|discriminate]|lia]).
  unfold avg. rewrite app_nth1 by lia.
  destruct (nth_error (d_data fo d) k) as [b|] eqn:Eb; [|apply nth_error_None in Eb; lia].
  destruct (KV k b Eb) as (a' & A1 & A2 & A3).
  assert (Fk : nth_error (firstn num dt) k = Some a').
  { rewrite <- (firstn_skipn num dt) in A1. rewrite nth_error_app1 in A1; [exact A1|].
    rewrite firstn_length; lia. }
  destruct (Nf k a' Fk) as (ps & P1 & P2). rewrite (nth_error_nth _ _ _ P2).
  destruct (avg_loop_gen a' nf gap ng 0 Hnf) as (ps' & P1' & _ & PV); [lia|].
  rewrite P1 in P1'; injection P1' as <-.
  rewrite PV by exact Hj. cbv zeta. rewrite (nth_error_nth _ _ _ Eb).
  rewrite A2. cbn [plus].
  assert (X : map (fun t => nth (j * (nf + gap) + t) a' (fun _ _ => fzero fo) r c) (seq 0 (Nat.min nf (ng' - j * (nf + gap)))) =
              map (fun t => clean fo (dark_value fo b (j * (nf + gap) + t) r c)) (seq 0 (Nat.min nf (ng' - j * (nf + gap))))).
  { apply map_ext_in. intros t Ht. apply in_seq in Ht. apply A3. lia. }
  rewrite X. reflexivity.
Qed.

Lemma averaged_ok s d dng : wf_dark d dng -> enough_to_extrapolate s d dng ->
  d_nframes fo d <= c_nframes fo s -> d_groupgap fo d <= c_groupgap fo s ->
  ~ (c_nframes fo s = d_nframes fo d /\ c_groupgap fo s = d_groupgap fo d) ->
  (* enough dark planes, counted as planes *)
  (d_nframes fo d = 1 /\ d_groupgap fo d = 0 \/
   (total_frames (c_ngroups fo s) (c_nframes fo s) (c_groupgap fo s) <= Z.of_nat dng)%Z) ->
  exists o, do_correction_data fo fmean s d = Some o /\ o_status fo o = COMPLETE /\
    o_cgdq fo o = c_gdq fo s /\
    (forall i j r c, i < c_nints fo s -> j < c_ngroups fo s ->
      let k := int_for (d_is4d fo d) (length (d_data fo d)) (c_intstart fo s) i in
      (k < c_nints fo s \/ d_is4d fo d = false) ->
      let vals := map (fun t => clean fo (dark_value fo (nth k (d_data fo d) [])
                          (j * (c_nframes fo s + c_groupgap fo s) + t) r c)) (seq 0 (c_nframes fo s)) in
      o_data fo o i j r c =
      fsub fo (c_data fo s i j r c) (if Nat.eqb (c_nframes fo s) 1 then hd (fzero fo) vals else fmean vals)).
Proof.
  intros W H2 Hf Hg Hne Hen.
  destruct (extended_ok s d dng W H2) as (_ & ng' & _ & _ & Epl & Hng & Htf & _).
  set (P := planes _ _ _ _) in Epl.
  assert (W4 : 1 <= d_nframes fo d) by apply W.
  assert (Hpl : (total_frames (c_ngroups fo s) (c_nframes fo s) (c_groupgap fo s) <= Z.of_nat P)%Z).
  { rewrite <- Epl. destruct Hen as [[D1 D2]|D]; [|lia]. rewrite D1, D2 in Htf. unfold total_frames in *. lia. }
  assert (Hpl' : forall j, j < c_ngroups fo s -> j * (c_nframes fo s + c_groupgap fo s) + c_nframes fo s <= P).
  { intros j Hj. unfold total_frames in Hpl. nia. }
  destruct (averaged_gen s d dng W H2 Hf Hg Hne) as (o & O1 & O2 & O3 & O4).
  { fold P. right. destruct (c_ngroups fo s) as [|n] eqn:En; [left; reflexivity|right].
    specialize (Hpl' (S n - 1) ltac:(lia)). lia. }
  exists o. split; [exact O1|]. split; [exact O2|]. split; [exact O3|].
  intros i j r c Hi Hj. cbv zeta. intro Hk. specialize (O4 i j r c Hi Hj Hk). rewrite O4. fold P.
  rewrite Nat.min_l by (specialize (Hpl' j Hj); lia). reflexivity.
Qed.

(** single frames and too few planes: exception *)
Lemma averaged_raises s d dng : wf_dark d dng -> enough_to_extrapolate s d dng ->
  d_groupgap fo d < c_groupgap fo s -> d_nframes fo d = 1 -> c_nframes fo s = 1 ->
  1 <= c_ngroups fo s -> 1 <= c_nints fo s ->
  planes (total_frames (c_ngroups fo s) 1 (c_groupgap fo s)) dng 1 (d_groupgap fo d)
     <= (c_ngroups fo s - 1) * (1 + c_groupgap fo s) ->
  do_correction_data fo fmean s d = None.
Proof.
  intros W H2 Hg D1 S1 Hng1 Hni Hpl. destruct (extended_ok s d dng W H2) as (data & ng' & E & L & Epl & Hng & Htf & V).
  unfold do_correction_data. rewrite E; cbn [bind]. rewrite S1, D1 in *.
  replace (Nat.ltb 1 1 || Nat.ltb (c_groupgap fo s) (d_groupgap fo d))%bool with false by lia.
  replace (Nat.eqb 1 1 && Nat.eqb (c_groupgap fo s) (d_groupgap fo d))%bool with false by lia.
  destruct W as (W1 & W2 & W3 & W4).
  destruct (d_data fo d) as [|a l] eqn:Ed; [congruence|]. 
  destruct (V 0 a eq_refl) as (a' & A1 & A2 & _).
  destruct data as [|x data]; [discriminate A1|]. injection A1 as ->.
  unfold average_dark. cbn [map].
  set (num := if d_is4d fo d then _ else _).
  assert (N1 : 1 <= num) by (unfold num; cbn [length]; destruct (d_is4d fo d); lia).
  destruct num as [|num]; [lia|]. cbn [firstn mapM]. rewrite S1.
  rewrite avg_loop_short; [reflexivity|exact Hng1|]. rewrite map_length. lia.
Qed.
End P.
