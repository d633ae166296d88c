From Verif Require Import Base BaseLemmas LinModel LinSpec.
From Coq Require Import ZifyBool ZifyNat ZifyN.

Section P.
Context (fo : FOps).
Notation coeffs := (list (img fo)).

(** ** Horner *)
Lemma poly_fold (cs : list fo) (x : fo) : forall m, m <= length cs - 1 -> 2 <= length cs ->
  fold_left (fun acc j => fmul fo (fadd fo acc (nth j cs (fzero fo))) x) (rev (seq (length cs - 1 - m) m))
            (fmul fo (nth (length cs - 1) cs (fzero fo)) x)
  = fmul fo (horner fo (skipn (length cs - 1 - m) cs) x) x.
Proof.
  assert (SK : forall k, k < length cs -> skipn k cs = nth k cs (fzero fo) :: skipn (S k) cs).
  { clear. induction cs as [|a l IH]; intros [|k] H; cbn in *; try lia; [reflexivity|]. apply IH; lia. }
  induction m as [|m IH]; intros Hm H2.
  - cbn [seq rev fold_left]. rewrite Nat.sub_0_r, (SK (length cs - 1)) by lia.
    rewrite skipn_all2 by lia. reflexivity.
  - cbn [seq rev]. rewrite fold_left_app. cbn [fold_left].
    replace (S (length cs - 1 - S m)) with (length cs - 1 - m) by lia.
    rewrite IH by lia. rewrite (SK (length cs - 1 - S m)) by lia.
    replace (S (length cs - 1 - S m)) with (length cs - 1 - m) by lia.
    cbn [horner]. destruct (skipn (length cs - 1 - m) cs) as [|b l] eqn:E; [|reflexivity].
    apply (f_equal (@length _)) in E. rewrite skipn_length in E. cbn in E. lia.
Qed.

Lemma poly_horner (cs : list fo) x : 2 <= length cs -> poly fo cs x = horner fo cs x.
Proof.
  intro H. unfold poly. replace (seq 1 (length cs - 2)) with (seq (length cs - 1 - (length cs - 2)) (length cs - 2)).
  2: { f_equal. lia. }
  rewrite poly_fold by lia. replace (length cs - 1 - (length cs - 2)) with 1 by lia.
  destruct cs as [|a [|b l]]; cbn in H; try lia. reflexivity.
Qed.

(** ** Coefficient preparation *)
Lemma ben_length n : length (ben fo n) = n.
Proof. unfold ben. rewrite map_length, seq_length. reflexivity. Qed.
Lemma ben_nth n k : k < n -> nth k (ben fo n) (fzero fo) = if Nat.eqb k 1 then fone fo else fzero fo.
Proof. intro H. unfold ben.
  set (f := fun k => _). rewrite (nth_indep _ _ (f 0)) by (rewrite map_length, seq_length; exact H).
  rewrite map_nth, seq_nth by exact H. reflexivity. Qed.

Lemma set_ben_length sel (cs : coeffs) : length (set_ben fo sel cs) = length cs.
Proof. unfold set_ben. rewrite map_length, combine_length, seq_length. lia. Qed.

Lemma at_pix_length (cs : coeffs) r c : length (at_pix fo cs r c) = length cs.
Proof. apply map_length. Qed.

Lemma nth_combine_seq {X} (l : list X) : forall a k d, k < length l ->
  nth_error (combine (seq a (length l)) l) k = Some (a + k, nth k l d).
Proof. induction l as [|x l IH]; intros a k d H; cbn in *; [lia|].
  destruct k as [|k]; cbn; [rewrite Nat.add_0_r; reflexivity|].
  rewrite (IH (S a) k d) by lia. f_equal. f_equal. lia. Qed.

Lemma at_set_ben sel (cs : coeffs) r c :
  at_pix fo (set_ben fo sel cs) r c = if sel r c then ben fo (length cs) else at_pix fo cs r c.
Proof.
  apply nth_ext with (d := fzero fo) (d' := fzero fo).
  - rewrite at_pix_length, set_ben_length. destruct (sel r c); [rewrite ben_length|rewrite at_pix_length]; reflexivity.
  - intros k Hk. rewrite at_pix_length, set_ben_length in Hk.
    unfold at_pix, set_ben.
    assert (E : forall (l : list (img fo)) k p, nth_error l k = Some p -> nth k (map (fun p => p r c) l) (fzero fo) = p r c).
    { intros l k0 p Hp. apply nth_error_nth. apply (map_nth_error (fun p : img fo => p r c) _ _ Hp). }
    erewrite E.
    2: { apply map_nth_error. apply (nth_combine_seq cs 0 k (fun _ _ => fzero fo) Hk). }
    cbn [fst snd plus]. destruct (sel r c); [reflexivity|].
    symmetry. apply E. apply nth_error_nth'. exact Hk.
Qed.

Lemma all_pixels_spec nr nc f : all_pixels nr nc f = true <-> forall r c, r < nr -> c < nc -> f r c = true.
Proof. unfold all_pixels. rewrite forallb_forall. split.
  - intros H r c Hr Hc. specialize (H r). rewrite forallb_forall in H. apply H; apply in_seq; lia.
  - intros H r Hr. apply forallb_forall. intros c Hc. apply in_seq in Hr, Hc. apply H; lia. Qed.

(** what becomes of pixel (r,c) *)
Definition flagged (nlc w : N) : bool := negb (N.eqb (N.land w nlc) 0).
Definition bad_pix (nlc : N) (cs : list fo) (w : N) : bool :=
  flagged nlc w || existsb (fisnan fo) cs || feq fo (nth 1 cs (fzero fo)) (fzero fo).
(** the reference never carries only part of a multi-bit NO_LIN_CORR *)
Definition whole_flag (nr nc : nat) (nlc : N) (lin_dq : img N) : Prop :=
  forall r c, r < nr -> c < nc -> N.land (lin_dq r c) nlc = 0%N \/ N.land (lin_dq r c) nlc = nlc.

Lemma prepare_ok nr nc nlc (cs : coeffs) lin_dq pdq : 2 <= length cs -> whole_flag nr nc nlc lin_dq ->
  exists cs' p', prepare fo nr nc nlc cs lin_dq pdq = Some (cs', p') /\ length cs' = length cs /\
   forall r c, r < nr -> c < nc ->
     at_pix fo cs' r c = (if bad_pix nlc (at_pix fo cs r c) (lin_dq r c) then ben fo (length cs) else at_pix fo cs r c) /\
     p' r c = N.lor (N.lor (pdq r c) (lin_dq r c)) (flag_if (bad_pix nlc (at_pix fo cs r c) (lin_dq r c)) nlc).
Proof.
  intros H2 WF. unfold prepare.
  (* step 1 *)
  assert (S1 : exists cs1, correct_for_flag fo nr nc nlc cs lin_dq = Some cs1 /\ length cs1 = length cs /\
     forall r c, r < nr -> c < nc -> at_pix fo cs1 r c = if flagged nlc (lin_dq r c) then ben fo (length cs) else at_pix fo cs r c).
  { unfold correct_for_flag. 
    destruct (all_pixels nr nc (fun r c => N.eqb (N.land (lin_dq r c) nlc) 0)) eqn:E1.
    - exists cs. split; [reflexivity|]. split; [reflexivity|]. intros r c Hr Hc.
      pose proof (proj1 (all_pixels_spec _ _ _) E1 r c Hr Hc) as E. cbv beta in E. unfold flagged. rewrite E. reflexivity.
    - destruct (Nat.ltb_spec (length cs) 2); [lia|].
      destruct (all_pixels nr nc (fun r c => N.eqb (N.land (lin_dq r c) nlc) 0 || N.eqb (N.land (lin_dq r c) nlc) nlc)) eqn:E2.
      + eexists; split; [reflexivity|]. split; [apply set_ben_length|]. intros r c Hr Hc. rewrite at_set_ben.
        unfold flagged. destruct (WF r c Hr Hc) as [W|W]; rewrite W.
        * rewrite N.eqb_refl; cbn [negb].
          destruct (N.eqb_spec 0 nlc) as [Z|Z]; [|reflexivity].
          exfalso. assert (all_pixels nr nc (fun r c => N.eqb (N.land (lin_dq r c) nlc) 0) = true); [|congruence].
          apply all_pixels_spec. intros. rewrite <- Z, N.land_0_r. reflexivity.
        * rewrite N.eqb_refl. destruct (N.eqb_spec nlc 0) as [Z|Z]; [|reflexivity].
          exfalso. assert (all_pixels nr nc (fun r c => N.eqb (N.land (lin_dq r c) nlc) 0) = true); [|congruence].
          apply all_pixels_spec. intros. rewrite Z, N.land_0_r. reflexivity.
      + exfalso. assert (X : all_pixels nr nc (fun r c => N.eqb (N.land (lin_dq r c) nlc) 0 || N.eqb (N.land (lin_dq r c) nlc) nlc)%bool = true); [|congruence].
        apply all_pixels_spec. intros r c Hr Hc. destruct (WF r c Hr Hc) as [W|W]; rewrite W, N.eqb_refl; [reflexivity|apply orb_true_r]. }
  destruct S1 as (cs1 & -> & L1 & V1). cbn [bind].
  set (p1 := fun r c => N.lor (pdq r c) (lin_dq r c)).
  assert (S2 : exists cs2 p2, correct_for_nan fo nr nc nlc cs1 p1 = Some (cs2, p2) /\ length cs2 = length cs /\
     forall r c, r < nr -> c < nc ->
       at_pix fo cs2 r c = (if nan_at fo cs1 r c then ben fo (length cs) else at_pix fo cs1 r c) /\
       p2 r c = N.lor (p1 r c) (flag_if (nan_at fo cs1 r c) nlc)).
  { unfold correct_for_nan. destruct (all_pixels nr nc (fun r c => negb (nan_at fo cs1 r c))) eqn:E1.
    - exists cs1, p1. split; [reflexivity|]. split; [exact L1|]. intros r c Hr Hc.
      pose proof (proj1 (all_pixels_spec _ _ _) E1 r c Hr Hc) as E. cbv beta in E. apply negb_true_iff in E. rewrite E.
      cbn. rewrite N.lor_0_r. split; reflexivity.
    - destruct (Nat.ltb_spec (length cs1) 2); [lia|]. do 2 eexists; split; [reflexivity|].
      split; [rewrite set_ben_length; exact L1|]. intros r c Hr Hc. rewrite at_set_ben, L1. split; reflexivity. }
  destruct S2 as (cs2 & p2 & -> & L2 & V2). cbn [bind].
  unfold correct_for_zero. destruct (Nat.ltb_spec (length cs2) 2); [lia|].
  do 2 eexists; split; [reflexivity|]. split; [rewrite set_ben_length; exact L2|].
  intros r c Hr Hc. rewrite at_set_ben, L2. destruct (V2 r c Hr Hc) as [-> ->].
  unfold zero_at. rewrite (proj1 (V2 r c Hr Hc)). unfold nan_at at 1 2 3 4. rewrite (V1 r c Hr Hc).
  unfold bad_pix. subst p1; cbv beta.
  assert (FL : forall w, flagged nlc w = true -> w = lin_dq r c -> N.lor (N.lor (pdq r c) w) nlc = N.lor (pdq r c) w).
  { intros w F ->. unfold flagged in F. destruct (WF r c Hr Hc) as [W|W]; [rewrite W in F; discriminate|].
    rewrite <- W at 1. apply N.bits_inj. intro b. rewrite !N.lor_spec, N.land_spec.
    destruct (N.testbit (pdq r c) b), (N.testbit (lin_dq r c) b); cbn; try reflexivity. }
  destruct (flagged nlc (lin_dq r c)) eqn:EF; cbn [orb].
  - specialize (FL _ EF eq_refl). cbn [flag_if]. split.
    + destruct (existsb (fisnan fo) (ben fo (length cs))); destruct (feq fo _ _); reflexivity.
    + destruct (existsb (fisnan fo) (ben fo (length cs))); destruct (feq fo _ _); cbn [flag_if];
        rewrite ?N.lor_0_r, ?FL; reflexivity.
  - destruct (existsb (fisnan fo) (at_pix fo cs r c)) eqn:EN; cbn [orb flag_if].
    + split; [destruct (feq fo _ _); reflexivity|]. destruct (feq fo _ _); cbn [flag_if]; rewrite ?N.lor_0_r; [|reflexivity].
      rewrite <- N.lor_assoc, N.lor_diag. reflexivity.
    + rewrite N.lor_0_r. split; reflexivity.
Qed.

Lemma prepare_short nr nc nlc (cs : coeffs) lin_dq pdq : length cs < 2 -> prepare fo nr nc nlc cs lin_dq pdq = None.
Proof.
  intro H. unfold prepare, correct_for_flag. replace (Nat.ltb (length cs) 2) with true by lia.
  destruct (all_pixels nr nc _); [|reflexivity]. cbn [bind].
  unfold correct_for_nan. replace (Nat.ltb (length cs) 2) with true by lia.
  destruct (all_pixels nr nc _); [|reflexivity]. cbn [bind].
  unfold correct_for_zero. replace (Nat.ltb (length cs) 2) with true by lia. reflexivity.
Qed.

Lemma prepare_partial_flag nr nc nlc (cs : coeffs) lin_dq pdq : ~ whole_flag nr nc nlc lin_dq ->
  prepare fo nr nc nlc cs lin_dq pdq = None.
Proof.
  intro H. unfold prepare, correct_for_flag.
  destruct (all_pixels nr nc (fun r c => N.eqb (N.land (lin_dq r c) nlc) 0)) eqn:E1.
  { exfalso. apply H. intros r c Hr Hc. left. apply N.eqb_eq. apply (proj1 (all_pixels_spec _ _ _) E1 r c Hr Hc). }
  destruct (Nat.ltb (length cs) 2); [reflexivity|].
  destruct (all_pixels nr nc (fun r c => N.eqb (N.land (lin_dq r c) nlc) 0 || N.eqb (N.land (lin_dq r c) nlc) nlc)) eqn:E2; [|reflexivity].
  exfalso. apply H. intros r c Hr Hc. pose proof (proj1 (all_pixels_spec _ _ _) E2 r c Hr Hc) as E. cbv beta in E.
  apply orb_true_iff in E. rewrite !N.eqb_eq in E. exact E.
Qed.

Lemma bad_pix_unusable nlc (cs : list fo) w : 2 <= length cs ->
  (bad_pix nlc cs w = true <-> unusable fo cs w nlc).
Proof.
  intro H. unfold bad_pix, unusable, flagged. rewrite !orb_true_iff, negb_true_iff, N.eqb_neq, existsb_exists.
  destruct (nth_error cs 1) as [a|] eqn:E; [|apply nth_error_None in E; lia].
  rewrite (nth_error_nth _ _ _ E). split.
  - intros [[X|X]|X]; [left; exact X|right; left; exact X|right; right; exists a; auto].
  - intros [X|[X|(b & [= <-] & X)]]; [left; left; exact X|left; right; exact X|right; exact X].
Qed.
End P.

(** ** Tiling *)
Section Tiles.
Context (fo : FOps) (fmean : list fo -> fo) (ac : option (nat -> nat -> nat -> cube fo -> cube fo))
        (satval : option (img fo)) (f12 : fo) (fmin : fo -> fo -> fo) (read_pattern : list (list Z)).
Notation coeffs := (list (img fo)).
Notation tile := (tile fo fmean ac f12 fmin read_pattern).
Notation tiles := (tiles fo fmean ac satval f12 fmin read_pattern).

(** The additional correction treats each row on its own, wherever it sits in the array. *)
Definition row_local (f : nat -> nat -> nat -> cube fo -> cube fo) : Prop :=
  forall n nr nr' nc s s' k r r' c, k < n -> r < nr -> r' < nr' -> c < nc ->
    (forall k c, k < n -> c < nc -> s k r c = s' k r' c) ->
    f n nr nc s k r c = f n nr' nc s' k r' c.

Lemma tile_row sat ng nr nr' nc (cs ics cs' ics' : coeffs) sv sv' (d d' : cube fo) (q q' : cube N) r r' :
  (forall f, ac = Some f -> row_local f) -> r < nr -> r' < nr' ->
  (forall c, at_pix fo cs r c = at_pix fo cs' r' c) -> (forall c, at_pix fo ics r c = at_pix fo ics' r' c) ->
  (match sv, sv' with None, None => True | Some v, Some v' => forall c, v r c = v' r' c | _, _ => False end) ->
  (forall g c, d g r c = d' g r' c) -> (forall g c, q g r c = q' g r' c) ->
  forall i c, c < nc -> tile sat ng nr nc cs ics sv d q i r c = tile sat ng nr' nc cs' ics' sv' d' q' i r' c.
Proof.
  intros RL Hr Hr' E1 E2 E3 E4 E5 i c Hc. unfold LinModel.tile. rewrite E5, E4, E1.
  destruct (has (q' i r' c) sat); [reflexivity|]. f_equal. apply map_ext_in. intros k Hk. apply in_seq in Hk.
  f_equal.
  assert (G : forall k c0, k < length (nth i read_pattern []) ->
     reads_unlin fo fmean read_pattern sat ng (at_pix fo cs r c0) (at_pix fo ics r c0) (fun g => d g r c0) (fun g => q g r c0) i =
     reads_unlin fo fmean read_pattern sat ng (at_pix fo cs' r' c0) (at_pix fo ics' r' c0) (fun g => d' g r' c0) (fun g => q' g r' c0) i).
  { intros k0 c0 _. unfold reads_unlin, count_rate, first_lin, last_valid, n_unsat. rewrite E1, E2, !E4, !E5.
    assert (EF : filter (fun g => negb (has (q g r c0) sat)) (seq 0 ng) = filter (fun g => negb (has (q' g r' c0) sat)) (seq 0 ng)).
    { apply filter_ext. intro g. rewrite E5. reflexivity. }
    rewrite EF. reflexivity. }
  set (st := fun k r c => nth k (reads_unlin fo fmean read_pattern sat ng (at_pix fo cs r c) (at_pix fo ics r c) (fun g => d g r c) (fun g => q g r c) i) (fzero fo)).
  set (st' := fun k r c => nth k (reads_unlin fo fmean read_pattern sat ng (at_pix fo cs' r c) (at_pix fo ics' r c) (fun g => d' g r c) (fun g => q' g r c) i) (fzero fo)).
  assert (ST : forall k c, k < length (nth i read_pattern []) -> c < nc -> st k r c = st' k r' c).
  { intros k0 c0 H0 _. unfold st, st'. rewrite (G k0 c0 H0). reflexivity. }
  assert (S1 : (match ac with None => st | Some f => fun k r c => fadd fo (st k r c) (f (length (nth i read_pattern [])) nr nc st k r c) end) k r c
    = (match ac with None => st' | Some f => fun k r c => fadd fo (st' k r c) (f (length (nth i read_pattern [])) nr' nc st' k r c) end) k r' c).
  { destruct ac as [f|] eqn:Eac; [|apply ST; lia].
    rewrite (ST k c) by lia. f_equal. apply (RL f eq_refl); try lia. exact ST. }
  destruct sv as [v|], sv' as [v'|]; try contradiction; [rewrite E3; f_equal; exact S1|exact S1].
Qed.

Lemma at_rows_from (cs : coeffs) r0 r c : at_pix fo (map (rows_from r0) cs) r c = at_pix fo cs (r0 + r) c.
Proof. unfold at_pix. rewrite map_map. reflexivity. Qed.

Lemma tiles_ok sat ng nr nc th (cs ics : coeffs) (d0 : cube fo) gdq :
  (forall f, ac = Some f -> row_local f) -> 1 <= th ->
  forall fuel r0 d, nr - r0 <= fuel -> (forall g r c, r0 <= r -> d g r c = d0 g r c) ->
  forall g r c, c < nc ->
   tiles fuel sat ng nr nc th r0 cs ics d gdq g r c =
   if Nat.leb r0 r && Nat.ltb r nr then tile sat ng nr nc cs ics satval d0 gdq g r c else d g r c.
Proof.
  intros RL Hth. induction fuel as [|fuel IH]; intros r0 d Hfuel Hd g r c Hc; cbn [LinModel.tiles].
  - replace (Nat.leb r0 r && Nat.ltb r nr)%bool with false by lia. reflexivity.
  - destruct (Nat.leb_spec nr r0).
    + replace (Nat.leb r0 r && Nat.ltb r nr)%bool with false by lia. reflexivity.
    + rewrite IH; [|lia| |exact Hc].
      2: { intros g0 r1 c0 Hr1. replace (Nat.leb r0 r1 && Nat.ltb r1 (Nat.min (r0 + th) nr))%bool with false by lia.
           apply Hd; lia. }
      destruct (Nat.leb_spec (r0 + th) r) as [Ha|Ha]; cbn [andb].
      * destruct (Nat.ltb_spec r nr) as [Hb|Hb].
        -- replace (Nat.leb r0 r && true)%bool with true by lia. reflexivity.
        -- rewrite andb_false_r. replace (Nat.leb r0 r && Nat.ltb r (Nat.min (r0 + th) nr))%bool with false by lia. reflexivity.
      * destruct (Nat.leb_spec r0 r) as [Hb|Hb]; cbn [andb]; [|reflexivity].
        destruct (Nat.ltb_spec r nr) as [Hd'|Hd'].
        -- replace (Nat.ltb r (Nat.min (r0 + th) nr)) with true by lia.
           apply tile_row; try exact RL; try lia; try exact Hc.
           ++ intro c0. rewrite at_rows_from. f_equal; lia.
           ++ intro c0. rewrite at_rows_from. f_equal; lia.
           ++ destruct satval; [|exact I]. intro c0. unfold rows_from. f_equal; lia.
           ++ intros g0 c0. unfold rows_from. replace (r0 + (r - r0)) with r by lia. apply Hd; lia.
           ++ intros g0 c0. unfold rows_from. replace (r0 + (r - r0)) with r by lia. reflexivity.
        -- replace (Nat.ltb r (Nat.min (r0 + th) nr)) with false by lia. reflexivity.
Qed.
End Tiles.

(** ** Whole step *)
Lemma all_ints_spec (fo : FOps) f n d d' : all_ints fo f n d = Some d' ->
  forall i, if Nat.ltb i n then f i = Some (d' i) else d' i = d i.
Proof.
  revert d'; induction n as [|n IH]; intros d'; cbn [all_ints].
  - intros [= <-] i. reflexivity.
  - intro E. apply bind_Some in E. destruct E as (d1 & E1 & E). apply bind_Some in E. destruct E as (x & Ex & [= <-]).
    intro i. specialize (IH d1 E1 i). unfold upd. destruct (Nat.eqb_spec i n) as [->|Hn].
    + replace (Nat.ltb n (S n)) with true by lia. exact Ex.
    + destruct (Nat.ltb_spec i n); [replace (Nat.ltb i (S n)) with true by lia|replace (Nat.ltb i (S n)) with false by lia]; exact IH.
Qed.
Lemma all_ints_total (fo : FOps) f n d : (forall i, i < n -> exists x, f i = Some x) -> exists d', all_ints fo f n d = Some d'.
Proof. induction n as [|n IH]; intro H; cbn [all_ints]; [eauto|].
  destruct IH as [d1 ->]; [intros; apply H; lia|]. cbn [bind]. destruct (H n ltac:(lia)) as [x ->]. cbn; eauto. Qed.
