(** C09-C11: dark subtraction *)
From Verif Require Import Base BaseLemmas DarkModel DarkSpec DarkProofs.
From Coq Require Import ZifyBool ZifyNat ZifyN.

(** ** C09 *)
(** Matching readout: group j of integration i is science minus the NaN-cleaned dark group j
    of the right dark integration (linearly continued if the science ramp is longer). *)
Theorem C09_direct_subtraction : forall fo fmean (s : science fo) (d : dark fo) dng,
  wf_dark fo d dng -> enough_to_extrapolate fo s d dng ->
  c_nframes fo s = d_nframes fo d -> c_groupgap fo s = d_groupgap fo d ->
  exists o, do_correction_data fo fmean s d = Some o /\ o_status fo o = COMPLETE /\
    o_cgdq fo o = c_gdq fo s /\
    (forall i j r c, i < c_nints fo s -> j < c_ngroups fo s ->
      o_data fo o i j r c =
      fsub fo (c_data fo s i j r c)
        (clean fo (dark_value fo
           (nth (int_for (d_is4d fo d) (length (d_data fo d)) (c_intstart fo s) i) (d_data fo d) []) j r c))).
Proof. exact direct_ok. Qed.
Print Assumptions C09_direct_subtraction.

(** A one-group dark cannot be extended: the call raises when the science ramp is longer. *)
Theorem C09_one_group_dark_raises : forall fo fmean (s : science fo) (d : dark fo),
  wf_dark fo d 1 ->
  (total_frames 1 (d_nframes fo d) (d_groupgap fo d) <
   total_frames (c_ngroups fo s) (c_nframes fo s) (c_groupgap fo s))%Z ->
  do_correction_data fo fmean s d = None.
Proof.
  intros fo fmean s d W H. pose proof (wf_ngroups fo d 1 W) as Hng.
  unfold do_correction_data, extended_dark. rewrite Hng.
  destruct (Z.ltb_spec (total_frames 1 (d_nframes fo d) (d_groupgap fo d))
      (total_frames (c_ngroups fo s) (c_nframes fo s) (c_groupgap fo s))) as [_|]; [|lia].
  destruct W as (W1 & W2 & _ & _).
  destruct (Z.eqb _ 0); [reflexivity|].
  destruct (d_data fo d) as [|a l] eqn:E; [congruence|]. cbn [mapM].
  rewrite extrapolate_short by (rewrite (W1 a (or_introl eq_refl)); lia). reflexivity.
Qed.
Print Assumptions C09_one_group_dark_raises.

(** ** C10 *)
(** Finer dark: group j is corrected with the mean of the c_nframes dark planes starting at
    plane j * (nframes + groupgap).  Needed: the dark is made of single frames
    (nframes = 1, groupgap = 0), or happens to hold enough planes anyway; and the dark
    integration used is one of those averaged (index below the science integration count). *)
Theorem C10_averaged_dark : forall fo fmean (s : science fo) (d : dark fo) dng,
  wf_dark fo d dng -> enough_to_extrapolate fo s d dng ->
  d_nframes fo d <= c_nframes fo s -> d_groupgap fo d <= c_groupgap fo s ->
  ~ (c_nframes fo s = d_nframes fo d /\ c_groupgap fo s = d_groupgap fo d) ->
  (d_nframes fo d = 1 /\ d_groupgap fo d = 0 \/
   (total_frames (c_ngroups fo s) (c_nframes fo s) (c_groupgap fo s) <= Z.of_nat dng)%Z) ->
  exists o, do_correction_data fo fmean s d = Some o /\ o_status fo o = COMPLETE /\
    o_cgdq fo o = c_gdq fo s /\
    (forall i j r c, i < c_nints fo s -> j < c_ngroups fo s ->
      let k := int_for (d_is4d fo d) (length (d_data fo d)) (c_intstart fo s) i in
      (k < c_nints fo s \/ d_is4d fo d = false) ->
      let vals := map (fun t => clean fo (dark_value fo (nth k (d_data fo d) [])
                          (j * (c_nframes fo s + c_groupgap fo s) + t) r c)) (seq 0 (c_nframes fo s)) in
      o_data fo o i j r c =
      fsub fo (c_data fo s i j r c) (if Nat.eqb (c_nframes fo s) 1 then hd (fzero fo) vals else fmean vals)).
Proof. exact averaged_ok. Qed.
Print Assumptions C10_averaged_dark.

(** Without assuming enough planes (two or more frames per group): the call still completes,
    and group j is corrected with the mean of the planes that exist in its window.  The window
    is complete, i.e. the mean is over nframes planes, exactly when
    j * (nframes + groupgap) + nframes <= P. *)
Theorem C10_mean_of_available : forall fo fmean (s : science fo) (d : dark fo) dng,
  wf_dark fo d dng -> enough_to_extrapolate fo s d dng ->
  d_nframes fo d <= c_nframes fo s -> d_groupgap fo d <= c_groupgap fo s ->
  ~ (c_nframes fo s = d_nframes fo d /\ c_groupgap fo s = d_groupgap fo d) ->
  2 <= c_nframes fo s ->
  let P := planes (frames_spanned (c_ngroups fo s) (c_nframes fo s) (c_groupgap fo s)) dng
                  (d_nframes fo d) (d_groupgap fo d) in
  exists o, do_correction_data fo fmean s d = Some o /\ o_status fo o = COMPLETE /\
    (forall i j r c, i < c_nints fo s -> j < c_ngroups fo s ->
      let k := int_for (d_is4d fo d) (length (d_data fo d)) (c_intstart fo s) i in
      (k < c_nints fo s \/ d_is4d fo d = false) ->
      let start := j * (c_nframes fo s + c_groupgap fo s) in
      exists vals, o_data fo o i j r c = fsub fo (c_data fo s i j r c) (fmean vals) /\
        vals = map (fun t => clean fo (dark_value fo (nth k (d_data fo d) []) (start + t) r c))
                   (seq 0 (length vals)) /\
        length vals <= c_nframes fo s /\
        (length vals = c_nframes fo s <-> start + c_nframes fo s <= P) /\
        (length vals = 0 <-> P <= start)).
Proof.
  intros fo fmean s d dng W H2 Hf Hg Hne Hnf P.
  destruct (averaged_gen fo fmean s d dng W H2 Hf Hg Hne) as (o & O1 & O2 & _ & O4); [left; lia|].
  exists o. split; [exact O1|]. split; [exact O2|].
  intros i j r c Hi Hj k Hk start. specialize (O4 i j r c Hi Hj Hk). cbv zeta in O4. rewrite O4.
  destruct (Nat.eqb_spec (c_nframes fo s) 1); [lia|].
  eexists. split; [reflexivity|]. rewrite map_length, seq_length.
  change (planes (total_frames (c_ngroups fo s) (c_nframes fo s) (c_groupgap fo s)) dng
     (d_nframes fo d) (d_groupgap fo d)) with P.
  fold start. split; [reflexivity|]. lia.
Qed.
Print Assumptions C10_mean_of_available.

(** One frame per group: the call succeeds exactly when every window starts inside the dark. *)
Theorem C10_single_frame_exactly : forall fo fmean (s : science fo) (d : dark fo) dng,
  wf_dark fo d dng -> enough_to_extrapolate fo s d dng ->
  d_nframes fo d = 1 -> c_nframes fo s = 1 -> d_groupgap fo d < c_groupgap fo s ->
  1 <= c_ngroups fo s -> 1 <= c_nints fo s ->
  (do_correction_data fo fmean s d <> None <->
   forall j, j < c_ngroups fo s ->
     j * (1 + c_groupgap fo s) <
     planes (frames_spanned (c_ngroups fo s) 1 (c_groupgap fo s)) dng 1 (d_groupgap fo d)).
Proof.
  intros fo fmean s d dng W H2 D1 S1 Hg Hn Hi.
  set (P := planes _ _ _ _). split.
  - intros H j Hj. destruct (le_lt_dec P ((c_ngroups fo s - 1) * (1 + c_groupgap fo s))) as [Hs|Hs].
    + exfalso. apply H. apply (averaged_raises fo fmean s d dng); assumption.
    + assert (j * (1 + c_groupgap fo s) <= (c_ngroups fo s - 1) * (1 + c_groupgap fo s))
        by (apply Nat.mul_le_mono_r; lia). lia.
  - intro H. specialize (H (c_ngroups fo s - 1) ltac:(lia)).
    destruct (averaged_gen fo fmean s d dng W H2) as (o & O1 & _); [lia|lia|lia| |rewrite O1; discriminate].
    right; right. rewrite S1, D1.
    change (planes _ dng 1 _) with P. lia.
Qed.
Print Assumptions C10_single_frame_exactly.

(** ** C11 *)
Theorem C11_skip_and_dq : forall fo fmean (s : science fo) (d : dark fo) o,
  do_correction_data fo fmean s d = Some o ->
  o_cgdq fo o = c_gdq fo s /\
  (c_nframes fo s < d_nframes fo d \/ c_groupgap fo s < d_groupgap fo d ->
     o_status fo o = SKIPPED /\ o_data fo o = c_data fo s /\ o_cpdq fo o = c_pdq fo s) /\
  (d_nframes fo d <= c_nframes fo s -> d_groupgap fo d <= c_groupgap fo s ->
     o_status fo o = COMPLETE /\
     forall r c b, N.testbit (o_cpdq fo o r c) b = true <->
       N.testbit (c_pdq fo s r c) b = true \/
       exists p, In p (d_dq fo d) /\ N.testbit (p r c) b = true).
Proof.
  intros fo fmean s d o E. unfold do_correction_data in E.
  apply bind_Some in E. destruct E as (data & _ & E).
  assert (OR : forall (l : list (img N)) r c b, N.testbit (or_planes l r c) b = true <->
             exists p, In p l /\ N.testbit (p r c) b = true).
  { intros l r c b. unfold or_planes. destruct l as [|p l]; cbn [hd tl].
    - cbn. split; [discriminate|intros (p & [] & _)].
    - assert (X : forall l w, N.testbit (fold_left (fun w p => N.lor w (p r c)) l w) b = true <->
          N.testbit w b = true \/ exists p : img N, In p l /\ N.testbit (p r c) b = true).
      { induction l0 as [|q l0 IH]; intro w; cbn [fold_left In].
        - split; [tauto|]. intros [H|(x & [] & _)]; exact H.
        - rewrite IH, N.lor_spec, orb_true_iff. split.
          + intros [[H|H]|(x & H1 & H2)]; [tauto|right; exists q; tauto|right; exists x; tauto].
          + intros [H|(x & [->|H1] & H2)]; [tauto|tauto|right; exists x; tauto]. }
      rewrite X. cbn [In]. split.
      + intros [H|(x & H1 & H2)]; [exists p; tauto|exists x; tauto].
      + intros (x & [->|H1] & H2); [tauto|right; exists x; tauto]. }
  assert (SD : forall dt o', subtract_dark fo s d dt = Some o' ->
     o_status fo o' = COMPLETE /\ o_cgdq fo o' = c_gdq fo s /\
     o_cpdq fo o' = fun r c => N.lor (c_pdq fo s r c) (or_planes (d_dq fo d) r c)).
  { intros dt o'. unfold subtract_dark. destruct (subtract_ok fo s d dt); [|discriminate].
    intros [= <-]. repeat split. }
  destruct (Nat.ltb (c_nframes fo s) (d_nframes fo d) || Nat.ltb (c_groupgap fo s) (d_groupgap fo d))%bool eqn:Eb.
  - injection E as <-. cbn. split; [reflexivity|]. split; [tauto|]. intros; lia.
  - assert (F : o_status fo o = COMPLETE /\ o_cgdq fo o = c_gdq fo s /\
      o_cpdq fo o = fun r c => N.lor (c_pdq fo s r c) (or_planes (d_dq fo d) r c)).
    { destruct (Nat.eqb (c_nframes fo s) (d_nframes fo d) && Nat.eqb (c_groupgap fo s) (d_groupgap fo d))%bool.
      - apply (SD _ _ E).
      - apply bind_Some in E. destruct E as (avg & _ & E). apply (SD _ _ E). }
    destruct F as (F1 & F2 & F3). split; [exact F2|]. split; [intros; lia|].
    intros _ _. split; [exact F1|]. intros r c b. rewrite F3, N.lor_spec, orb_true_iff, OR. reflexivity.
Qed.
Print Assumptions C11_skip_and_dq.

(** ** Refutations and instances (IEEE binary32) *)
Section Instances.
Let z (k : Z) : B32 := fofZ B32 k.
Definition dmean (l : list B32) : B32 :=
  fdiv B32 (fold_left (fadd B32) l (fzero B32)) (fofZ B32 (Z.of_nat (length l))).
Definition flat (k : Z) : img B32 := fun _ _ => z k.

Definition exs (nints ngroups nf gap : nat) (st : option nat) : science B32 :=
  {| c_nints := nints; c_ngroups := ngroups; c_data := fun i j _ _ => z (Z.of_nat (100 * (i + 1) + 10 * j));
     c_gdq := fun _ _ _ _ => 0%N; c_pdq := fun _ _ => 4%N; c_nframes := nf; c_groupgap := gap; c_intstart := st |}.
Definition exd4 : dark B32 :=
  {| d_is4d := true; d_data := [[flat 1; flat 2; flat 3]; [flat 5; fun _ _ => fnan B32; flat 7]];
     d_dq := [(fun _ _ => 1%N); (fun _ _ => 2%N)]; d_nframes := 1; d_groupgap := 0 |}.
Let run s d := do_correction_data B32 dmean s d.
Let vals (o : option (dark_out B32)) (ni ng : nat) : list (list (img B32)) :=
  match o with
  | Some x => map (fun i => map (fun j => o_data B32 x i j) (seq 0 ng)) (seq 0 ni)
  | None => [] end.
Let cell (l : list (list (img B32))) := map (map (fun p => p 0 0)) l.

(** direct subtraction, 4 groups against a 3-group dark (extrapolated), third science
    integration reuses the last dark integration *)
Example C09_instance :
  cell (vals (run (exs 3 4 1 0 None) exd4) 3 4) =
  [[z 99; z 108; z 117; z 126]; [z 195; z 210; z 213; z 230]; [z 295; z 310; z 313; z 330]]
  /\ wf_dark B32 exd4 3 /\ enough_to_extrapolate B32 (exs 3 4 1 0 None) exd4 3.
Proof.
  split; [vm_compute; reflexivity|]. split; [|left; lia].
  split; [intros a [<-|[<-|[]]]; reflexivity|]. split; [discriminate|]. split; [discriminate|cbn; lia].
Qed.

(** averaging: science with 2 frames per group and a gap of 1 *)
Example C10_instance :
  cell (vals (run (exs 2 2 2 1 None)
     {| d_is4d := false; d_data := [[flat 1; flat 3; flat 5; flat 7; flat 9]]; d_dq := [fun _ _ => 1%N];
        d_nframes := 1; d_groupgap := 0 |}) 2 2) =
  [[z 98; z 102]; [z 198; z 202]].
Proof. vm_compute. reflexivity. Qed.

(** both hypotheses of the two theorems above are met, on either side of the criterion *)
Definition exd3 (n nf gap : nat) : dark B32 :=
  {| d_is4d := false; d_data := [map (fun k => flat (Z.of_nat k)) (seq 1 n)]; d_dq := [fun _ _ => 1%N];
     d_nframes := nf; d_groupgap := gap |}.
Example C10_exactly_instance :
  (match run (exs 1 2 1 4 None) (exd3 4 1 1) with Some _ => False | None => True end) /\
  planes (frames_spanned 2 1 4) 4 1 1 = 4 /\
  (match run (exs 1 2 1 3 None) (exd3 5 1 1) with Some o => o_data B32 o 0 1 0 0 = z 105 | None => False end) /\
  planes (frames_spanned 2 1 3) 5 1 1 = 5.
Proof. vm_compute. repeat split. Qed.

(** A dark that is itself frame-averaged (nframes = 2) passes the length check but is indexed
    as if it held single frames: the second science group gets the mean of an empty slice. *)
Theorem C10_coarse_dark_refuted : exists (s : science B32) (d : dark B32) o,
  wf_dark B32 d 2 /\
  d_nframes B32 d <= c_nframes B32 s /\ d_groupgap B32 d <= c_groupgap B32 s /\
  do_correction_data B32 dmean s d = Some o /\ o_status B32 o = COMPLETE /\
  c_ngroups B32 s = 2 /\ o_data B32 o 0 1 0 0 = fnan B32.
Proof.
  set (s := exs 1 2 4 0 None).
  set (d := {| d_is4d := false; d_data := [[flat 2; flat 4]]; d_dq := [fun _ _ => 0%N]; d_nframes := 2; d_groupgap := 0 |} : dark B32).
  assert (H : match run s d with Some o => o_status B32 o = COMPLETE /\ o_data B32 o 0 1 0 0 = fnan B32 | None => False end)
    by (vm_compute; split; reflexivity).
  exists s, d. unfold run in H. destruct (do_correction_data B32 dmean s d) as [o|]; [|contradiction].
  exists o. split.
  { split; [intros a [<-|[]]; reflexivity|]. split; [discriminate|]. split; [reflexivity|cbn; lia]. }
  split; [cbn; lia|]. split; [cbn; lia|]. split; [reflexivity|]. split; [apply H|].
  split; [reflexivity|]. apply H.
Qed.
Print Assumptions C10_coarse_dark_refuted.

(** Segmented exposure (integration start not 1), one science integration, two dark
    integrations: the last dark integration is used but was never averaged, so zeros are
    subtracted. *)
Theorem C10_segment_refuted : exists (s : science B32) (d : dark B32) o,
  do_correction_data B32 dmean s d = Some o /\ o_status B32 o = COMPLETE /\
  o_data B32 o 0 0 0 0 = c_data B32 s 0 0 0 0 /\
  (forall k r c, nth k (nth 1 (d_data B32 d) []) (flat 7) r c = z 7).
Proof.
  set (s := exs 1 1 2 0 (Some 5)).
  set (d := {| d_is4d := true; d_data := [[flat 7; flat 7]; [flat 7; flat 7]]; d_dq := [fun _ _ => 0%N; fun _ _ => 0%N];
       d_nframes := 1; d_groupgap := 0 |} : dark B32).
  assert (H : match run s d with Some o => o_status B32 o = COMPLETE /\ o_data B32 o 0 0 0 0 = c_data B32 s 0 0 0 0 | None => False end)
    by (vm_compute; split; reflexivity).
  exists s, d. unfold run in H. destruct (do_correction_data B32 dmean s d) as [o|]; [|contradiction].
  exists o. split; [reflexivity|]. split; [apply H|]. split; [apply H|].
  intros [|[|[|k]]] r c; reflexivity.
Qed.
Print Assumptions C10_segment_refuted.

Example C11_instance :
  (match run (exs 3 4 1 0 None) exd4 with Some o => o_cpdq B32 o 0 0 = 7%N | None => False end) /\
  (match run (exs 3 4 1 0 None)
     {| d_is4d := false; d_data := [[flat 1; flat 2]]; d_dq := [fun _ _ => 1%N]; d_nframes := 4; d_groupgap := 0 |} with
   | Some o => o_status B32 o = SKIPPED /\ o_data B32 o 1 1 0 0 = z 210 /\ o_cpdq B32 o 0 0 = 4%N | None => False end).
Proof. vm_compute. repeat split. Qed.
End Instances.
