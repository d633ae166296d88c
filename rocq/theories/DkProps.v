(** Theorems about dark subtraction as a whole (C131): a linear dark is removed exactly, the correction is additive in the
    science data, and it commutes with cutting out or turning the images. *)
From Verif Require Import Base BaseLemmas RBase RNBase DarkModel DarkSpec DarkProofs DarkProps.
From Coq Require Import Reals Lra.
Local Open Scope R_scope.

(** ** Specification *)
Fixpoint rsum (l : list R) : R := match l with [] => 0 | x :: l => x + rsum l end.
(** the signal recorded by a group: the mean over its [nf] frames, the first of which is frame [start] *)
Definition recorded (signal : nat -> R) (start nf : nat) : R := rsum (map (fun f => signal (start + f)%nat) (seq 0 nf)) / INR nf.
(** a dark current that starts at [A] and grows by [B] per plane of the reference, in each integration of the reference *)
Definition linear_dark (d : dark RN) (A B : nat -> img R) : Prop :=
  forall t k r c, (t < length (d_data RN d))%nat -> (k < length (nth t (d_data RN d) []))%nat ->
    nth k (nth t (d_data RN d) []) (fun _ _ => fzero RN) r c = (Some (A t r c + B t r c * INR k) : RN).
(** the mean of numpy, in exact arithmetic *)
Definition exact_mean (fmean : list RN -> RN) : Prop := forall l : list R, l <> [] -> fmean (map Some l) = Some (rsum l / INR (length l)).

Lemma dark_value_linear (d : dark RN) A B t dng g r c : wf_dark RN d dng -> linear_dark d A B -> (t < length (d_data RN d))%nat -> ((g < dng)%nat \/ (2 <= dng)%nat) ->
  dark_value RN (nth t (d_data RN d) []) g r c = Some (A t r c + B t r c * INR g).
Proof.
  intros (W1 & _) L T G. assert (E : length (nth t (d_data RN d) []) = dng) by (apply W1, nth_In, T). specialize (L t). unfold dark_value. rewrite E. destruct (Nat.ltb_spec g dng) as [Hg|Hg].
  - apply L; [exact T|rewrite E; exact Hg].
  - destruct G as [|G]; [lia|]. rewrite (L (dng - 1)%nat), (L (dng - 2)%nat) by (try exact T; rewrite E; lia). cbn. f_equal.
    rewrite <- INR_IZR_INZ. rewrite (minus_INR g (dng - 1)), (minus_INR dng 1), (minus_INR dng 2) by lia. cbn [INR]. replace (INR 2) with 2 by (cbn; lra). lra.
Qed.

(** ** A linear dark is removed exactly *)
(** reference read out like the science data *)
Theorem C131_matching : forall fmean (s : science RN) (d : dark RN) dng A B (src : nat -> nat -> img R),
  wf_dark RN d dng -> (2 <= dng)%nat \/ (c_ngroups RN s <= dng)%nat -> linear_dark d A B -> c_nframes RN s = d_nframes RN d -> c_groupgap RN s = d_groupgap RN d ->
  let used i := int_for (d_is4d RN d) (length (d_data RN d)) (c_intstart RN s) i in
  (forall i j r c, (i < c_nints RN s)%nat -> (j < c_ngroups RN s)%nat -> c_data RN s i j r c = (Some (src i j r c + (A (used i) r c + B (used i) r c * INR j)) : RN)) ->
  exists o, do_correction_data RN fmean s d = Some o /\ o_status RN o = COMPLETE /\
    forall i j r c, (i < c_nints RN s)%nat -> (j < c_ngroups RN s)%nat -> o_data RN o i j r c = (Some (src i j r c) : RN).
Proof.
  intros fmean s d dng A B src W D L F G used S. pose proof W as (_ & W2 & W3 & W4).
  assert (E : enough_to_extrapolate RN s d dng). { destruct D as [D|D]; [left; exact D|right]. rewrite F, G. unfold total_frames. nia. }
  destruct (C09_direct_subtraction RN fmean s d dng W E F G) as (o & H1 & H2 & _ & H3). exists o. split; [exact H1|]. split; [exact H2|]. intros i j r c I J. rewrite (H3 i j r c I J). fold (used i).
  assert (T : (used i < length (d_data RN d))%nat) by (apply int_for_lt; [destruct (d_data RN d); [congruence|discriminate]|exact W3]).
  rewrite (dark_value_linear d A B (used i) dng j r c W L T) by lia. rewrite S by assumption. cbn. f_equal. lra.
Qed.
Print Assumptions C131_matching.

Lemma hd_map_seq {X} (f : nat -> X) z : hd z (map f (seq 0 1)) = f 0%nat.
Proof. reflexivity. Qed.
(** single-frame reference, any number of averaged and skipped frames in the science data, which may be longer than the reference *)
Theorem C131_frames : forall fmean (s : science RN) (d : dark RN) dng A B (src : nat -> nat -> img R),
  wf_dark RN d dng -> (2 <= dng)%nat -> linear_dark d A B -> d_nframes RN d = 1%nat -> d_groupgap RN d = 0%nat -> (1 <= c_nframes RN s)%nat -> exact_mean fmean ->
  let used i := int_for (d_is4d RN d) (length (d_data RN d)) (c_intstart RN s) i in
  (forall i, (i < c_nints RN s)%nat -> (used i < c_nints RN s)%nat) ->
  (forall i j r c, (i < c_nints RN s)%nat -> (j < c_ngroups RN s)%nat ->
     c_data RN s i j r c = (Some (src i j r c + recorded (fun f => A (used i) r c + B (used i) r c * INR f) (j * (c_nframes RN s + c_groupgap RN s)) (c_nframes RN s)) : RN)) ->
  exists o, do_correction_data RN fmean s d = Some o /\ o_status RN o = COMPLETE /\
    forall i j r c, (i < c_nints RN s)%nat -> (j < c_ngroups RN s)%nat -> o_data RN o i j r c = (Some (src i j r c) : RN).
Proof.
  intros fmean s d dng A B src W D L F G NF M used U S. pose proof W as (_ & W2 & W3 & W4).
  assert (LT : forall i, (used i < length (d_data RN d))%nat) by (intro i; apply int_for_lt; [destruct (d_data RN d); [congruence|discriminate]|exact W3]).
  destruct (Nat.eq_dec (c_nframes RN s) 1) as [N1|N1]; [destruct (Nat.eq_dec (c_groupgap RN s) 0) as [G0|G0]|].
  - apply (C131_matching fmean s d dng A B src W (or_introl D) L); [congruence|congruence|]. fold used. intros i j r c I J. rewrite (S i j r c I J), N1, G0. unfold recorded. cbn [seq map rsum]. replace (j * (1 + 0) + 0)%nat with j by lia. change (INR 1) with 1. f_equal. fold (used i). lra.
  - destruct (C10_averaged_dark RN fmean s d dng W (or_introl D) ltac:(lia) ltac:(lia) ltac:(lia) ltac:(left; auto)) as (o & H1 & H2 & _ & H3). exists o. split; [exact H1|]. split; [exact H2|]. intros i j r c I J.
    specialize (H3 i j r c I J). cbv zeta in H3. fold (used i) in H3. rewrite H3 by (left; exact (U i I)). rewrite N1. cbn [Nat.eqb]. rewrite hd_map_seq.
    rewrite (dark_value_linear d A B (used i) dng _ r c W L (LT i)) by lia. rewrite (S i j r c I J), N1. unfold recorded. cbn [seq map rsum]. change (INR 1) with 1. unfold clean. cbn [fisnan RN fsub rn2]. f_equal. lra.
  - destruct (C10_averaged_dark RN fmean s d dng W (or_introl D) ltac:(lia) ltac:(lia) ltac:(lia) ltac:(left; auto)) as (o & H1 & H2 & _ & H3). exists o. split; [exact H1|]. split; [exact H2|]. intros i j r c I J.
    specialize (H3 i j r c I J). cbv zeta in H3. fold (used i) in H3. rewrite H3 by (left; exact (U i I)). destruct (Nat.eqb_spec (c_nframes RN s) 1); [lia|].
    set (st := (j * (c_nframes RN s + c_groupgap RN s))%nat). set (nf := c_nframes RN s) in *. set (sig := fun f => A (used i) r c + B (used i) r c * INR f).
    assert (V : map (fun t => clean RN (dark_value RN (nth (used i) (d_data RN d) []) (st + t) r c)) (seq 0 nf) = map Some (map (fun f => sig (st + f)%nat) (seq 0 nf))).
    { rewrite map_map. apply map_ext. intro t. rewrite (dark_value_linear d A B (used i) dng _ r c W L (LT i)) by lia. reflexivity. }
    change (clean RN) with (clean RN) in *. rewrite V. rewrite M by (destruct nf; [lia|discriminate]). rewrite map_length, seq_length. rewrite (S i j r c I J). fold st nf sig. unfold recorded. cbn. f_equal. fold sig. lra.
Qed.
Print Assumptions C131_frames.

(** ** The correction is additive in the science data *)
Definition plus_signal (s : science RN) (x : nat -> nat -> img RN) : science RN :=
  {| c_nints := c_nints RN s; c_ngroups := c_ngroups RN s; c_data := fun i j r c => fadd RN (c_data RN s i j r c) (x i j r c); c_gdq := c_gdq RN s; c_pdq := c_pdq RN s;
     c_nframes := c_nframes RN s; c_groupgap := c_groupgap RN s; c_intstart := c_intstart RN s |}.
Theorem C131_additive : forall fmean (s : science RN) (d : dark RN) x o, do_correction_data RN fmean s d = Some o ->
  exists o', do_correction_data RN fmean (plus_signal s x) d = Some o' /\ o_status RN o' = o_status RN o /\ o_cgdq RN o' = o_cgdq RN o /\ o_cpdq RN o' = o_cpdq RN o /\
    forall i j r c, o_data RN o' i j r c = fadd RN (o_data RN o i j r c) (x i j r c).
Proof.
  intros fmean s d x o H. unfold do_correction_data in *. change (extended_dark RN (plus_signal s x) d) with (extended_dark RN s d). apply bind_Some in H. destruct H as (data & E & H). rewrite E. cbn [bind]. cbn [plus_signal c_nframes c_groupgap].
  assert (SD : forall dt o, subtract_dark RN s d dt = Some o -> exists o', subtract_dark RN (plus_signal s x) d dt = Some o' /\ o_status RN o' = o_status RN o /\ o_cgdq RN o' = o_cgdq RN o /\ o_cpdq RN o' = o_cpdq RN o /\
    forall i j r c, o_data RN o' i j r c = fadd RN (o_data RN o i j r c) (x i j r c)).
  { intros dt o0. unfold subtract_dark. change (subtract_ok RN (plus_signal s x) d dt) with (subtract_ok RN s d dt). destruct (subtract_ok RN s d dt); [|discriminate]. intros [= <-]. eexists. split; [reflexivity|]. cbn [o_status o_cgdq o_cpdq o_data plus_signal c_gdq c_pdq].
    repeat split. intros i j r c. unfold subtract_data. cbn [plus_signal c_data]. change (dark_index RN (plus_signal s x) d (length dt) i) with (dark_index RN s d (length dt) i).
    generalize (nth j (nth (dark_index RN s d (length dt) i) dt []) (fun _ _ => fzero RN) r c), (c_data RN s i j r c), (x i j r c). intros u v w. destruct u, v, w; try reflexivity. cbn. f_equal. lra. }
  destruct (Nat.ltb (c_nframes RN s) (d_nframes RN d) || Nat.ltb (c_groupgap RN s) (d_groupgap RN d)); [injection H as <-; eexists; split; [reflexivity|]; repeat split|].
  destruct (Nat.eqb (c_nframes RN s) (d_nframes RN d) && Nat.eqb (c_groupgap RN s) (d_groupgap RN d)); [apply SD; exact H|].
  apply bind_Some in H. destruct H as (avg & E2 & H). change (average_dark RN fmean (plus_signal s x) d) with (average_dark RN fmean s d). rewrite E2. cbn [bind]. apply SD. exact H.
Qed.
Print Assumptions C131_additive.

(** ** Cutting out, turning, picking one pixel *)
Lemma forallb_same {X} (f g : X -> bool) l : (forall x, f x = g x) -> forallb f l = forallb g l.
Proof. intro H. induction l as [|x l IH]; cbn; [reflexivity|]. rewrite H, IH. reflexivity. Qed.
Section Cut.
  Variables (fo : FOps) (fmean : list fo -> fo) (at_ : nat -> nat -> nat * nat).
  (** the image whose pixel (r, c) is pixel [at_ r c] of the given one *)
  Definition cut {A} (p : img A) : img A := fun r c => p (fst (at_ r c)) (snd (at_ r c)).
  Definition cut_science (s : science fo) : science fo :=
    {| c_nints := c_nints fo s; c_ngroups := c_ngroups fo s; c_data := fun i j => cut (c_data fo s i j); c_gdq := fun i j => cut (c_gdq fo s i j); c_pdq := cut (c_pdq fo s);
       c_nframes := c_nframes fo s; c_groupgap := c_groupgap fo s; c_intstart := c_intstart fo s |}.
  Definition cut_dark (d : dark fo) : dark fo :=
    {| d_is4d := d_is4d fo d; d_data := map (map cut) (d_data fo d); d_dq := map cut (d_dq fo d); d_nframes := d_nframes fo d; d_groupgap := d_groupgap fo d |}.

  Lemma cut_extrapolate arr k : extrapolate_int fo (map cut arr) k = option_map (map cut) (extrapolate_int fo arr k).
  Proof. unfold extrapolate_int. rewrite <- map_rev. destruct (rev arr) as [|l [|p t]]; cbn [map option_map]; [reflexivity|reflexivity|]. rewrite map_app, map_map. reflexivity. Qed.
  Lemma cut_mapM {X Y} (f : X -> option Y) (g : X -> X) (h : Y -> Y) l : (forall x, f (g x) = option_map h (f x)) -> mapM f (map g l) = option_map (map h) (mapM f l).
  Proof. intro H. induction l as [|x l IH]; cbn [mapM map option_map]; [reflexivity|]. rewrite H. destruct (f x); cbn [bind option_map]; [|reflexivity]. rewrite IH. destruct (mapM f l); reflexivity. Qed.
  Lemma cut_extended s d : extended_dark fo (cut_science s) (cut_dark d) = option_map (map (map cut)) (extended_dark fo s d).
  Proof.
    unfold extended_dark. cbn [cut_science cut_dark c_ngroups c_nframes c_groupgap d_nframes d_groupgap d_data].
    assert (E : d_ngroups fo (cut_dark d) = d_ngroups fo d). { unfold d_ngroups. cbn [cut_dark d_data]. destruct (d_data fo d); [reflexivity|]. cbn. apply map_length. } rewrite E.
    destruct (Z.ltb _ _); [|reflexivity]. destruct (Z.eqb _ _); [reflexivity|]. apply cut_mapM. intro a. apply cut_extrapolate.
  Qed.
  Lemma cut_avg_loop arr nf gap k : forall st, avg_loop fo fmean (map cut arr) nf gap st k = option_map (map cut) (avg_loop fo fmean arr nf gap st k).
  Proof.
    induction k as [|k IH]; intro st; cbn [avg_loop]; [reflexivity|].
    assert (E : avg_group fo fmean (map cut arr) nf st = option_map cut (avg_group fo fmean arr nf st)).
    { unfold avg_group. destruct (Nat.eqb nf 1); [apply nth_error_map|]. cbn [option_map]. rewrite skipn_map, firstn_map. f_equal. repeat (apply FunctionalExtensionality.functional_extensionality; intro). rewrite map_map. reflexivity. }
    rewrite E. destruct (avg_group fo fmean arr nf st); cbn [bind option_map]; [|reflexivity]. rewrite IH. destruct (avg_loop fo fmean arr nf gap (st + nf + gap) k); reflexivity.
  Qed.
  Lemma cut_nan0 l : map (map (nan0 fo)) (map (map cut) l) = map (map cut) (map (map (nan0 fo)) l).
  Proof. rewrite !map_map. apply map_ext. intro a. rewrite !map_map. reflexivity. Qed.
  Lemma cut_average s d l : average_dark fo fmean (cut_science s) (cut_dark d) (map (map cut) l) = option_map (map (map cut)) (average_dark fo fmean s d l).
  Proof.
    unfold average_dark. cbn [cut_science cut_dark d_is4d c_nints c_ngroups c_nframes c_groupgap]. rewrite map_length, firstn_map, (cut_mapM _ (map cut) (map cut)) by (intro a; apply cut_avg_loop).
    destruct (mapM _ _); cbn [bind option_map]; [|reflexivity]. rewrite map_app. do 2 f_equal. induction (length l - _)%nat as [|k IH]; cbn [repeat map]; [reflexivity|]. rewrite <- IH. f_equal.
    clear IH. induction (c_ngroups fo s) as [|q IQ]; cbn [repeat map]; [reflexivity|]. rewrite <- IQ. reflexivity.
  Qed.
  Lemma cut_or (l : list (img N)) : or_planes (map cut l) = cut (or_planes l).
  Proof.
    repeat (apply FunctionalExtensionality.functional_extensionality; intro). unfold or_planes. unfold cut at 3. destruct l as [|p l]; [reflexivity|]. cbn [map hd tl]. change (cut p x x0) with (p (fst (at_ x x0)) (snd (at_ x x0))).
    generalize (p (fst (at_ x x0)) (snd (at_ x x0))). induction l as [|q l IH]; intro w; cbn [map fold_left]; [reflexivity|]. apply IH.
  Qed.
  (** the result at the pixels picked *)
  Definition cut_result (o : dark_out fo) (o' : dark_out fo) : Prop := o_status fo o' = o_status fo o /\
    (forall i j r c, o_data fo o' i j r c = cut (o_data fo o i j) r c) /\ (forall i j r c, o_cgdq fo o' i j r c = cut (o_cgdq fo o i j) r c) /\ (forall r c, o_cpdq fo o' r c = cut (o_cpdq fo o) r c).
  Lemma cut_subtract s d l : match subtract_dark fo s d l, subtract_dark fo (cut_science s) (cut_dark d) (map (map cut) l) with Some o, Some o' => cut_result o o' | None, None => True | _, _ => False end.
  Proof.
    unfold subtract_dark. assert (E : subtract_ok fo (cut_science s) (cut_dark d) (map (map cut) l) = subtract_ok fo s d l).
    { unfold subtract_ok. cbn [cut_science c_nints c_ngroups]. apply forallb_same. intro i. rewrite map_length. change (dark_index fo (cut_science s) (cut_dark d) (length l) i) with (dark_index fo s d (length l) i). rewrite nth_error_map. destruct (nth_error l _); [|reflexivity]. cbn [option_map]. rewrite map_length. reflexivity. }
    rewrite E. destruct (subtract_ok fo s d l); [|exact I]. split; [reflexivity|]. cbn [o_data o_cgdq o_cpdq cut_science c_gdq c_pdq cut_dark d_dq]. split; [|split; [reflexivity|]].
    - intros i j r c. unfold subtract_data. cbn [cut_science c_data]. unfold cut at 1 4. rewrite map_length. change (dark_index fo (cut_science s) (cut_dark d) (length l) i) with (dark_index fo s d (length l) i). f_equal.
      change (@nil (img fo)) with (map cut (@nil (img fo))) at 1. rewrite map_nth. change (fun _ _ : nat => fzero fo) with (cut (fun _ _ => fzero fo)) at 1. rewrite map_nth. reflexivity.
    - intros r c. rewrite cut_or. reflexivity.
  Qed.
  (** correcting the cut-out with the cut-out dark gives the cut-out of the correction: subarrays, turned detectors; with
      [at_] constant, one pixel alone *)
  Theorem C131_cutout : forall s d,
    match do_correction_data fo fmean s d, do_correction_data fo fmean (cut_science s) (cut_dark d) with Some o, Some o' => cut_result o o' | None, None => True | _, _ => False end.
  Proof.
    intros s d. unfold do_correction_data. rewrite cut_extended. destruct (extended_dark fo s d) as [data|]; cbn [bind option_map]; [|exact I]. cbn [cut_science cut_dark c_nframes c_groupgap d_nframes d_groupgap].
    destruct (Nat.ltb (c_nframes fo s) (d_nframes fo d) || Nat.ltb (c_groupgap fo s) (d_groupgap fo d)); [repeat split|]. rewrite cut_nan0.
    destruct (Nat.eqb (c_nframes fo s) (d_nframes fo d) && Nat.eqb (c_groupgap fo s) (d_groupgap fo d)); [apply cut_subtract|].
    rewrite cut_average. destruct (average_dark fo fmean s d _) as [avg|]; cbn [bind option_map]; [apply cut_subtract|exact I].
  Qed.
End Cut.
Print Assumptions C131_cutout.

(** ** Examples *)
Definition np_mean (l : list RN) : RN := fdiv RN (fold_left (fadd RN) l (fzero RN)) (fofZ RN (Z.of_nat (length l))).
Lemma np_mean_exact : exact_mean np_mean.
Proof.
  intros l N. unfold np_mean. rewrite map_length. assert (G : forall l a, fold_left (fadd RN) (map Some l) (Some a : RN) = Some (a + rsum l)).
  { induction l0 as [|x l0 IH]; intro a; cbn [map fold_left rsum]; [f_equal; lra|]. change (fadd RN (Some a : RN) (Some x : RN)) with (Some (a + x) : RN). rewrite IH. f_equal. lra. }
  change (fzero RN) with (Some 0 : RN). rewrite G. cbn. rewrite <- INR_IZR_INZ. destruct (Reqb (INR (length l)) 0) eqn:E; [|f_equal; f_equal; lra].
  apply Reqb_spec in E. destruct l; [congruence|]. cbn [length] in E. rewrite S_INR in E. pose proof (pos_INR (length l)). lra.
Qed.
(** a three-frame dark growing by 2 per frame from 1, science groups of two frames with one skipped, four groups (11 frames) *)
Definition ex_plane (k : nat) : img RN := fun _ _ => Some (1 + 2 * INR k).
Definition ex_dark : dark RN := {| d_is4d := false; d_data := [[ex_plane 0; ex_plane 1; ex_plane 2]]; d_dq := [fun _ _ => 0%N]; d_nframes := 1; d_groupgap := 0 |}.
Definition ex_sci : science RN := {| c_nints := 1; c_ngroups := 4; c_data := fun i j r c => Some (100 * INR j + recorded (fun f => 1 + 2 * INR f) (j * 3) 2) : RN; c_gdq := fun _ _ _ _ => 0%N; c_pdq := fun _ _ => 0%N;
  c_nframes := 2; c_groupgap := 1; c_intstart := None |}.
Example C131_example : exists o, do_correction_data RN np_mean ex_sci ex_dark = Some o /\ o_status RN o = COMPLETE /\ forall j, (j < 4)%nat -> o_data RN o 0%nat j 0%nat 0%nat = (Some (100 * INR j) : RN).
Proof.
  destruct (C131_frames np_mean ex_sci ex_dark 3 (fun _ _ _ => 1) (fun _ _ _ => 2) (fun _ j _ _ => 100 * INR j)) as (o & H1 & H2 & H3).
  - repeat split; [intros a [<-|[]]; reflexivity|discriminate|cbn; lia].
  - lia.
  - intros t k r c T K. cbn in T. assert (t = 0%nat) by lia. subst t. cbn [nth ex_dark d_data length] in *. destruct k as [|[|[|k]]]; [reflexivity|reflexivity|reflexivity|lia].
  - reflexivity. - reflexivity. - cbn; lia. - apply np_mean_exact. - intros i H. cbn in *. lia. - intros i j r c H J. reflexivity.
  - exists o. split; [exact H1|]. split; [exact H2|]. intros j J. apply (H3 0%nat j 0%nat 0%nat); cbn; lia.
Qed.
(** a dark read out like the science data, shorter than it *)
Example C131_matching_example : let s := {| c_nints := 1; c_ngroups := 5; c_data := fun i j r c => Some (7 + (1 + 2 * INR j)) : RN; c_gdq := fun _ _ _ _ => 0%N; c_pdq := fun _ _ => 0%N; c_nframes := 1; c_groupgap := 0; c_intstart := None |} in
  exists o, do_correction_data RN np_mean s ex_dark = Some o /\ o_data RN o 0%nat 4%nat 0%nat 0%nat = (Some 7 : RN).
Proof.
  intro s. destruct (C131_matching np_mean s ex_dark 3 (fun _ _ _ => 1) (fun _ _ _ => 2) (fun _ _ _ _ => 7)) as (o & H1 & H2 & H3).
  - repeat split; [intros a [<-|[]]; reflexivity|discriminate|cbn; lia].
  - lia.
  - intros t k r c T K. cbn in T. assert (t = 0%nat) by lia. subst t. cbn [nth ex_dark d_data length] in *. destruct k as [|[|[|k]]]; [reflexivity|reflexivity|reflexivity|lia].
  - reflexivity. - reflexivity. - intros i j r c H J. reflexivity.
  - exists o. split; [exact H1|]. apply (H3 0%nat 4%nat 0%nat 0%nat); cbn; lia.
Qed.
(** the two other theorems apply to the exposure of the first example *)
Example C131_additive_example : (exists o, do_correction_data RN np_mean (plus_signal ex_sci (fun i j r c => Some (INR (r + c)) : RN)) ex_dark = Some o) /\
  do_correction_data RN np_mean (cut_science RN (fun r c => (c, (7 - r)%nat)) ex_sci) (cut_dark RN (fun r c => (c, (7 - r)%nat)) ex_dark) <> None.
Proof.
  destruct C131_example as (o & H & _). split.
  - destruct (C131_additive np_mean ex_sci ex_dark (fun i j r c => Some (INR (r + c)) : RN) o H) as (o' & H' & _). exists o'. exact H'.
  - pose proof (C131_cutout RN np_mean (fun r c => (c, (7 - r)%nat)) ex_sci ex_dark) as K. rewrite H in K. intro N. rewrite N in K. exact K.
Qed.
