(** C07 (worker count) and C08 (row slicing of the ramp fit) *)
From Verif Require Import Base BaseLemmas MpModel MpProofs.
From Coq Require Import String Ascii.
Local Open Scope list_scope.

(** ** C07 *)
Theorem C07_bounded : forall request nchunks available,
  compute_num_cores request nchunks available <= nchunks /\
  compute_num_cores request nchunks available <= available.
Proof. exact num_cores_le. Qed.
Print Assumptions C07_bounded.

(** At least one worker, unless the request is a string of zeros. *)
Theorem C07_at_least_one : forall request nchunks available, 1 <= nchunks -> 1 <= available ->
  (isnumeric request = true -> int_of request <> 0) ->
  1 <= compute_num_cores request nchunks available.
Proof. exact num_cores_pos. Qed.
Print Assumptions C07_at_least_one.

(** Requests that are not a number nor one of the recognised words give exactly one. *)
Theorem C07_unrecognised_is_one : forall request nchunks available, 1 <= nchunks -> 1 <= available ->
  isnumeric request = false -> ~ In request ["quarter"; "half"; "all"]%string ->
  compute_num_cores request nchunks available = 1.
Proof.
  intros s n a Hn Ha Hs Hin. unfold compute_num_cores. rewrite Hs.
  destruct (String.eqb_spec s "quarter"); [subst; cbn in Hin; tauto|].
  destruct (String.eqb_spec s "half"); [subst; cbn in Hin; tauto|].
  destruct (String.eqb_spec s "all"); [subst; cbn in Hin; tauto|].
  destruct (String.eqb (lower s) "none" || String.eqb (lower s) "one")%bool; lia.
Qed.
Print Assumptions C07_unrecognised_is_one.

(** Recognised words and numbers give what they say, capped. *)
Theorem C07_recognised : forall nchunks available,
  compute_num_cores "all" nchunks available = Nat.min nchunks available /\
  compute_num_cores "half" nchunks available = Nat.min (Nat.min nchunks (Nat.max 1 (available / 2))) available /\
  compute_num_cores "quarter" nchunks available = Nat.min (Nat.min nchunks (Nat.max 1 (available / 4))) available /\
  (forall request, isnumeric request = true ->
    compute_num_cores request nchunks available = Nat.min (Nat.min nchunks (int_of request)) available).
Proof.
  intros n a. repeat split.
  - change (compute_num_cores "all" n a) with (Nat.min (Nat.min n a) a). lia.
  - change (compute_num_cores "half" n a) with (Nat.min (Nat.min n (or1 (a / 2))) a).
    unfold or1. generalize (a / 2); intro k. destruct (Nat.eqb_spec k 0); lia.
  - change (compute_num_cores "quarter" n a) with (Nat.min (Nat.min n (or1 (a / 4))) a).
    unfold or1. generalize (a / 4); intro k. destruct (Nat.eqb_spec k 0); lia.
  - intros s Hs. unfold compute_num_cores. rewrite Hs. reflexivity.
Qed.
Print Assumptions C07_recognised.

(** A literal "0" request yields zero workers even with data and cores at hand. *)
Theorem C07_zero_request_refuted : exists request nchunks available,
  1 <= nchunks /\ 1 <= available /\ compute_num_cores request nchunks available = 0.
Proof. exists "0"%string, 20, 8. split; [lia|split; [lia|vm_compute; reflexivity]]. Qed.
Print Assumptions C07_zero_request_refuted.

Example C07_instance :
  map (fun s => compute_num_cores s 2048 10) ["none"; "OnE"; "quarter"; "half"; "all"; "3"; "64"; "HALF"; ""]%string
  = [1; 1; 2; 5; 10; 3; 10; 1; 1].
Proof. vm_compute. reflexivity. Qed.

(** ** C08 *)
(** The row counts: as many slices as asked for, covering every row, heights differing by
    at most one. *)
Theorem C08_partition : forall nslices nrows, 1 <= nslices ->
  exists rs, rows_per_slice nslices nrows = Some rs /\ List.length rs = nslices /\
    fold_right Nat.add 0 rs = nrows /\
    (forall x y, In x rs -> In y rs -> x <= y + 1) /\
    (nslices <= nrows -> forall x, In x rs -> 1 <= x).
Proof.
  intros ns nr H. destruct (rows_per_slice_ok ns nr H) as (rs & E & L & Sm & D).
  exists rs. split; [exact E|]. split; [exact L|]. split; [exact Sm|]. split.
  - intros x y Hx Hy. destruct (D x Hx), (D y Hy); lia.
  - intros Hle x Hx. assert (1 <= nr / ns) by (apply Nat.div_le_lower_bound; lia).
    destruct (D x Hx); lia.
Qed.
Print Assumptions C08_partition.

(** Contiguity: concatenating the slices gives back the rows in order. *)
Theorem C08_slices_cover : forall (A : Type) nslices (rows : list A) rs,
  rows_per_slice nslices (List.length rows) = Some rs ->
  List.concat (make_slices 0 rs rows) = rows /\ map (@List.length A) (make_slices 0 rs rows) = rs.
Proof.
  intros A ns rows rs E.
  assert (1 <= ns) by (destruct ns; [discriminate|lia]).
  destruct (rows_per_slice_ok ns (List.length rows) H) as (rs' & E' & L & Sm & _).
  rewrite E in E'; injection E' as <-. split.
  - rewrite make_slices_concat by lia. reflexivity.
  - apply make_slices_length; lia.
Qed.
Print Assumptions C08_slices_cover.

(** Fitting in slices equals fitting in one go, for any per-row fit, provided the per-row fit
    does not see any meta datum that the slices drop.  The optional (per-segment) product
    agrees too; its segment axis has length max(1, longest row). *)
Theorem C08_slicing_transparent :
  forall (A M B S : Type) (meta_of_slice : M -> M) (zeroB : B) (zeroS : S)
         (fit_row : M -> A -> B * list S) m nslices (rows : list A),
  1 <= nslices ->
  (forall a, In a rows -> fit_row (meta_of_slice m) a = fit_row m a) ->
  exists main opt,
    fit_multi meta_of_slice zeroB zeroS fit_row m nslices rows = Some (main, opt) /\
    main = fst (fit_single zeroS fit_row m rows) /\
    (1 <= nsegs fit_row m rows -> opt = snd (fit_single zeroS fit_row m rows)).
Proof.
  intros A M B S ms zB zS f m ns rows Hn Heq.
  rewrite (fit_multi_ok ms zB zS f m ns rows Hn).
  eexists; eexists; split; [reflexivity|]. cbn [fst snd fit_single b_main b_opt fit_block].
  assert (X : nsegs f (ms m) rows = nsegs f m rows).
  { unfold nsegs. f_equal. apply map_ext_in. intros a Ha. rewrite Heq by exact Ha. reflexivity. }
  split.
  - apply map_ext_in. intros a Ha. rewrite Heq by exact Ha. reflexivity.
  - intro H1. rewrite X, Nat.max_r by exact H1.
    apply map_ext_in. intros a Ha. rewrite Heq by exact Ha. reflexivity.
Qed.
Print Assumptions C08_slicing_transparent.

(** In the code every meta datum is carried over except the one-group suppression switch:
    with the switch off, slicing is transparent for every fitter. *)
Theorem C08_suppression_off : forall (A B S : Type) (zeroB : B) (zeroS : S)
         (fit_row : ramp_meta -> A -> B * list S) m nslices (rows : list A),
  1 <= nslices -> rm_suppress1g m = false ->
  exists main opt,
    fit_multi slice_meta zeroB zeroS fit_row m nslices rows = Some (main, opt) /\
    main = fst (fit_single zeroS fit_row m rows) /\
    (1 <= nsegs fit_row m rows -> opt = snd (fit_single zeroS fit_row m rows)).
Proof.
  intros A B S zB zS f m ns rows Hn Hs.
  apply C08_slicing_transparent; [exact Hn|]. intros a _.
  assert (E : slice_meta m = m) by (destruct m; cbn in *; subst; reflexivity).
  rewrite E; reflexivity.
Qed.
Print Assumptions C08_suppression_off.

(** With any setting, what a slice computes is the row fit with suppression off. *)
Theorem C08_suppression_lost : forall (A B S : Type) (zeroB : B) (zeroS : S)
         (fit_row : ramp_meta -> A -> B * list S) m nslices (rows : list A),
  1 <= nslices ->
  exists opt, fit_multi slice_meta zeroB zeroS fit_row m nslices rows =
    Some (map (fun a => fst (fit_row (slice_meta m) a)) rows, opt) /\
    rm_suppress1g (slice_meta m) = false.
Proof. intros A B S zB zS f m ns rows Hn. rewrite (fit_multi_ok slice_meta zB zS f m ns rows Hn).
  eexists; split; reflexivity. Qed.
Print Assumptions C08_suppression_lost.

(** Zero slices is an exception. *)
Theorem C08_zero_slices_refuted : exists nrows, rows_per_slice 0 nrows = None.
Proof. exists 5. reflexivity. Qed.

Example C08_partition_instance : rows_per_slice 4 10 = Some [3; 3; 2; 2].
Proof. vm_compute. reflexivity. Qed.
Example C08_transparent_instance :
  fit_multi (fun m : nat => m) 0 0 (fun m a => (a + m, seq 0 (a mod 3))) 7 3 [10; 20; 30; 40; 50]
  = Some ([17; 27; 37; 47; 57], [[0; 0]; [0; 1]; [0; 0]; [0; 0]; [0; 1]]).
Proof. vm_compute. reflexivity. Qed.
