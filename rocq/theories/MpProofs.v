From Verif Require Import Base BaseLemmas MpModel.
From Coq Require Import String Ascii ZifyBool ZifyNat ZifyN.
Local Open Scope list_scope.

Lemma num_cores_le s n a : compute_num_cores s n a <= n /\ compute_num_cores s n a <= a.
Proof. unfold compute_num_cores. lia. Qed.

Lemma or1_pos n : 1 <= or1 n.
Proof. unfold or1. destruct (Nat.eqb_spec n 0); lia. Qed.

Lemma num_cores_pos s n a : 1 <= n -> 1 <= a -> (isnumeric s = true -> int_of s <> 0) ->
  1 <= compute_num_cores s n a.
Proof.
  intros Hn Ha H. unfold compute_num_cores.
  pose proof (or1_pos (a / 4)). pose proof (or1_pos (a / 2)).
  destruct (isnumeric s); [specialize (H eq_refl); lia|].
  destruct (String.eqb (lower s) "none" || String.eqb (lower s) "one")%bool; [lia|].
  destruct (String.eqb s "quarter"); [lia|]. destruct (String.eqb s "half"); [lia|].
  destruct (String.eqb s "all"); lia.
Qed.

(** ** Slicing *)
Definition lsum (l : list nat) : nat := fold_right Nat.add 0 l.

Lemma lsum_app l1 l2 : lsum (l1 ++ l2) = lsum l1 + lsum l2.
Proof. induction l1 as [|x l IH]; cbn; [reflexivity|]. unfold lsum in *; lia. Qed.
Lemma lsum_repeat x n : lsum (repeat x n) = x * n.
Proof. induction n as [|n IH]; cbn; [lia|]. unfold lsum in *. rewrite IH. lia. Qed.

Lemma rows_per_slice_ok nslices nrows : 1 <= nslices ->
  exists rs, rows_per_slice nslices nrows = Some rs /\ List.length rs = nslices /\
    lsum rs = nrows /\
    (forall x, In x rs -> x = nrows / nslices \/ x = nrows / nslices + 1).
Proof.
  intro H. unfold rows_per_slice. destruct (Nat.eqb_spec nslices 0) as [E|_]; [lia|].
  eexists; split; [reflexivity|].
  pose proof (Nat.div_mod nrows nslices ltac:(lia)) as D.
  pose proof (Nat.mod_upper_bound nrows nslices ltac:(lia)) as U.
  set (q := nrows / nslices) in *. set (r := nrows mod nslices) in *.
  destruct (Nat.ltb_spec 0 r) as [Hr|Hr].
  - rewrite app_length, !repeat_length, lsum_app, !lsum_repeat. split; [lia|]. split.
    + rewrite Nat.mul_sub_distr_l. rewrite D. 
      assert (q * r <= q * nslices) by (apply Nat.mul_le_mono_l; lia). lia.
    + intros x Hx. apply in_app_iff in Hx. destruct Hx as [Hx|Hx]; apply repeat_spec in Hx; lia.
  - rewrite repeat_length, lsum_repeat. split; [reflexivity|]. split; [lia|].
    intros x Hx; apply repeat_spec in Hx; lia.
Qed.

Section Slices.
Context {A M B S : Type} (meta_of_slice : M -> M) (zeroB : B) (zeroS : S)
        (fit_row : M -> A -> B * list S).
Notation fit_block := (fit_block zeroS fit_row).
Notation pad := (pad zeroS).
Notation nsegs := (nsegs fit_row).

Lemma make_slices_concat rs (rows : list A) start : start + lsum rs = List.length rows ->
  List.concat (make_slices start rs rows) = skipn start rows.
Proof.
  revert start; induction rs as [|n rs IH]; intros start H; cbn [make_slices List.concat].
  - rewrite skipn_all2; [reflexivity|]. cbn in H; lia.
  - rewrite IH by (cbn in H; unfold lsum in *; lia). unfold row_slice.
    rewrite <- (firstn_skipn n (skipn start rows)) at 2.
    rewrite skipn_skipn, (Nat.add_comm n start). reflexivity.
Qed.

Lemma make_slices_length rs (rows : list A) start : start + lsum rs = List.length rows ->
  map (@List.length A) (make_slices start rs rows) = rs.
Proof.
  revert start; induction rs as [|n rs IH]; intros start H; cbn [make_slices map]; [reflexivity|].
  cbn in H. rewrite IH by (unfold lsum in *; lia). f_equal.
  unfold row_slice. rewrite firstn_length, skipn_length. unfold lsum in *; lia.
Qed.

Lemma write_rows_length {X} start n (sl out : list X) : List.length sl = n -> start + n <= List.length out ->
  List.length (write_rows start n sl out) = List.length out.
Proof. intros H1 H2. unfold write_rows. rewrite !app_length, firstn_length, skipn_length. lia. Qed.

Lemma write_rows_first {X} start n (sl out : list X) : List.length sl = n -> start + n <= List.length out ->
  firstn (start + n) (write_rows start n sl out) = firstn start out ++ sl.
Proof. intros H1 H2. unfold write_rows. rewrite app_assoc.
  rewrite firstn_app, firstn_all2; rewrite ?app_length, ?firstn_length; [|lia].
  replace (start + n - (Nat.min start (List.length out) + List.length sl)) with 0 by lia.
  cbn [firstn]. apply app_nil_r. Qed.

Lemma write_rows_skip {X} start n (sl out : list X) : List.length sl = n -> start + n <= List.length out ->
  skipn (start + n) (write_rows start n sl out) = skipn (start + n) out.
Proof. intros H1 H2. unfold write_rows. rewrite app_assoc, skipn_app, skipn_all2; rewrite ?app_length, ?firstn_length; [|lia].
  replace (start + n - (Nat.min start (List.length out) + List.length sl)) with 0 by lia. reflexivity. Qed.

Lemma nsegs_ge m rows a : In a rows -> List.length (snd (fit_row m a)) <= nsegs m rows.
Proof. unfold MpModel.nsegs. induction rows as [|x rows IH]; cbn [In map fold_right]; [tauto|].
  intros [->|H]; [lia|]. specialize (IH H). lia. Qed.

Lemma pad_merge k ms l : List.length l <= k -> k <= ms ->
  merge_segs (pad k l) (repeat zeroS ms) = pad ms l.
Proof.
  intros H1 H2. unfold merge_segs, MpModel.pad. rewrite app_length, repeat_length.
  replace (List.length l + (k - List.length l)) with k by lia. rewrite <- app_assoc. f_equal.
  assert (X : forall a b, skipn a (repeat zeroS (a + b)) = repeat zeroS b).
  { induction a as [|a IH]; intro b; [reflexivity|]. cbn. apply IH. }
  replace ms with (k + (ms - k)) at 1 by lia. rewrite X, <- repeat_app. f_equal. lia.
Qed.

Lemma map_combine_repeat {X Y} (f : list X -> list X -> list X) (g : Y -> list X) (z : list X) (l : list Y) n :
  List.length l = n ->
  map (fun p => f (fst p) (snd p)) (combine (map g l) (repeat z n)) = map (fun a => f (g a) z) l.
Proof. revert n; induction l as [|a l IH]; intros n H; cbn; [reflexivity|].
  destruct n as [|n]; [discriminate|]. cbn. f_equal. apply IH. cbn in H; lia. Qed.

Lemma skipn_repeat {X} (z : X) a n : skipn a (repeat z n) = repeat z (n - a).
Proof. revert n; induction a as [|a IH]; intro n; [rewrite Nat.sub_0_r; reflexivity|].
  destruct n as [|n]; [reflexivity|]. cbn. apply IH. Qed.
Lemma firstn_repeat {X} (z : X) a n : a <= n -> firstn a (repeat z n) = repeat z a.
Proof. revert n; induction a as [|a IH]; intros n H; [reflexivity|].
  destruct n as [|n]; [lia|]. cbn. f_equal. apply IH; lia. Qed.

Lemma assemble_ok m ms rs rows start main opt :
  start + lsum rs = List.length rows -> List.length main = List.length rows ->
  List.length opt = List.length rows ->
  skipn start opt = repeat (repeat zeroS ms) (List.length rows - start) ->
  (forall b, In b (make_slices start rs rows) -> nsegs m b <= ms) ->
  assemble start rs (map (fit_block m) (make_slices start rs rows)) ms main opt =
  (firstn start main ++ map (fun a => fst (fit_row m a)) (skipn start rows),
   firstn start opt ++ map (fun a => pad ms (snd (fit_row m a))) (skipn start rows)).
Proof.
  revert start main opt; induction rs as [|n rs IH]; intros start main opt H1 H2 H3 H4 H5;
    cbn [make_slices map assemble].
  - cbn in H1. rewrite skipn_all2 by lia. cbn [map]. rewrite !app_nil_r, !firstn_all2 by lia. reflexivity.
  - cbn in H1. change (fold_right Nat.add 0 rs) with (lsum rs) in H1.
    set (blk := row_slice start n rows) in *.
    assert (Lb : List.length blk = n) by (unfold blk, row_slice; rewrite firstn_length, skipn_length; lia).
    assert (Wo : write_opt start n (fit_block m blk) ms opt =
                 write_rows start n (map (fun a => pad ms (snd (fit_row m a))) blk) opt).
    { unfold write_opt. cbn [b_nsegs b_opt MpModel.fit_block].
      destruct (Nat.eqb_spec (nsegs m blk) ms) as [<-|Hne]; [reflexivity|].
      f_equal. unfold row_slice. rewrite H4, firstn_repeat by lia.
      rewrite map_combine_repeat by exact Lb.
      apply map_ext_in. intros a Ha. apply pad_merge; [apply nsegs_ge; exact Ha|].
      apply H5. left; reflexivity. }
    rewrite Wo. cbn [b_main MpModel.fit_block].
    assert (Lm : List.length (map (fun a => fst (fit_row m a)) blk) = n) by (rewrite map_length; exact Lb).
    assert (Lo : List.length (map (fun a => pad ms (snd (fit_row m a))) blk) = n) by (rewrite map_length; exact Lb).
    rewrite IH; rewrite ?write_rows_length, ?write_rows_first, ?write_rows_skip by (try assumption; lia);
      try lia.
    + assert (E : skipn start rows = blk ++ skipn (start + n) rows).
      { unfold blk, row_slice. rewrite <- (firstn_skipn n (skipn start rows)) at 1.
        rewrite skipn_skipn, (Nat.add_comm n start). reflexivity. }
      rewrite E, !map_app, !app_assoc. reflexivity.
    + replace (start + n) with (n + start) by lia. rewrite <- skipn_skipn, H4, skipn_repeat. f_equal; lia.
    + intros b Hb; apply H5; right; exact Hb.
Qed.

Lemma max_segs_aux m0 (res : list (@block_out B S)) :
  m0 <= fold_left (fun m b => if Nat.ltb m (b_nsegs b) then b_nsegs b else m) res m0 /\
  (forall b, In b res -> b_nsegs b <= fold_left (fun m b => if Nat.ltb m (b_nsegs b) then b_nsegs b else m) res m0) /\
  (fold_left (fun m b => if Nat.ltb m (b_nsegs b) then b_nsegs b else m) res m0 = m0 \/
   exists b, In b res /\ b_nsegs b = fold_left (fun m b => if Nat.ltb m (b_nsegs b) then b_nsegs b else m) res m0).
Proof.
  revert m0; induction res as [|b res IH]; intro m0; cbn [fold_left].
  - split; [lia|]. split; [intros b []|left; reflexivity].
  - destruct (IH (if Nat.ltb m0 (b_nsegs b) then b_nsegs b else m0)) as (I1 & I2 & I3).
    destruct (Nat.ltb_spec m0 (b_nsegs b)) as [Hl|Hl].
    + split; [lia|]. split; [intros x [<-|Hx]; [lia|apply I2; exact Hx]|].
      right. destruct I3 as [I3|(x & Hx & I3)]; [exists b; split; [left; reflexivity|lia]|exists x; split; [right; exact Hx|exact I3]].
    + split; [lia|]. split; [intros x [<-|Hx]; [lia|apply I2; exact Hx]|].
      destruct I3 as [I3|(x & Hx & I3)]; [left; exact I3|right; exists x; split; [right; exact Hx|exact I3]].
Qed.

Lemma nsegs_app m l1 l2 : nsegs m (l1 ++ l2) = Nat.max (nsegs m l1) (nsegs m l2).
Proof. unfold MpModel.nsegs. induction l1 as [|x l IH]; cbn; [reflexivity|]. rewrite IH. lia. Qed.

Lemma nsegs_concat_max m bs m0 :
  fold_left (fun m b => if Nat.ltb m (b_nsegs b) then b_nsegs b else m) (map (fit_block m) bs) m0
  = Nat.max m0 (nsegs m (List.concat bs)).
Proof.
  revert m0; induction bs as [|b bs IH]; intro m0; cbn [map fold_left List.concat].
  - unfold MpModel.nsegs; cbn; lia.
  - rewrite IH, nsegs_app. cbn [b_nsegs MpModel.fit_block].
    destruct (Nat.ltb_spec m0 (nsegs m b)); lia.
Qed.

Lemma nsegs_in_concat m bs b : In b bs -> nsegs m b <= nsegs m (List.concat bs).
Proof. induction bs as [|x bs IH]; cbn [In List.concat]; [tauto|]. rewrite nsegs_app.
  intros [->|H]; [lia|]. specialize (IH H); lia. Qed.

Lemma fit_multi_ok m nslices rows : 1 <= nslices ->
  let m' := meta_of_slice m in
  let ms := Nat.max 1 (nsegs m' rows) in
  fit_multi meta_of_slice zeroB zeroS fit_row m nslices rows =
  Some (map (fun a => fst (fit_row m' a)) rows, map (fun a => pad ms (snd (fit_row m' a))) rows).
Proof.
  intros Hn m' ms. unfold fit_multi.
  destruct (rows_per_slice_ok nslices (List.length rows) Hn) as (rs & E & L & Sm & _).
  rewrite E; cbn [bind]. fold m'. f_equal.
  assert (C : List.concat (make_slices 0 rs rows) = rows) by (rewrite make_slices_concat by lia; reflexivity).
  assert (Ems : max_segs (map (fit_block m') (make_slices 0 rs rows)) = ms).
  { unfold max_segs. rewrite nsegs_concat_max, C. reflexivity. }
  rewrite Ems. rewrite assemble_ok; cbn [firstn skipn app]; rewrite ?repeat_length; try lia.
  - reflexivity.
  - rewrite Nat.sub_0_r; reflexivity.
  - intros b Hb. unfold ms. rewrite <- C. pose proof (nsegs_in_concat m' _ b Hb). lia.
Qed.
End Slices.
