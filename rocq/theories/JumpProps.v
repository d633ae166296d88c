(** C18-C23: jump detection. *)
From Verif Require Import Base BaseLemmas FLaws JumpModel JumpSpec JumpProofs JumpIter JumpStage.
From Coq Require Import ZifyBool ZifyNat ZifyN.

(** ** C18 *)
(** Propagation over [n] groups flags exactly the windows, whatever strategy [crowded] selects.
    Group 0 cannot be a jump (transient_jumps never flags it before propagating). *)
Theorem C18_propagate : forall crowded ng nr nc (f : cube bool) (n : Z) k r c,
  (forall r c, f 0 r c = false) -> k < ng -> r < nr -> c < nc ->
  propagate_flags crowded ng nr nc f n k r c = true <->
  f k r c = true \/ exists g, g < k /\ (Z.of_nat k <= Z.of_nat g + n)%Z /\ f g r c = true.
Proof. exact propagate_spec. Qed.
Print Assumptions C18_propagate.

Theorem C18_strategy_irrelevant : forall crowded1 crowded2 ng nr nc (f : cube bool) (n : Z) k r c,
  (forall r c, f 0 r c = false) -> k < ng -> r < nr -> c < nc ->
  propagate_flags crowded1 ng nr nc f n k r c = propagate_flags crowded2 ng nr nc f n k r c.
Proof. intros. apply eq_true_iff_eq. rewrite !propagate_spec by assumption. reflexivity. Qed.
Print Assumptions C18_strategy_irrelevant.

(** a window of 60 groups in a 100-group ramp (per-event strategy), and of 2 in 6 (bulk shift) *)
Example C18_example :
  let f : cube bool := fun g r c => Nat.eqb g 2 in
  (forall r c, f 0 r c = false) /\
  map (fun k => propagate_flags (fun _ _ _ _ => false) 100 1 1 f 60 k 0 0) [1; 2; 62; 63] = [false; true; true; false] /\
  map (fun k => propagate_flags (fun _ _ _ _ => false) 6 1 1 f 2 k 0 0) (seq 0 6) = [false; false; true; true; true; false].
Proof. cbv zeta. split; [reflexivity|]. vm_compute. auto. Qed.

(** After-jump flagging: JUMP_DET is set exactly where it was, or (if usable) where a jump at least
    [e1] electrons high lies at most [n1] groups earlier, or one at least [e2] high at most [n2]. *)
Theorem C18_after_jump : forall fo crowded (P : params fo) kj kd ks ng nr nc gdq fd md i g r c,
  flag_bits P kj kd ks -> g < ng -> r < nr -> c < nc ->
  let big e g' := 0 < g' /\ fle fo e (fmul fo (fsub fo (fd i (g' - 1) r c) (md r c)) (p_dt P (g' - 1))) = true
                  /\ N.testbit (gdq i g' r c) kj = true in
  let out := transient_jumps fo crowded P ng nr nc gdq fd md in
  (N.testbit (out i g r c) kj = true <->
     N.testbit (gdq i g r c) kj = true \/
     (N.testbit (gdq i g r c) kd = false /\ N.testbit (gdq i g r c) ks = false /\
       exists g', g' < g /\ ((big (p_e1 P) g' /\ (Z.of_nat g <= Z.of_nat g' + p_n1 P)%Z)
                          \/ (big (p_e2 P) g' /\ (Z.of_nat g <= Z.of_nat g' + p_n2 P)%Z)))) /\
  (forall k, k <> kj -> N.testbit (out i g r c) k = N.testbit (gdq i g r c) k).
Proof.
  intros fo crowded P kj kd ks ng nr nc gdq fd md i g r c (Hj & Hd & Hs & Hjd & Hjs & _) Hg Hr Hc. cbv zeta.
  assert (B : forall e g', big_jump fo P gdq fd md e i g' r c = true <->
     0 < g' /\ fle fo e (fmul fo (fsub fo (fd i (g' - 1) r c) (md r c)) (p_dt P (g' - 1))) = true
     /\ N.testbit (gdq i g' r c) kj = true).
  { intros e g'. unfold big_jump, fge. rewrite Hj, has_bit, !andb_true_iff, Nat.ltb_lt. tauto. }
  split.
  - unfold transient_jumps. rewrite Hj, lor_flag_testbit, N.eqb_refl, andb_true_r, orb_true_iff.
    rewrite Hs, Hd, has_or, andb_true_iff, orb_true_iff, negb_true_iff, orb_false_iff.
    rewrite !propagate_spec by (assumption || (intros; reflexivity)). rewrite !B. split.
    + intros [H|([[(_ & _ & H)|(g' & H1 & H2 & H3)]|[(_ & _ & H)|(g' & H1 & H2 & H3)]] & H4 & H5)]; try (left; exact H).
      * right. split; [exact H5|split; [exact H4|]]. exists g'. split; [exact H1|]. left. apply B in H3. auto.
      * right. split; [exact H5|split; [exact H4|]]. exists g'. split; [exact H1|]. right. apply B in H3. auto.
    + intros [H|(H4 & H5 & g' & H1 & [(H2 & H3)|(H2 & H3)])]; [left; exact H| |]; right; (split; [|auto]).
      * left; right. exists g'. rewrite B. auto.
      * right; right. exists g'. rewrite B. auto.
  - intros k Hk. apply lor_flag_other with (kj := kj); assumption.
Qed.
Print Assumptions C18_after_jump.

(** ** Concrete values for the examples *)
Definition z64 (z : Z) : B64 := fofZ B64 z.
Fixpoint ins64 (x : B64) (l : list B64) : list B64 :=
  match l with [] => [x] | y :: l' => if flt B64 x y then x :: l else y :: ins64 x l' end.
Definition med64 (l : list B64) : B64 :=
  let s := fold_right ins64 [] l in let h := Nat.div (length l) 2 in
  if Nat.odd (length l) then nth h s (fnan B64)
  else fdiv B64 (fadd B64 (nth (h - 1) s (fnan B64)) (nth h s (fnan B64))) (z64 2).
Definition nosig : bool -> nat -> nat -> (nat -> nat -> B64) -> nat -> nat -> bool := fun _ _ _ _ _ _ => false.
Definition nocrowd : nat -> nat -> nat -> cube bool -> bool := fun _ _ _ _ => false.
(** DO_NOT_USE = 1, SATURATED = 2, JUMP_DET = 4; thresholds 4, 5, 6; neighbours between 10 and 200 *)
Definition exP (mingroups minsig : Z) (onlyints : bool) : params B64 := {|
  p_dnu := 1; p_sat := 2; p_jump := 4; p_thresh := z64 4; p_thresh3 := z64 5; p_thresh2 := z64 6;
  p_neigh := true; p_maxneigh := z64 200; p_minneigh := z64 10;
  p_n1 := 0; p_n2 := 0; p_e1 := z64 1000; p_e2 := z64 3000;
  p_mingroups := mingroups; p_minsigclip := minsig; p_onlyints := onlyints; p_singlepass := 1;
  p_dt := fun _ => z64 1; p_nreads := fun _ => z64 2; p_uniform := true |}.
Example exP_flags : flag_bits (exP 3 100 true) 2 0 1 /\ thresholds_ok B64 (exP 3 100 true) /\ FLaws B64 /\ fisnan B64 (fnan B64) = true.
Proof. split; [repeat split; discriminate || reflexivity|]. split; [repeat split|]. split; [apply ieee_laws|reflexivity]. Qed.

Example C18_after_jump_example :
  let P := {| p_dnu := 1; p_sat := 2; p_jump := 4; p_thresh := z64 4; p_thresh3 := z64 5; p_thresh2 := z64 6;
     p_neigh := true; p_maxneigh := z64 200; p_minneigh := z64 10; p_n1 := 1; p_n2 := 2; p_e1 := z64 1000; p_e2 := z64 3000;
     p_mingroups := 3; p_minsigclip := 100; p_onlyints := true; p_singlepass := 1;
     p_dt := fun _ => z64 1; p_nreads := fun _ => z64 2; p_uniform := true |} in
  let gdq : arr4 N := fun i g r c => if Nat.eqb g 2 then 4%N else if Nat.eqb g 3 then 2%N else 0%N in
  let fd : arr4 B64 := fun i j r c => if Nat.eqb j 1 then z64 5000 else z64 10 in
  flag_bits P 2 0 1 /\
  map (fun g => transient_jumps B64 nocrowd P 6 1 1 gdq fd (fun _ _ => z64 10) 0 g 0 0) (seq 0 6) = [0; 0; 4; 2; 4; 0]%N.
Proof. cbv zeta. split; [repeat split; discriminate || reflexivity|]. vm_compute. reflexivity. Qed.

(** ** C19 *)
Theorem C19_four_neighbours : forall fo (P : params fo) kj kd ks nd nr nc gdq fd md sig i g r c,
  flag_bits P kj kd ks -> r < nr -> c < nc ->
  let ratio r c := fdiv fo (fabs fo (fsub fo (fd i (g - 1) r c) (md r c))) (sig (g - 1) r c) in
  let strong r c := N.testbit (gdq i g r c) kj = true /\ flt fo (p_minneigh P) (ratio r c) = true
                    /\ flt fo (ratio r c) (p_maxneigh P) = true in
  let out := fst (fst (four_neighbors fo P nd nr nc gdq fd md sig)) in
  (N.testbit (out i g r c) kj = true <->
     N.testbit (gdq i g r c) kj = true \/
     (1 <= g <= nd /\ N.testbit (gdq i g r c) kd = false /\ N.testbit (gdq i g r c) ks = false /\
      exists r' c', edge_neighbour nr nc r c r' c' /\ strong r' c')) /\
  (forall k, k <> kj -> N.testbit (out i g r c) k = N.testbit (gdq i g r c) k).
Proof.
  intros fo P kj kd ks nd nr nc gdq fd md sig i g r c (Hj & Hd & Hs & Hjd & Hjs & _) Hr Hc. cbv zeta.
  cbn [four_neighbors fst]. set (f := neigh_flag fo P gdq fd md sig i g).
  assert (F : forall r c, f r c = true <-> N.testbit (gdq i g r c) kj = true
     /\ flt fo (p_minneigh P) (fdiv fo (fabs fo (fsub fo (fd i (g - 1) r c) (md r c))) (sig (g - 1) r c)) = true
     /\ flt fo (fdiv fo (fabs fo (fsub fo (fd i (g - 1) r c) (md r c))) (sig (g - 1) r c)) (p_maxneigh P) = true).
  { intros r0 c0. unfold f, neigh_flag, fgt. rewrite Hj, has_bit, !andb_true_iff. tauto. }
  split.
  - rewrite Hj, lor_flag_testbit, N.eqb_refl, andb_true_r, orb_true_iff, !andb_true_iff, negb_true_iff, Nat.ltb_lt, Nat.leb_le.
    rewrite Hs, Hd, has_or, orb_false_iff. unfold dilate. rewrite !orb_true_iff, !andb_true_iff, !Nat.ltb_lt.
    split.
    + intros [H|(((H1 & H1') & H2 & H3) & H4)]; [left; exact H|].
      destruct H4 as [[[[H4|[H4 H5]]|[H4 H5]]|[H4 H5]]|[H4 H5]].
      * left. apply F in H4. tauto.
      * right. do 3 (split; [assumption || lia|]). exists (r - 1), c. split; [unfold edge_neighbour; lia|apply F; exact H5].
      * right. do 3 (split; [assumption || lia|]). exists (r + 1), c. split; [unfold edge_neighbour; lia|apply F; exact H5].
      * right. do 3 (split; [assumption || lia|]). exists r, (c - 1). split; [unfold edge_neighbour; lia|apply F; exact H5].
      * right. do 3 (split; [assumption || lia|]). exists r, (c + 1). split; [unfold edge_neighbour; lia|apply F; exact H5].
    + intros [H|(H1 & H2 & H3 & r' & c' & He & Hst)]; [left; exact H|]. right.
      apply F in Hst. split; [split; [lia|auto]|]. unfold edge_neighbour in He.
      destruct He as (Hr' & Hc' & [(-> & [->|Hx])|(-> & [->|Hx])]).
      * right. split; [lia|exact Hst].
      * left; right. split; [lia|]. replace (c - 1) with c' by lia. exact Hst.
      * left; left; right. split; [lia|exact Hst].
      * left; left; left; right. split; [lia|]. replace (r - 1) with r' by lia. exact Hst.
  - intros k Hk. apply lor_flag_other with (kj := kj); assumption.
Qed.
Print Assumptions C19_four_neighbours.

(** The reported rows: JUMP_DET exactly where the first (last) row of the slice would flag the pixel
    just outside, no other bit. *)
Theorem C19_border_rows : forall fo (P : params fo) kj kd ks nd nr nc gdq fd md sig i g c,
  flag_bits P kj kd ks ->
  let ratio r c := fdiv fo (fabs fo (fsub fo (fd i (g - 1) r c) (md r c))) (sig (g - 1) r c) in
  let strong r c := N.testbit (gdq i g r c) kj = true /\ flt fo (p_minneigh P) (ratio r c) = true
                    /\ flt fo (ratio r c) (p_maxneigh P) = true in
  let x := four_neighbors fo P nd nr nc gdq fd md sig in
  (snd (fst x) i g c = bit kj \/ snd (fst x) i g c = 0%N) /\ (snd (fst x) i g c = bit kj <-> 1 <= g <= nd /\ strong 0 c) /\
  (snd x i g c = bit kj \/ snd x i g c = 0%N) /\ (snd x i g c = bit kj <-> 1 <= g <= nd /\ strong (nr - 1) c).
Proof.
  intros fo P kj kd ks nd nr nc gdq fd md sig i g c (Hj & Hd & Hs & Hjd & Hjs & _). cbv zeta. cbn [four_neighbors fst snd].
  assert (Hb : bit kj <> 0%N). { intro E. pose proof (bit_testbit kj kj) as B. rewrite E, N.bits_0, N.eqb_refl in B. discriminate. }
  assert (G : forall r, (flag_if (Nat.ltb 0 g && Nat.leb g nd && neigh_flag fo P gdq fd md sig i g r c) (p_jump P) = bit kj
       \/ flag_if (Nat.ltb 0 g && Nat.leb g nd && neigh_flag fo P gdq fd md sig i g r c) (p_jump P) = 0%N)
     /\ (flag_if (Nat.ltb 0 g && Nat.leb g nd && neigh_flag fo P gdq fd md sig i g r c) (p_jump P) = bit kj <->
       1 <= g <= nd /\ N.testbit (gdq i g r c) kj = true
     /\ flt fo (p_minneigh P) (fdiv fo (fabs fo (fsub fo (fd i (g - 1) r c) (md r c))) (sig (g - 1) r c)) = true
     /\ flt fo (fdiv fo (fabs fo (fsub fo (fd i (g - 1) r c) (md r c))) (sig (g - 1) r c)) (p_maxneigh P) = true)).
  { intro r. unfold flag_if, neigh_flag, fgt. rewrite Hj, has_bit.
    destruct (_ && _ && _) eqn:E.
    - split; [left; reflexivity|]. split; [intros _|reflexivity]. rewrite !andb_true_iff, Nat.ltb_lt, Nat.leb_le in E. intuition lia.
    - split; [right; reflexivity|]. split; [congruence|]. intros (H1 & H2 & H3 & H4). exfalso. apply not_true_iff_false in E. apply E.
      rewrite !andb_true_iff, Nat.ltb_lt, Nat.leb_le. intuition lia. }
  destruct (G 0), (G (nr - 1)). auto.
Qed.
Print Assumptions C19_border_rows.

(** a 3 x 3 frame, jump of ratio 20 in the centre, saturated right neighbour *)
Example C19_example :
  let P := exP 3 100 true in
  let gdq : arr4 N := fun i g r c => if Nat.eqb r 1 && Nat.eqb c 1 then 4%N else if Nat.eqb r 1 && Nat.eqb c 2 then 2%N else 0%N in
  let fd : arr4 B64 := fun i j r c => if Nat.eqb r 1 && Nat.eqb c 1 then z64 20 else z64 0 in
  let x := four_neighbors B64 P 1 3 3 gdq fd (fun _ _ => z64 0) (fun _ _ _ => z64 1) in
  flag_bits P 2 0 1 /\ map (fun r => map (fun c => fst (fst x) 0 1 r c) (seq 0 3)) (seq 0 3) = [[0; 4; 0]; [4; 4; 2]; [0; 4; 0]]%N.
Proof. cbv zeta. split; [apply exP_flags|]. vm_compute. reflexivity. Qed.

(** ** C20 *)
Section C20.
  Variable fo : FOps.
  Variable med : list fo -> fo.
  Variable sigclip : bool -> nat -> nat -> (nat -> nat -> fo) -> nat -> nat -> bool.
  Variable crowded : nat -> nat -> nat -> cube bool -> bool.
  Variable P : params fo.
  Variables kj kd ks : N.
  Hypothesis HF : flag_bits P kj kd ks.
  Lemma detection_other nints ng nrows ncols dat gdq rn n i g r c k :
    1 <= n <= nrows -> r < nrows -> k <> kj ->
    N.testbit (detection_stage fo med sigclip crowded P nints ng nrows ncols dat gdq rn n i g r c) k = N.testbit (gdq i g r c) k.
  Proof.
    destruct HF as (Hj & Hd & Hs & Hjd & Hjs & _). intros Hn Hr Hk. unfold detection_stage.
    rewrite (strip_testbit fo P kj kd ks) by assumption.
    destruct (N.eqb_spec kj k) as [E|_]; [congruence|]. cbn [andb negb]. rewrite andb_true_r.
    destruct (Nat.eqb_spec n 1) as [E|E].
    - apply find_crs_other with (kj := kj); assumption.
    - destruct (row_slice nrows n Hn r Hr) as (q & Hq & Hqr).
      unfold twopoint_diff_multi. set (F := fun b : nat * nat => _). set (res := map F (slice_bounds nrows n)).
      assert (Hlen : length res = n) by (unfold res; rewrite map_length; apply slice_bounds_length; exact Hn).
      rewrite (reassemble_spec nrows n Hn res gdq i g r c k q (F (0, 0)) Hlen Hq Hqr).
      unfold res. rewrite !map_nth.
      assert (R : forall b, N.testbit (res_above (F b) i g c) k = false /\ N.testbit (res_below (F b) i g c) k = false).
      { intro b. destruct (rows_other fo med sigclip crowded P kj Hj nints ng (snd b) ncols (rows4 (fst b) dat) (rows4 (fst b) gdq) (rows_from (fst b) rn) i g c k Hk); auto. }
      destruct (R (nth (q - 1) (slice_bounds nrows n) (0, 0))) as [-> _].
      destruct (R (nth (q + 1) (slice_bounds nrows n) (0, 0))) as [_ ->].
      rewrite !andb_false_r, !orb_false_r. unfold F. rewrite find_crs_other with (kj := kj) by assumption.
      rewrite slice_bounds_nth by assumption. cbn [fst snd]. unfold rows4, rows_from.
      f_equal. f_equal. lia.
  Qed.
End C20.

Theorem C20_no_jump_on_unusable : forall fo med sigclip crowded (P : params fo) kj kd ks nints ng nrows ncols dat gdq rn n i g r c,
  flag_bits P kj kd ks ->
  let out := detection_stage fo med sigclip crowded P nints ng nrows ncols dat gdq rn n in
  N.testbit (out i g r c) kj = true -> N.testbit (out i g r c) kd = false /\ N.testbit (out i g r c) ks = false.
Proof.
  intros fo med sigclip crowded P kj kd ks nints ng nrows ncols dat gdq rn n i g r c (Hj & Hd & Hs & Hjd & Hjs & Hds).
  cbv zeta. unfold detection_stage. set (x := if Nat.eqb n 1 then _ else _).
  rewrite !(strip_testbit fo P kj kd ks) by assumption. rewrite N.eqb_refl.
  destruct (N.eqb_spec kj kd); [congruence|]. destruct (N.eqb_spec kj ks); [congruence|]. cbn [andb negb].
  rewrite !andb_true_r. destruct (N.testbit (x i g r c) kj), (N.testbit (x i g r c) kd), (N.testbit (x i g r c) ks); cbn; intuition discriminate.
Qed.
Print Assumptions C20_no_jump_on_unusable.

Theorem C20_only_jump_changes : forall fo med sigclip crowded (P : params fo) kj kd ks nints ng nrows ncols dat gdq rn n i g r c k,
  flag_bits P kj kd ks -> 1 <= n <= nrows -> r < nrows -> k <> kj ->
  N.testbit (detection_stage fo med sigclip crowded P nints ng nrows ncols dat gdq rn n i g r c) k = N.testbit (gdq i g r c) k.
Proof. intros. apply detection_other with (kj := kj) (kd := kd) (ks := ks); assumption. Qed.
Print Assumptions C20_only_jump_changes.

(** ** C21 *)
Theorem C21_rows_once_in_order : forall nrows n, 1 <= n <= nrows ->
  flat_map (fun b => seq (fst b) (snd b)) (slice_bounds nrows n) = seq 0 nrows.
Proof.
  intros nrows n Hn. unfold slice_bounds. rewrite flat_map_app. cbn [flat_map fst snd]. rewrite app_nil_r.
  assert (G : forall m, flat_map (fun b => seq (fst b) (snd b)) (map (fun i => (i * (nrows / n), nrows / n)) (seq 0 m)) = seq 0 (m * (nrows / n))).
  { induction m as [|m IH]; [reflexivity|]. rewrite seq_S, map_app, flat_map_app, IH. cbn [map flat_map fst snd plus].
    rewrite app_nil_r. rewrite <- seq_app. f_equal. lia. }
  rewrite G. rewrite <- seq_app. f_equal. pose proof (yinc_le nrows n Hn). nia.
Qed.
Print Assumptions C21_rows_once_in_order.
Example C21_rows_example : slice_bounds 10 3 = [(0, 3); (3, 3); (6, 4)].
Proof. reflexivity. Qed.

(** Reassembly: row [r] of slice [q] is the slice's row, OR-ed with what the slice before reports above
    its last row (if [r] is the first row of [q]) and what the slice after reports below its first. *)
Theorem C21_reassembly : forall nrows n (res : list result) gdq i g r c b q d,
  1 <= n <= nrows -> length res = n -> q < n ->
  let y := Nat.div nrows n in let last := if Nat.eqb (q + 1) n then nrows else (q + 1) * y in
  q * y <= r < last ->
  N.testbit (fst (reassemble nrows y n res gdq) i g r c) b =
    N.testbit (res_gdq (nth q res d) i g (r - q * y) c) b
    || (Nat.ltb 0 q && Nat.eqb r (q * y) && N.testbit (res_above (nth (q - 1) res d) i g c) b)
    || (Nat.ltb (q + 1) n && Nat.eqb r (last - 1) && N.testbit (res_below (nth (q + 1) res d) i g c) b).
Proof.
  intros nrows n res gdq i g r c b q d Hn Hlen Hq. cbv zeta. intro Hr.
  rewrite (reassemble_spec nrows n Hn res gdq i g r c b q d Hlen Hq Hr). f_equal.
  destruct (Nat.ltb_spec (q + 1) n); [|reflexivity]. destruct (Nat.eqb_spec (q + 1) n); [lia|]. reflexivity.
Qed.
Print Assumptions C21_reassembly.

(** The multi-process DQ equals the single-process DQ.  Hypotheses: no after-jump propagation, sigma
    clipping over the exposure not selected, every slice sees the same wholly-DO_NOT_USE groups as
    the frame, and the minimum number of groups is 3 (the single-process run always uses 3). *)
Theorem C21_multi_equals_single : forall fo, FLaws fo -> fisnan fo (fnan fo) = true ->
  forall med sigclip crowded (P : params fo) kj kd ks nints ng nrows ncols dat gdq rn n,
  flag_bits P kj kd ks -> thresholds_ok fo P -> p_mingroups P = 3%Z -> (p_n1 P <= 0)%Z -> (p_n2 P <= 0)%Z ->
  (p_uniform P = false \/ (p_onlyints P = true /\ (Z.of_nat nints < p_minsigclip P)%Z)
    \/ (p_onlyints P = false /\ (Z.of_nat (nints * ng) < p_minsigclip P)%Z)) ->
  1 <= n <= nrows ->
  same_dnu kd nints ng nrows ncols gdq n ->
  forall i g r c, i < nints -> r < nrows -> c < ncols ->
  detection_stage fo med sigclip crowded P nints ng nrows ncols dat gdq rn n i g r c =
  detection_stage fo med sigclip crowded P nints ng nrows ncols dat gdq rn 1 i g r c.
Proof.
  intros fo L HN med sigclip crowded P kj kd ks nints ng nrows ncols dat gdq rn n (Hj & Hd & Hs & Hjd & Hjs & Hds) T Hmg Hn1 Hn2 Hsc Hn SD i g r c Hi Hr Hc.
  unfold detection_stage. rewrite (Nat.eqb_refl 1). destruct (Nat.eqb_spec n 1) as [->|Hne]; [reflexivity|].
  assert (EP : with_mingroups fo P 3 = P) by (destruct P; cbn in *; subst; reflexivity). rewrite EP.
  assert (NC : check_sigma_clip_groups fo P nints (c_total (groups_all_set_dnu fo P nints ng nrows ncols gdq)) = false).
  { unfold check_sigma_clip_groups, groups_all_set_dnu. cbn [c_total].
    destruct Hsc as [H|[[H1 H2]|[H1 H2]]]; [rewrite H; reflexivity| |]; rewrite H1; cbn [andb negb orb].
    - rewrite orb_false_r. destruct (p_uniform P); cbn; lia.
    - destruct (p_uniform P); cbn [andb]; lia. }
  destruct (skip fo P nints ng nrows ncols gdq) eqn:Sk.
  - (* skipped: every slice is skipped as well *)
    apply N.bits_inj. intro k. rewrite !(strip_testbit fo P kj kd ks) by assumption.
    assert (E : forall k, N.testbit (fst (twopoint_diff_multi fo med sigclip crowded P nints ng nrows ncols dat gdq rn n) i g r c) k
       = N.testbit (res_gdq (find_crs fo med sigclip crowded P nints ng nrows ncols dat gdq rn) i g r c) k).
    { intro k'. destruct (row_slice nrows n Hn r Hr) as (q & Hq & Hqr).
      unfold twopoint_diff_multi. set (F := fun b : nat * nat => _). set (res := map F (slice_bounds nrows n)).
      assert (Hlen : length res = n) by (unfold res; rewrite map_length; apply slice_bounds_length; exact Hn).
      rewrite (reassemble_spec nrows n Hn res gdq i g r c k' q (F (0, 0)) Hlen Hq Hqr). unfold res. rewrite !map_nth.
      assert (G : forall q', q' < n -> F (nth q' (slice_bounds nrows n) (0, 0)) =
         (rows4 (q' * (nrows / n)) gdq, fun _ _ _ => 0%N, fun _ _ _ => 0%N, (-99)%Z)).
      { intros q' Hq'. rewrite slice_bounds_nth by assumption. unfold F. cbn [fst snd]. unfold find_crs, skip.
        rewrite (slice_counts fo P nrows n Hn kd Hd nints ng ncols gdq SD q' Hq'). unfold skip in Sk. rewrite Sk. reflexivity. }
      rewrite (G q Hq). unfold find_crs. rewrite Sk. cbn [res_gdq fst snd].
      destruct (Nat.ltb_spec 0 q); cbn [andb]; [rewrite G by lia|]; (destruct (Nat.ltb_spec (q + 1) n); cbn [andb]; [rewrite G by lia|]);
        cbn [res_above res_below fst snd]; rewrite ?N.bits_0, ?andb_false_r, ?orb_false_r; unfold rows4, rows_from;
        (replace (q * (nrows / n) + (r - q * (nrows / n))) with r by lia); reflexivity. }
    rewrite !E. reflexivity.
  - apply N.bits_inj. intro k.
    apply (multi_testbit fo L HN med sigclip crowded P kj kd ks); try assumption. split; assumption.
Qed.
Print Assumptions C21_multi_equals_single.

(** A 2-row frame with a jump in row 0 whose neighbour lies in the other slice. *)
Definition exdat : arr4 B64 := fun i g r c =>
  fadd B64 (z64 (10 * Z.of_nat g)) (if Nat.leb 3 g && Nat.eqb r 0 then z64 100 else z64 0).
Example C21_example :
  let P := exP 3 100 true in let gdq : arr4 N := fun _ _ _ _ => 0%N in
  flag_bits P 2 0 1 /\ thresholds_ok B64 P /\ same_dnu 0 1 6 2 1 gdq 2 /\
  map (fun g => map (fun r => detection_stage B64 med64 nosig nocrowd P 1 6 2 1 exdat gdq (fun _ _ => z64 1) 2 0 g r 0) [0; 1]) (seq 0 6)
  = [[0; 0]; [0; 0]; [0; 0]; [4; 4]; [0; 0]; [0; 0]]%N.
Proof.
  cbv zeta. split; [apply exP_flags|]. split; [apply exP_flags|]. split; [|vm_compute; reflexivity].
  intros b i g Hb _ _ H. exfalso.
  assert (0 < snd b) by (destruct Hb as [<-|[<-|[]]]; cbn; lia). specialize (H 0 0 H0 ltac:(lia)). discriminate.
Qed.

(** The requested minimum number of groups is honoured only when there are several processes. *)
Theorem C21_minimum_groups_refuted : exists dat gdq rn,
  detection_stage B64 med64 nosig nocrowd (exP 7 100 true) 1 6 2 1 dat gdq rn 2 0 3 0 0
  <> detection_stage B64 med64 nosig nocrowd (exP 7 100 true) 1 6 2 1 dat gdq rn 1 0 3 0 0.
Proof. exists exdat, (fun _ _ _ _ => 0%N), (fun _ _ => z64 1). vm_compute. discriminate. Qed.
Print Assumptions C21_minimum_groups_refuted.
(** With after-jump propagation the results differ: a neighbour flag received from another slice is
    not propagated to the following groups. *)
Definition exPn : params B64 := {|
  p_dnu := 1; p_sat := 2; p_jump := 4; p_thresh := z64 4; p_thresh3 := z64 5; p_thresh2 := z64 6;
  p_neigh := true; p_maxneigh := z64 200; p_minneigh := z64 10;
  p_n1 := 1; p_n2 := 0; p_e1 := z64 0; p_e2 := z64 3000;
  p_mingroups := 3; p_minsigclip := 100; p_onlyints := true; p_singlepass := 1;
  p_dt := fun _ => z64 1; p_nreads := fun _ => z64 2; p_uniform := true |}.
Theorem C21_after_jump_refuted : exists dat gdq rn,
  detection_stage B64 med64 nosig nocrowd exPn 1 6 2 1 dat gdq rn 2 0 4 1 0
  <> detection_stage B64 med64 nosig nocrowd exPn 1 6 2 1 dat gdq rn 1 0 4 1 0.
Proof. exists exdat, (fun _ _ _ _ => 0%N), (fun _ _ => z64 1). vm_compute. discriminate. Qed.
Print Assumptions C21_after_jump_refuted.
(** A group wholly DO_NOT_USE in one slice only changes that slice's skip decision. *)
Theorem C21_slice_skip_refuted : exists dat gdq rn,
  detection_stage B64 med64 nosig nocrowd (exP 3 100 true) 2 6 2 1 dat gdq rn 2 1 3 0 0
  <> detection_stage B64 med64 nosig nocrowd (exP 3 100 true) 2 6 2 1 dat gdq rn 1 1 3 0 0.
Proof. exists exdat, (fun i g r c => if Nat.eqb i 0 && Nat.eqb r 0 && Nat.leb g 3 then 1%N else 0%N), (fun _ _ => z64 1).
  vm_compute. discriminate. Qed.
Print Assumptions C21_slice_skip_refuted.
(** When sigma clipping is selected, flags of a group are erased if the whole plane is flagged; the
    test is made per slice. *)
Theorem C21_sigma_clip_refuted : exists dat gdq rn,
  let clip : bool -> nat -> nat -> (nat -> nat -> B64) -> nat -> nat -> bool := fun _ _ _ d i j => flt B64 (z64 50) (d i j) in
  detection_stage B64 med64 clip nocrowd (exP 3 1 true) 1 6 2 1 dat gdq rn 2 0 3 0 0
  <> detection_stage B64 med64 clip nocrowd (exP 3 1 true) 1 6 2 1 dat gdq rn 1 0 3 0 0.
Proof. exists exdat, (fun _ _ _ _ => 0%N), (fun _ _ => z64 1). vm_compute. discriminate. Qed.
Print Assumptions C21_sigma_clip_refuted.

(** a saturated group next to a jump, a do-not-use group and a pre-set bit 3 *)
Example C20_example :
  let P := exP 3 100 true in
  let gdq : arr4 N := fun i g r c => if Nat.eqb g 3 && Nat.eqb r 1 then 10%N else if Nat.eqb g 5 then 5%N else 0%N in
  flag_bits P 2 0 1 /\
  map (fun g => map (fun r => detection_stage B64 med64 nosig nocrowd P 1 6 2 1 exdat gdq (fun _ _ => z64 1) 1 0 g r 0) [0; 1]) (seq 0 6)
  = [[0; 0]; [0; 0]; [0; 0]; [4; 10]; [0; 0]; [1; 1]]%N.
Proof. cbv zeta. split; [apply exP_flags|]. vm_compute. reflexivity. Qed.

(** ** C22 *)
Lemma and_compat (A B C D : Prop) : (A <-> B) -> (C <-> D) -> (A /\ C <-> B /\ D).
Proof. tauto. Qed.
Section C22a.
  Variable fo : FOps.
  Variable P : params fo.
  Lemma max_flagged_spec nints ng nr nc gdq :
    (forall i, i < nints -> num_flagged fo P ng nr nc (gdq i) <= max_flagged fo P nints ng nr nc gdq) /\
    (max_flagged fo P nints ng nr nc gdq = 0 \/ exists i, i < nints /\ num_flagged fo P ng nr nc (gdq i) = max_flagged fo P nints ng nr nc gdq).
  Proof.
    unfold max_flagged.
    apply (fold_left_seq_inv (fun k m => (forall i, i < k -> num_flagged fo P ng nr nc (gdq i) <= m)
      /\ (m = 0 \/ exists i, i < k /\ num_flagged fo P ng nr nc (gdq i) = m))).
    - split; [lia|left; reflexivity].
    - intros k m Hk [H1 H2]. destruct (Nat.ltb_spec m (num_flagged fo P ng nr nc (gdq k))) as [H|H].
      + split; [|right; exists k; split; [lia|reflexivity]]. intros i Hi. destruct (Nat.eq_dec i k) as [->|]; [lia|].
        specialize (H1 i ltac:(lia)). lia.
      + split; [|destruct H2 as [H2|(i & Hi & H2)]; [left; exact H2|right; exists i; split; [lia|exact H2]]].
        intros i Hi. destruct (Nat.eq_dec i k) as [->|]; [lia|]. apply H1; lia.
  Qed.
  Lemma last_flagged_spec nints ng nr nc gdq : 0 < nints ->
    last_flagged fo P nints ng nr nc gdq = num_flagged fo P ng nr nc (gdq (nints - 1)).
  Proof. intro H. unfold last_flagged. destruct nints as [|m]; [lia|]. rewrite seq_S, fold_left_app. cbn. f_equal. f_equal. lia. Qed.
End C22a.
Section C22.
  Variable fo : FOps.
  Variable P : params fo.
  Variable kd : N.
  Hypothesis Hd : p_dnu P = bit kd.
  Lemma filter_negb_len {A} (p : A -> bool) l : length (filter p l) + length (filter (fun x => negb (p x)) l) = length l.
  Proof. induction l as [|x l IH]; cbn; [reflexivity|]. destruct (p x); cbn; lia. Qed.
  Lemma usable_flagged ng nr nc g : n_usable kd ng nr nc g + num_flagged fo P ng nr nc g = ng.
  Proof.
    unfold n_usable, num_flagged, count_if. set (p := fun k => existsb _ (seq 0 nr)).
    rewrite (filter_ext_in' (fun k => all_pix nr nc (fun r c => has (g k r c) (p_dnu P))) (fun k => negb (p k))).
    - rewrite filter_negb_len. apply seq_length.
    - intros k _. apply eq_true_iff_eq. rewrite all_pix_spec, negb_true_iff, <- not_true_iff_false. unfold p. rewrite existsb_seq. split.
      + intros H (r & Hr & E). rewrite existsb_seq in E. destruct E as (c & Hc & E).
        specialize (H r c Hr Hc). rewrite Hd, has_bit in H. rewrite H in E. discriminate.
      + intros H r c Hr Hc. rewrite Hd, has_bit. destruct (N.testbit (g k r c) kd) eqn:E; [reflexivity|].
        exfalso. apply H. exists r. split; [exact Hr|]. rewrite existsb_seq. exists c. split; [exact Hc|]. rewrite E. reflexivity.
  Qed.
End C22.

(** The exposure is skipped exactly when some integration has fewer usable groups than the minimum and
    sigma clipping lacks data: fewer integrations than requested, or (when groups are counted) fewer
    groups -- where the code deducts only the unusable groups of the last integration. *)
Theorem C22_skip_iff : forall fo (P : params fo) kd nints ng nr nc gdq,
  p_dnu P = bit kd -> 0 < nints ->
  skip fo P nints ng nr nc gdq = true <->
  (exists i, i < nints /\ (Z.of_nat (n_usable kd ng nr nc (gdq i)) < p_mingroups P)%Z) /\
  (if p_onlyints P then (Z.of_nat nints < p_minsigclip P)%Z
   else (Z.of_nat ((nints - 1) * ng + n_usable kd ng nr nc (gdq (nints - 1)))%nat < p_minsigclip P)%Z).
Proof.
  intros fo P kd nints ng nr nc gdq Hd Hn. unfold skip. rewrite andb_true_iff.
  unfold check_group_counts, groups_all_set_dnu. cbn [c_min_usable c_total_sigclip].
  destruct (max_flagged_spec fo P nints ng nr nc gdq) as [H1 H2].
  pose proof (fun i => usable_flagged fo P kd Hd ng nr nc (gdq i)) as HU.
  apply and_compat.
  - rewrite Z.ltb_lt. split.
    + intro H. destruct H2 as [H2|(i & Hi & H2)]; [exists 0; specialize (HU 0); specialize (H1 0 Hn); split; lia|].
      exists i. specialize (HU i). split; [exact Hi|lia].
    + intros (i & Hi & H). specialize (HU i). specialize (H1 i Hi). lia.
  - destruct (p_onlyints P); cbn [andb negb orb]; [rewrite orb_false_r, Z.ltb_lt; reflexivity|].
    rewrite Z.ltb_lt, (last_flagged_spec fo P nints ng nr nc gdq Hn). specialize (HU (nints - 1)).
    assert (E : Z.of_nat (nints * ng) = (Z.of_nat ((nints - 1) * ng) + Z.of_nat ng)%Z) by nia. lia.
Qed.
Print Assumptions C22_skip_iff.

(** Then nothing is flagged and no neighbour rows are reported. *)
Theorem C22_too_few_groups : forall fo med sigclip crowded (P : params fo) kd nints ng nr nc dat gdq rn,
  p_dnu P = bit kd ->
  (exists i, i < nints /\ (Z.of_nat (n_usable kd ng nr nc (gdq i)) < p_mingroups P)%Z) ->
  (p_onlyints P = true /\ (Z.of_nat nints < p_minsigclip P)%Z \/
   p_onlyints P = false /\ nints = 1 /\ (Z.of_nat (n_usable kd ng nr nc (gdq 0%nat)) < p_minsigclip P)%Z) ->
  let x := find_crs fo med sigclip crowded P nints ng nr nc dat gdq rn in
  (forall i g r c, res_gdq x i g r c = gdq i g r c) /\
  (forall i g c, res_below x i g c = 0%N /\ res_above x i g c = 0%N).
Proof.
  intros fo med sigclip crowded P kd nints ng nr nc dat gdq rn Hd Hu Hm. cbv zeta.
  assert (S : skip fo P nints ng nr nc gdq = true).
  { apply (C22_skip_iff fo P kd); [exact Hd|destruct Hu as (i & Hi & _); lia|]. split; [exact Hu|].
    destruct Hm as [[-> H]|[-> [-> H]]]; [exact H|]. cbn [Nat.sub Nat.mul Nat.add]. exact H. }
  unfold find_crs. rewrite S. cbn. auto.
Qed.
Print Assumptions C22_too_few_groups.
Example C22_example : let gdq : arr4 N := fun i g r c => if Nat.leb g 3 then 1%N else 0%N in
  n_usable 0 6 2 1 (gdq 0) = 2 /\ skip B64 (exP 3 100 true) 1 6 2 1 gdq = true /\ skip B64 (exP 2 100 true) 1 6 2 1 gdq = false.
Proof. vm_compute. auto. Qed.

(** When groups of several integrations are counted the decision depends on their order: six usable
    groups, eight requested, yet jumps are flagged; with the integrations swapped the step is skipped. *)
Theorem C22_group_count_refuted : exists gdq : arr4 N,
  (n_usable 0 5 1 1 (gdq 0) + n_usable 0 5 1 1 (gdq 1) = 6) /\
  skip B64 (exP 3 8 false) 2 5 1 1 gdq = false /\
  skip B64 (exP 3 8 false) 2 5 1 1 (fun i => gdq (1 - i)) = true.
Proof. exists (fun i g r c => if Nat.eqb i 0 && Nat.leb g 3 then 1%N else 0%N). vm_compute. auto. Qed.
Print Assumptions C22_group_count_refuted.

(** ** C23 *)
(** The image-wide search flags difference [j] of integration [i] exactly when the per-pixel iteration
    clips it in some round; no other bit changes. *)
Theorem C23_iterative_search : forall fo, FLaws fo -> fisnan fo (fnan fo) = true ->
  forall med (P : params fo) kj kd ks nints nd nr nc gdq fd rn2 i g r c,
  flag_bits P kj kd ks -> thresholds_ok fo P -> i < nints -> r < nr -> c < nc ->
  let d := fun a b => fabs fo (fd a b r c) in
  let out := iterative_jump fo med P nints nd nr nc gdq fd rn2 in
  (N.testbit (out i g r c) kj = true <->
     N.testbit (gdq i g r c) kj = true \/
     (1 <= g <= nd /\ exists k, clipped fo med P nints nd (rn2 r c) (after fo med P nints nd (rn2 r c) k d) i (g - 1) = true)) /\
  (forall k, k <> kj -> N.testbit (out i g r c) k = N.testbit (gdq i g r c) k).
Proof.
  intros fo L HN med P kj kd ks nints nd nr nc gdq fd rn2 i g r c (Hj & _) T Hi Hr Hc. cbv zeta.
  pose proof (fun k => iterative_testbit fo L HN med P kj Hj T nints nd nr nc gdq fd rn2 r c i g k Hr Hc Hi) as H. split.
  - rewrite H, N.eqb_refl. cbn [andb]. rewrite orb_true_iff, !andb_true_iff, Nat.ltb_lt, Nat.leb_le, (found_exists fo L HN med P kj Hj).
    unfold C, A. intuition lia.
  - intros k Hk. rewrite H. destruct (N.eqb_spec kj k); [congruence|]. cbn [andb]. apply orb_false_r.
Qed.
Print Assumptions C23_iterative_search.

(** What a clip is: the difference is in use, no excess is larger, at least two differences are in use
    and the excess is over the limit for that many. *)
Theorem C23_clip : forall fo, FLaws fo -> forall med (P : params fo) nints nd rn2 d i j,
  clipped fo med P nints nd rn2 d i j = true ->
  i < nints /\ j < nd /\ fisnan fo (d i j) = false /\
  (forall a b, a < nints -> b < nd -> flt fo (excess fo med P nints nd rn2 d i j) (excess fo med P nints nd rn2 d a b) = false) /\
  (let u := length (in_use fo nints nd d) in
   2 <= u /\ flt fo (match u with 2 => p_thresh2 P | 3 => p_thresh3 P | _ => p_thresh P end) (excess fo med P nints nd rn2 d i j) = true).
Proof.
  intros fo L med P nints nd rn2 d i j H. pose proof (clipped_notnan fo L med P nints nd rn2 d i j H) as Hn.
  destruct (clipped_range fo med P nints nd rn2 d i j H) as [Hi Hj].
  do 3 (split; [assumption|]). unfold clipped in H. rewrite !andb_true_iff, forallb_forall in H. destruct H as ((_ & Hall) & Hl). split.
  - intros a b Ha Hb. specialize (Hall (a, b)). rewrite in_grid in Hall. apply negb_true_iff, Hall. auto.
  - cbv zeta. unfold limit in Hl. destruct (length (in_use fo nints nd d)) as [|[|[|[|n]]]]; try discriminate; (split; [lia|exact Hl]).
Qed.
Print Assumptions C23_clip.

(** Rounds stop: from some round before the number of differences on, nothing is clipped any more, and a
    clipped difference never comes back into use nor is clipped again. *)
Theorem C23_terminates : forall fo, FLaws fo -> fisnan fo (fnan fo) = true ->
  forall med (P : params fo) nints nd rn2 d k i j, nints * nd <= k + 1 ->
  clipped fo med P nints nd rn2 (after fo med P nints nd rn2 k d) i j = false.
Proof. intros. apply no_clip_end; assumption. Qed.
Print Assumptions C23_terminates.
Theorem C23_stops_for_good : forall fo med (P : params fo) nints nd rn2 d k,
  (forall i j, clipped fo med P nints nd rn2 (after fo med P nints nd rn2 k d) i j = false) ->
  forall m, k <= m -> forall i j, clipped fo med P nints nd rn2 (after fo med P nints nd rn2 m d) i j = false.
Proof. intros fo med P nints nd rn2 d k H m Hm. apply (no_clip_stays fo med P nints nd rn2 k d H m Hm). Qed.
Print Assumptions C23_stops_for_good.
Theorem C23_never_readmitted : forall fo, FLaws fo -> fisnan fo (fnan fo) = true ->
  forall med (P : params fo) nints nd rn2 d k i j,
  clipped fo med P nints nd rn2 (after fo med P nints nd rn2 k d) i j = true ->
  forall m, k < m -> fisnan fo (after fo med P nints nd rn2 m d i j) = true /\
                     clipped fo med P nints nd rn2 (after fo med P nints nd rn2 m d) i j = false.
Proof.
  intros fo L HN med P nints nd rn2 d k i j H m Hm. apply (once_nan fo L HN med P nints nd rn2 (S k)); [|lia].
  rewrite after_S, H. exact HN.
Qed.
Print Assumptions C23_never_readmitted.

(** differences 10, 11, 500, 200: round 0 clips 500, round 1 clips 200 *)
Definition exd : nat -> nat -> B64 := fun i j => nth j (map z64 [10; 11; 500; 200]%Z) (z64 0).
Example C23_example : let P := exP 3 100 true in
  let cl k := map (fun j => clipped B64 med64 P 1 4 (z64 1) (after B64 med64 P 1 4 (z64 1) k exd) 0 j) (seq 0 4) in
  cl 0 = [false; false; true; false] /\ cl 1 = [false; false; false; true].
Proof. vm_compute. auto. Qed.

(** Two equal outliers are clipped in the same round. *)
Theorem C23_one_per_round_refuted : exists d : nat -> nat -> B64, exists j1 j2, j1 <> j2 /\
  clipped B64 med64 (exP 3 100 true) 1 6 (z64 1) d 0 j1 = true /\ clipped B64 med64 (exP 3 100 true) 1 6 (z64 1) d 0 j2 = true.
Proof. exists (fun i j => nth j (map z64 [10; 500; 10; 500; 12; 11]%Z) (z64 0)), 1, 3. split; [discriminate|]. vm_compute. auto. Qed.
Print Assumptions C23_one_per_round_refuted.
