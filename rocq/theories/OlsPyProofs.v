(** Lemmas about the python around the OLS fitter. *)
From Verif Require Import Base BaseLemmas OlsModel OlsPyModel.

(** ** DQ compression *)
Lemma total_spec flag l : forall a, fold_left (fun a w => if has w flag then S a else a) l a = a + length (filter (fun w => has w flag) l).
Proof.
  induction l as [|w l IH]; intro a; cbn [fold_left filter]; [cbn; lia|]. rewrite IH. destruct (has w flag); cbn [length]; lia.
Qed.
Lemma filter_full {A} (p : A -> bool) l : Nat.eqb (length (filter p l)) (length l) = forallb p l.
Proof.
  induction l as [|x l IH]; [reflexivity|]. cbn [filter forallb length]. destruct (p x); cbn [length andb]; [exact IH|].
  apply Nat.eqb_neq. assert (length (filter p l) <= length l); [|lia]. clear. induction l as [|y l IH]; [cbn; lia|]. cbn [filter]. destruct (p y); cbn [length]; lia.
Qed.
Lemma set_if_total_spec final l flag s : set_if_total final l flag s = N.lor final (flag_if (forallb (fun w => has w flag) l) s).
Proof. unfold set_if_total. rewrite total_spec. cbn [Nat.add]. rewrite filter_full. destruct (forallb _ l); cbn [flag_if]; [reflexivity|rewrite N.lor_0_r; reflexivity]. Qed.
Lemma sumf_spec flag l : N.ltb 0 (fold_left (fun a w => a + N.land w flag)%N l 0%N) = existsb (fun w => has w flag) l.
Proof.
  assert (H : forall l a, N.ltb 0 (fold_left (fun a w => a + N.land w flag)%N l a) = N.ltb 0 a || existsb (fun w => has w flag) l).
  { clear. induction l as [|w l IH]; intro a; cbn [fold_left existsb]; [rewrite orb_false_r; reflexivity|]. rewrite IH. rewrite orb_assoc. f_equal. unfold has.
    destruct (N.eqb_spec (N.land w flag) 0) as [->|E]; cbn [negb]; [rewrite N.add_0_r, orb_false_r; reflexivity|]. rewrite orb_true_r. apply N.ltb_lt. lia. }
  rewrite H. reflexivity.
Qed.
Lemma sect_spec f l pdq : dq_compress_sect f l pdq =
  N.lor (N.lor (N.lor pdq (flag_if (forallb (fun w => has w (N.lor (o_sat f) (o_dnu f))) l) (o_dnu f)))
    (flag_if (existsb (fun w => has w (o_sat f)) l) (o_sat f))) (flag_if (existsb (fun w => has w (o_jump f)) l) (o_jump f)).
Proof.
  unfold dq_compress_sect. rewrite set_if_total_spec, !sumf_spec. destruct (existsb (fun w => has w (o_sat f)) l), (existsb (fun w => has w (o_jump f)) l); cbn [flag_if]; rewrite ?N.lor_0_r; reflexivity.
Qed.
Lemma fold_lor_bit l : forall w j, N.testbit (fold_left N.lor l w) j = N.testbit w j || existsb (fun v => N.testbit v j) l.
Proof. induction l as [|v l IH]; intros w j; cbn [fold_left existsb]; [rewrite orb_false_r; reflexivity|]. rewrite IH, N.lor_spec, orb_assoc. reflexivity. Qed.
Lemma final_spec dnu w l : exists v, dq_compress_final (bit dnu) (w :: l) = Some v /\
  forall j, N.testbit v j = if N.eqb j dnu then forallb (fun x => N.testbit x j) (w :: l) else existsb (fun x => N.testbit x j) (w :: l).
Proof.
  eexists. split; [reflexivity|]. intro j. rewrite set_if_total_spec, N.lor_spec, flag_if_testbit, N.ldiff_spec, fold_lor_bit, bit_testbit.
  replace (forallb (fun w0 => has w0 (bit dnu)) (w :: l)) with (forallb (fun w0 => N.testbit w0 dnu) (w :: l)) by (cbn [forallb]; rewrite has_bit; f_equal; induction l as [|x l IH]; [reflexivity|]; cbn [forallb]; rewrite has_bit, IH; reflexivity).
  rewrite (N.eqb_sym dnu j). destruct (N.eqb_spec j dnu) as [->|]; cbn [negb]; rewrite ?andb_false_r, ?andb_true_r, ?orb_false_r; reflexivity.
Qed.

(** ** Pixels *)
Lemma pixels_in nr nc rc : In rc (pixels nr nc) <-> fst rc < nr /\ snd rc < nc.
Proof.
  unfold pixels. rewrite in_flat_map. split.
  - intros (r & I & J). apply in_map_iff in J. destruct J as (c & <- & K). apply in_seq in I. apply in_seq in K. cbn [fst snd]. lia.
  - intros [A B]. exists (fst rc). split; [apply in_seq; lia|]. apply in_map_iff. exists (snd rc). split; [destruct rc; reflexivity|apply in_seq; lia].
Qed.

(** ** Suppression *)
Lemma or_pixels dnu l : forall dq g r c, fold_left (or_pixel dnu) l dq g r c = N.lor (dq g r c) (flag_if (existsb (fun rc => Nat.eqb r (fst rc) && Nat.eqb c (snd rc)) l) dnu).
Proof.
  induction l as [|rc l IH]; intros; cbn [fold_left existsb]; [cbn [flag_if]; rewrite N.lor_0_r; reflexivity|]. rewrite IH. unfold or_pixel.
  destruct (Nat.eqb r (fst rc) && Nat.eqb c (snd rc)); cbn [orb flag_if]; [|reflexivity]. destruct (existsb _ l); cbn [flag_if]; rewrite ?N.lor_0_r; [|reflexivity].
  rewrite <- N.lor_assoc, N.lor_diag. reflexivity.
Qed.
Lemma suppress_integ_spec f ng nr nc dq g r c :
  suppress_integ f ng nr nc dq g r c = N.lor (dq g r c) (flag_if (Nat.ltb r nr && Nat.ltb c nc && one_good (o_pers f) ng dq (r, c)) (o_dnu f)).
Proof.
  unfold suppress_integ. rewrite or_pixels. f_equal. f_equal. apply eq_true_iff_eq. rewrite existsb_exists, !andb_true_iff, !Nat.ltb_lt. split.
  - intros (rc & I & E). apply filter_In in I. destruct I as [I O]. apply pixels_in in I. apply andb_true_iff in E. rewrite !Nat.eqb_eq in E. destruct rc as [a b]. cbn [fst snd] in *. destruct E as [-> ->]. tauto.
  - intros [[A B] O]. exists (r, c). split; [apply filter_In; split; [apply pixels_in; split; assumption|assumption]|]. cbn [fst snd]. rewrite !Nat.eqb_refl. reflexivity.
Qed.
Lemma suppress_spec f ni ng nr nc dq i : suppress f ni ng nr nc dq i = if Nat.ltb i ni then suppress_integ f ng nr nc (dq i) else dq i.
Proof.
  unfold suppress. induction ni as [|n IH]; [reflexivity|]. rewrite seq_S, fold_left_app. cbn [fold_left Nat.add]. unfold upd at 1.
  destruct (Nat.eqb_spec i n) as [->|NE].
  - rewrite (proj2 (Nat.ltb_lt n (S n))) by lia. f_equal. rewrite IH, Nat.ltb_irrefl. reflexivity.
  - rewrite IH. destruct (Nat.ltb_spec i n), (Nat.ltb_spec i (S n)); try reflexivity; lia.
Qed.

(** ** MIRI *)
Section Miri.
  Variables dnu jump sat pers ngval chg : N.
  Variables ni ng nr nc : nat.
  Let f := {| o_dnu := bit dnu; o_jump := bit jump; o_sat := bit sat; o_pers := bit pers; o_ngval := bit ngval; o_chg := bit chg |}.
  Hypothesis DJ : dnu <> jump.
  Notation arr := (nat -> nat -> img N).
  Definition inside (i r c : nat) : bool := Nat.ltb i ni && Nat.ltb r nr && Nat.ltb c nc.
  (** JUMP_DET cleared in groups 1..n *)
  Definition clr (n : nat) (mem : arr) : arr := fun i j r c => if inside i r c && Nat.leb 1 j && Nat.leb j n then N.ldiff (mem i j r c) (bit jump) else mem i j r c.
  Definition peq (a b : arr) : Prop := forall i j r c, a i j r c = b i j r c.
  Lemma sub_bit w k : N.testbit w k = true -> N.sub w (bit k) = N.ldiff w (bit k).
  Proof.
    intro T. symmetry. rewrite N.sub_nocarry_ldiff; [reflexivity|]. apply N.bits_inj. intro j. rewrite N.ldiff_spec, bit_testbit, N.bits_0.
    destruct (N.eqb_spec k j) as [<-|]; [rewrite T; reflexivity|reflexivity].
  Qed.
  Lemma clear_one mem i g r c j : clear_jump f ni nr nc mem g i j r c = if inside i r c && Nat.eqb j g then N.ldiff (mem i j r c) (bit jump) else mem i j r c.
  Proof.
    unfold clear_jump, inside. cbn [f o_jump]. rewrite has_bit. destruct (Nat.ltb i ni), (Nat.ltb r nr), (Nat.ltb c nc), (Nat.eqb j g); cbn [andb]; try reflexivity.
    destruct (N.testbit (mem i j r c) jump) eqn:T; [apply sub_bit; assumption|]. apply N.bits_inj. intro b. rewrite N.ldiff_spec, bit_testbit. destruct (N.eqb_spec jump b) as [<-|]; [rewrite T; reflexivity|]. rewrite andb_true_r. reflexivity.
  Qed.
  Lemma clr_dnu n mem i j r c : N.testbit (clr n mem i j r c) dnu = N.testbit (mem i j r c) dnu.
  Proof. unfold clr. destruct (_ && _ && _); [|reflexivity]. rewrite N.ldiff_spec, bit_testbit, (proj2 (N.eqb_neq jump dnu)), andb_true_r by congruence. reflexivity. Qed.
  Definition group_bad (mem : arr) (g : nat) : Prop := forall i r c, i < ni -> r < nr -> c < nc -> N.testbit (mem i g r c) dnu = true.
  Lemma all_dnu_spec mem g : all_dnu f ni nr nc mem g = true <-> group_bad mem g.
  Proof.
    unfold all_dnu. rewrite forallb_forall. split.
    - intros H i r c I R C. specialize (H i). rewrite in_seq, forallb_forall in H. specialize (H ltac:(lia) (r, c)). cbn [fst snd f o_dnu] in H. rewrite has_bit in H. apply H, pixels_in. cbn; lia.
    - intros H i I. apply in_seq in I. apply forallb_forall. intros rc J. apply pixels_in in J. cbn [f o_dnu]. rewrite has_bit. apply H; lia.
  Qed.
  Lemma bad_clr n mem mem' g : peq mem' (clr n mem) -> group_bad mem' g <-> group_bad mem g.
  Proof. intro E. split; intros H i r c I R C; specialize (H i r c I R C); rewrite E, clr_dnu in *; assumption. Qed.
  (** number of leading bad groups *)
  Definition leading (mem : arr) (L : nat) : Prop := L <= ng /\ (forall g, g < L -> group_bad mem g) /\ (L < ng -> ~ group_bad mem L).
  Lemma loop_spec mem L : leading mem L -> forall fuel mem' off rem, peq mem' (clr off mem) -> off + rem = ng -> 1 <= rem <= fuel -> off <= L ->
    let r := miri_loop f ni nr nc fuel mem' off rem in
    peq (fst r) (clr (Nat.min L (ng - 1)) mem) /\ snd r = if Nat.eqb L ng then None else Some (L, ng - L).
  Proof.
    intros (LN & LB & LS). induction fuel as [|k IH]; intros mem' off rem E S0 B O; [lia|]. cbv zeta. cbn [miri_loop].
    destruct (all_dnu f ni nr nc mem' off) eqn:A.
    - apply all_dnu_spec in A. rewrite (bad_clr off mem mem' off E) in A.
      assert (off < L). { destruct (Nat.eq_dec off L) as [->|]; [|lia]. exfalso. apply LS; [lia|exact A]. }
      destruct (Nat.ltb_spec (rem - 1) 1).
      + cbn [fst snd]. replace (Nat.min L (ng - 1)) with off by lia. split; [assumption|]. rewrite (proj2 (Nat.eqb_eq L ng)) by lia. reflexivity.
      + apply IH; [|lia|lia|lia]. intros i j r c. rewrite clear_one, !E. unfold clr. destruct (inside i r c); cbn [andb]; [|reflexivity].
        destruct (Nat.eqb_spec j (S off)) as [->|NE].
        * rewrite (proj2 (Nat.leb_gt (S off) off)), (proj2 (Nat.leb_le 1 (S off))), Nat.leb_refl by lia. reflexivity.
        * destruct (Nat.leb_spec 1 j); cbn [andb]; [|reflexivity]. destruct (Nat.leb_spec j off), (Nat.leb_spec j (S off)); try reflexivity; lia.
    - cbn [fst snd]. assert (NB : ~ group_bad mem off) by (rewrite <- (bad_clr off mem mem' off E), <- all_dnu_spec, A; discriminate).
      assert (L = off) by (destruct (Nat.eq_dec L off); [assumption|]; exfalso; apply NB, LB; lia). subst L.
      rewrite (proj2 (Nat.eqb_neq off ng)) by lia. replace (Nat.min off (ng - 1)) with off by lia. split; [assumption|]. f_equal. f_equal. lia.
  Qed.
  Theorem miri_spec mem L : 1 <= ng -> leading mem L ->
    let r := discard_miri f ni ng nr nc mem in
    peq (fst r) (clr (Nat.min L (ng - 1)) mem) /\
    forall last : bool, (last = true <-> group_bad mem (ng - 1)) ->
    snd r = if Nat.ltb (ng - L - (if last then 1 else 0)) 2 then None else Some (L, ng - L - (if last then 1 else 0)).
  Proof.
    intros N LD. cbv zeta. unfold discard_miri.
    destruct (loop_spec mem L LD (S ng) mem 0 ng) as [E R]; [intros i j r c; unfold clr; destruct j; cbn [Nat.leb]; rewrite !andb_false_r; reflexivity|lia|lia|lia|].
    destruct (miri_loop f ni nr nc (S ng) mem 0 ng) as [mem' r]. cbn [fst snd] in *. subst r. split; [assumption|]. intros last HL.
    destruct LD as (LN & LB & LS). destruct (Nat.eqb_spec L ng) as [->|NE]; cbn [bind].
    - rewrite (proj2 (Nat.ltb_lt _ 2)); [reflexivity|]. destruct last; lia.
    - replace (L + (ng - L) - 1) with (ng - 1) by lia.
      assert (A : all_dnu f ni nr nc mem' (ng - 1) = last).
      { apply eq_true_iff_eq. rewrite all_dnu_spec, (bad_clr _ mem mem' _ E). symmetry. exact HL. }
      rewrite A. destruct last; cbn [bind].
      + destruct (Nat.ltb_spec (ng - L - 1) 1); cbn [bind]; [rewrite (proj2 (Nat.ltb_lt (ng - L - 1) 2)) by lia; reflexivity|]. reflexivity.
      + rewrite Nat.sub_0_r. reflexivity.
  Qed.
End Miri.

(** ** Byte order *)
Lemma swap_swap a : byteswap (byteswap a) = a.
Proof. destruct a as [mem fr]. unfold byteswap. cbn. rewrite map_map. f_equal. rewrite <- (map_id mem) at 2. apply map_ext. intro. apply rev_involutive. Qed.
Lemma handled_values {V} (dec : list N -> V) a : c_values dec (fst (handle_endianness a)) = np_values dec a.
Proof. unfold handle_endianness, c_values, np_values. destruct (b_foreign a); cbn [fst byteswap b_mem]; [rewrite map_map; reflexivity|reflexivity]. Qed.
