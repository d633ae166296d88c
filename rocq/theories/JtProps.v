(** C123: jump detection does not depend on the unit of time, and an evenly spaced read pattern is the same as none. *)
From Coq Require Import String Reals Lra FunctionalExtensionality.
From Verif Require Import Base BaseLemmas FLaws RBase RNBase JumpModel JumpSpec JumpProps SnowModel SnowProps MpModel JdModel JdProps JdUnits.
Notation length := List.length.
Local Open Scope nat_scope.

Definition sc (c : R) (x : RN) : RN := match x with Some a => Some (a / c)%R | None => None end.
(** the same parameters, times counted in a unit c times smaller *)
Definition slower (c : R) (P : params RN) : params RN :=
  {| p_dnu := p_dnu P; p_sat := p_sat P; p_jump := p_jump P; p_thresh := p_thresh P; p_thresh3 := p_thresh3 P;
     p_thresh2 := p_thresh2 P; p_neigh := p_neigh P; p_maxneigh := p_maxneigh P; p_minneigh := p_minneigh P;
     p_n1 := p_n1 P; p_n2 := p_n2 P; p_e1 := p_e1 P; p_e2 := p_e2 P; p_mingroups := p_mingroups P;
     p_minsigclip := p_minsigclip P; p_onlyints := p_onlyints P; p_singlepass := p_singlepass P;
     p_dt := fun j => fmul RN (p_dt P j) (Some c); p_nreads := p_nreads P; p_uniform := p_uniform P |}.
(** a sigma clipping that does not depend on the unit *)
Definition clips_any_unit (sigclip : bool -> nat -> nat -> (nat -> nat -> RN) -> nat -> nat -> bool) : Prop :=
  forall (c : R) b n m d, (0 < c)%R -> sigclip b n m (fun i j => fdiv RN (d i j) (Some c)) = sigclip b n m d.

Section Slower.
  Variable med : list RN -> RN.
  Variable sigclip : bool -> nat -> nat -> (nat -> nat -> RN) -> nat -> nat -> bool.
  Variable crowded : nat -> nat -> nat -> cube bool -> bool.
  Hypothesis HM : follows_unit med.
  Hypothesis HS : clips_any_unit sigclip.
  Variable c : R.
  Hypothesis C : (0 < c)%R.
  Variable P : params RN.
  Notation P' := (slower c P).
  Notation S := (sc c).

  Lemma sc_div x : fdiv RN x (Some c) = S x.
  Proof. destruct x; cbn; [|reflexivity]. unfold Reqb. destruct (Req_EM_T c 0); [lra|reflexivity]. Qed.
  Lemma sc_divf : (fun x => fdiv RN x (Some c)) = S.
  Proof. apply functional_extensionality. exact sc_div. Qed.
  Lemma Reqb0 a : Reqb (a * c) 0 = Reqb a 0.
  Proof. unfold Reqb. destruct (Req_EM_T (a * c) 0) as [E|E], (Req_EM_T a 0) as [F|F]; try reflexivity; exfalso; [apply F|apply E]; nra. Qed.
  Lemma div_c_lt a b : Rltb (a / c) (b / c) = Rltb a b.
  Proof.
    assert (I : (0 < / c)%R) by (apply Rinv_0_lt_compat; exact C). unfold Rltb, Rdiv. destruct (Rlt_dec (a * / c) (b * / c)), (Rlt_dec a b); try reflexivity; exfalso; nra.
  Qed.
  Lemma div_c_eq a b : Reqb (a / c) (b / c) = Reqb a b.
  Proof.
    assert (I : (0 < / c)%R) by (apply Rinv_0_lt_compat; exact C). unfold Reqb, Rdiv. destruct (Req_EM_T (a * / c) (b * / c)) as [E|E], (Req_EM_T a b) as [F|F]; try reflexivity; exfalso; [apply F|apply E; congruence].
    apply Rmult_eq_reg_r in E; lra.
  Qed.
  Lemma sc_lt x y : flt RN (S x) (S y) = flt RN x y.
  Proof. destruct x, y; try reflexivity. apply div_c_lt. Qed.
  Lemma sc_eq x y : feq RN (S x) (S y) = feq RN x y.
  Proof. destruct x, y; try reflexivity. apply div_c_eq. Qed.
  Lemma sc_nan x : fisnan RN (S x) = fisnan RN x.
  Proof. destruct x; reflexivity. Qed.
  Lemma sc_fin x : fisfinite RN (S x) = fisfinite RN x.
  Proof. destruct x; reflexivity. Qed.
  Lemma sc_abs x : fabs RN (S x) = S (fabs RN x).
  Proof. destruct x as [x|]; [|reflexivity]. cbn. f_equal. unfold Rdiv. rewrite Rabs_mult, (Rabs_pos_eq (/ c)); [reflexivity|]. left. apply Rinv_0_lt_compat. exact C. Qed.
  Lemma sc_sub x y : fsub RN (S x) (S y) = S (fsub RN x y).
  Proof. destruct x, y; try reflexivity. cbn. f_equal. field. lra. Qed.
  (** a quotient of two scaled values *)
  Lemma sc_quot x y : fdiv RN (S x) (S y) = fdiv RN x y.
  Proof.
    destruct x as [x|], y as [y|]; try reflexivity. cbn. assert (E : Reqb (y / c) 0 = Reqb y 0) by (rewrite <- (div_c_eq y 0); f_equal; field; lra). rewrite E.
    unfold Reqb. destruct (Req_EM_T y 0); [reflexivity|]. f_equal. field. split; lra.
  Qed.
  Lemma sc_mul x y : fmul RN (S x) (fmul RN y (Some c)) = fmul RN x y.
  Proof. destruct x, y; try reflexivity. cbn. f_equal. field. lra. Qed.
  Lemma div_mul x y : fdiv RN x (fmul RN y (Some c)) = S (fdiv RN x y).
  Proof. destruct x as [x|], y as [y|]; try reflexivity. cbn. rewrite Reqb0. unfold Reqb. destruct (Req_EM_T y 0); [reflexivity|]. cbn. f_equal. field. split; lra. Qed.
  Lemma sc_zero x : feq RN (S x) (fzero RN) = feq RN x (fzero RN).
  Proof. rewrite <- (sc_eq x). f_equal. cbn. f_equal. field. lra. Qed.

  Lemma nonnan_sc l : nonnan RN (map S l) = map S (nonnan RN l).
  Proof. induction l as [|x l IH]; [reflexivity|]. unfold nonnan in *. cbn [map filter]. rewrite sc_nan. destruct (negb (fisnan RN x)); cbn [map]; rewrite IH; reflexivity. Qed.
  Lemma nanmedian_sc l : nanmedian RN med (map S l) = S (nanmedian RN med l).
  Proof. pose proof (nanmedian_unit med c l HM C) as E. rewrite sc_divf, sc_div in E. exact E. Qed.
  Lemma fold_sc (p : RN -> RN -> bool) l : (forall x y, p (S x) (S y) = p x y) -> forall x, fold_left (fun m y => if p m y then y else m) (map S l) (S x) = S (fold_left (fun m y => if p m y then y else m) l x).
  Proof. intro H. induction l as [|y l IH]; intro x; [reflexivity|]. cbn [map fold_left]. rewrite H. destruct (p x y); apply IH. Qed.
  Lemma nanmax_sc l : nanmax RN (map S l) = S (nanmax RN l).
  Proof. unfold nanmax. rewrite nonnan_sc. destruct (nonnan RN l); [reflexivity|]. cbn [map]. apply (fold_sc (fun m y => flt RN m y)). intros. apply sc_lt. Qed.
  Lemma nanmin_sc l : nanmin RN (map S l) = S (nanmin RN l).
  Proof. unfold nanmin. rewrite nonnan_sc. destruct (nonnan RN l); [reflexivity|]. cbn [map]. apply (fold_sc (fun m y => flt RN y m)). intros. apply sc_lt. Qed.
  Lemma calc_sc l : calc_med_first_diffs RN med (map S l) = S (calc_med_first_diffs RN med l).
  Proof.
    unfold calc_med_first_diffs. rewrite nonnan_sc, map_length, nanmax_sc.
    set (f := fun x => if Nat.leb 4 (length (nonnan RN l)) && feq RN x (nanmax RN l) then fnan RN else x).
    assert (E : map (fun x => if Nat.leb 4 (length (nonnan RN l)) && feq RN x (S (nanmax RN l)) then fnan RN else x) (map S l) = map S (map f l)).
    { rewrite !map_map. apply map_ext. intro x. unfold f. rewrite sc_eq. destruct (_ && _); reflexivity. }
    rewrite E. destruct (Nat.eqb _ 2); [apply nanmin_sc|]. destruct (Nat.ltb _ 2); [reflexivity|]. apply nanmedian_sc.
  Qed.
  Lemma sigma_sc m rn2 j : sigma1 RN P' (S m) rn2 j = S (sigma1 RN P m rn2 j).
  Proof. unfold sigma1. cbn [slower p_dt p_nreads]. rewrite sc_abs, sc_mul, div_mul, sc_zero. destruct (feq RN _ (fzero RN)); reflexivity. Qed.
  Lemma sc0 : S (fzero RN) = fzero RN.
  Proof. cbn. f_equal. field. lra. Qed.
  Lemma ratio_sc nints nd d rn2 index : cr_ratio RN med P' nints nd (fun i j => S (d i j)) rn2 index = cr_ratio RN med P nints nd d rn2 index.
  Proof.
    unfold cr_ratio. rewrite (flat2_map S). apply functional_extensionality; intro i. apply functional_extensionality; intro j.
    destruct index.
    - rewrite calc_sc, sigma_sc, sc_sub, sc_abs. apply sc_quot.
    - assert (E : sigma1 RN P' (fzero RN) rn2 j = S (sigma1 RN P (fzero RN) rn2 j)) by (rewrite <- sigma_sc, sc0; reflexivity).
      assert (A : fabs RN (fzero RN) = S (fabs RN (fzero RN))) by (rewrite <- sc_abs, sc0; reflexivity). rewrite E. transitivity (fdiv RN (S (fabs RN (fzero RN))) (S (sigma1 RN P (fzero RN) rn2 j))); [f_equal; exact A|apply sc_quot].
  Qed.
  Lemma pixel_sc nints nd d rn2 index : cr_pixel RN med P' nints nd (fun i j => S (d i j)) rn2 index = cr_pixel RN med P nints nd d rn2 index.
  Proof. unfold cr_pixel. rewrite ratio_sc, (flat2_map S), nonnan_sc, map_length. reflexivity. Qed.
  Definition scs (s : itstate RN) : itstate RN := {| it_gdq := it_gdq RN s; it_d := fun i j r c => S (it_d RN s i j r c); it_cr := it_cr RN s; it_ratio := it_ratio RN s |}.
  Lemma locs_sc nints nd gdq d rn2 index : it_locs RN med P' nints nd gdq (fun i j r c => S (d i j r c)) rn2 index = scs (it_locs RN med P nints nd gdq d rn2 index).
  Proof.
    unfold it_locs, scs. cbn [it_gdq it_d it_cr it_ratio]. f_equal; repeat (apply functional_extensionality; intro).
    - rewrite (pixel_sc nints nd (fun a b => d a b _ _)). reflexivity.
    - rewrite (ratio_sc nints nd (fun a b => d a b _ _)). reflexivity.
  Qed.
  Lemma round_sc nints nd nr nc rn2 s : it_round RN med P' nints nd nr nc rn2 (scs s) = option_map scs (it_round RN med P nints nd nr nc rn2 s).
  Proof.
    unfold it_round. change (new_cr RN nints nd (scs s)) with (new_cr RN nints nd s). destruct (any_pix _ _ _); [|reflexivity]. cbn [option_map]. f_equal. rewrite <- locs_sc. f_equal.
    repeat (apply functional_extensionality; intro). cbn [scs it_d]. destruct (new_cr _ _ _ _ _ _ _ _); reflexivity.
  Qed.
  Lemma loop_sc fuel nints nd nr nc rn2 : forall s, it_loop RN med P' fuel nints nd nr nc rn2 (scs s) = scs (it_loop RN med P fuel nints nd nr nc rn2 s).
  Proof. induction fuel as [|k IH]; intro s; [reflexivity|]. cbn [it_loop]. rewrite round_sc. destruct (it_round RN med P nints nd nr nc rn2 s); [apply IH|reflexivity]. Qed.
  Definition scd (D : detected RN) : detected RN := {| dt_gdq := dt_gdq RN D; dt_fd := fun i j r k => S (dt_fd RN D i j r k); dt_md := fun r k => S (dt_md RN D r k); dt_sigma := fun j r k => S (dt_sigma RN D j r k) |}.
  Lemma detect_sc nints nd nr nc dat gdq rn2 k : run_jump_detection RN med sigclip P' nints nd nr nc dat gdq rn2 k = scd (run_jump_detection RN med sigclip P nints nd nr nc dat gdq rn2 k).
  Proof.
    unfold run_jump_detection.
    assert (F : first_diffs RN P' (mask_data RN P' dat gdq) = fun i j r k => S (first_diffs RN P (mask_data RN P dat gdq) i j r k)).
    { repeat (apply functional_extensionality; intro). unfold first_diffs. cbn [slower p_dt]. rewrite div_mul. reflexivity. }
    assert (M : median_diffs RN med nints nd (first_diffs RN P' (mask_data RN P' dat gdq)) = fun r k => S (median_diffs RN med nints nd (first_diffs RN P (mask_data RN P dat gdq)) r k)).
    { rewrite F. repeat (apply functional_extensionality; intro). unfold median_diffs. rewrite (flat2_map S nints nd (fun i j => first_diffs RN P (mask_data RN P dat gdq) i j _ _)). apply nanmedian_sc. }
    rewrite M, F. unfold scd. cbn [dt_gdq dt_fd dt_md dt_sigma]. set (fd := first_diffs RN P (mask_data RN P dat gdq)). set (md := median_diffs RN med nints nd fd).
    f_equal; [|repeat (apply functional_extensionality; intro); apply sigma_sc].
    change (check_sigma_clip_groups RN P' nints (c_total k)) with (check_sigma_clip_groups RN P nints (c_total k)).
    change (p_singlepass P') with (p_singlepass P).
    destruct (check_sigma_clip_groups RN P nints (c_total k)); [|destruct (Z.leb (p_singlepass P) (c_min_diffs k))].
    - change (sigclip_clear RN P' nr nc) with (sigclip_clear RN P nr nc). f_equal. unfold sigclip_flags. repeat (apply functional_extensionality; intro). rewrite sc_fin.
      assert (E : forall b r k0, sigclip b nints nd (fun a e => S (fd a e r k0)) = sigclip b nints nd (fun a e => fd a e r k0)).
      { intros b r k0. rewrite <- (HS c b nints nd (fun a e => fd a e r k0) C). f_equal. repeat (apply functional_extensionality; intro). symmetry. apply sc_div. }
      rewrite E. reflexivity.
    - unfold single_pass. repeat (apply functional_extensionality; intro). rewrite sc_fin, sigma_sc, sc_sub, sc_abs, sc_quot. reflexivity.
    - unfold iterative_jump.
      assert (A : (fun i j r k0 => fabs RN (S (fd i j r k0))) = fun i j r k0 => S (fabs RN (fd i j r k0))) by (repeat (apply functional_extensionality; intro); apply sc_abs).
      rewrite A, (locs_sc nints nd gdq (fun i j r k0 => fabs RN (fd i j r k0))), loop_sc. reflexivity.
  Qed.
  Lemma neigh_sc gdq fd md sig i g : neigh_flag RN P' gdq (fun i j r k => S (fd i j r k)) (fun r k => S (md r k)) (fun j r k => S (sig j r k)) i g = neigh_flag RN P gdq fd md sig i g.
  Proof. unfold neigh_flag. repeat (apply functional_extensionality; intro). rewrite sc_sub, sc_abs, sc_quot. reflexivity. Qed.
  Lemma big_sc gdq fd md e i : big_jump RN P' gdq (fun i j r k => S (fd i j r k)) (fun r k => S (md r k)) e i = big_jump RN P gdq fd md e i.
  Proof. unfold big_jump. repeat (apply functional_extensionality; intro). cbn [slower p_dt]. rewrite sc_sub, sc_mul. reflexivity. Qed.
  Lemma post_sc nd nr nc D : post_processing RN crowded P' nd nr nc (scd D) = post_processing RN crowded P nd nr nc D.
  Proof.
    unfold post_processing. cbn [scd dt_gdq dt_fd dt_md dt_sigma]. change (p_neigh P') with (p_neigh P). change (p_n1 P') with (p_n1 P). change (p_n2 P') with (p_n2 P).
    assert (E : four_neighbors RN P' nd nr nc (dt_gdq RN D) (fun i j r k => S (dt_fd RN D i j r k)) (fun r k => S (dt_md RN D r k)) (fun j r k => S (dt_sigma RN D j r k)) = four_neighbors RN P nd nr nc (dt_gdq RN D) (dt_fd RN D) (dt_md RN D) (dt_sigma RN D)).
    { unfold four_neighbors. f_equal; [f_equal|]; repeat (apply functional_extensionality; intro); rewrite neigh_sc; reflexivity. }
    rewrite E. destruct (if p_neigh P then _ else _) as [[g1 b] a]. f_equal. f_equal. destruct (_ || _); [|reflexivity].
    unfold transient_jumps. repeat (apply functional_extensionality; intro). rewrite !big_sc. reflexivity.
  Qed.
  Lemma find_sc nints ng nr nc dat gdq rn : find_crs RN med sigclip crowded P' nints ng nr nc dat gdq rn = find_crs RN med sigclip crowded P nints ng nr nc dat gdq rn.
  Proof.
    unfold find_crs. change (skip RN P' nints ng nr nc gdq) with (skip RN P nints ng nr nc gdq). destruct (skip RN P nints ng nr nc gdq); [reflexivity|].
    rewrite detect_sc, post_sc. reflexivity.
  Qed.
End Slower.

(** Detection does not depend on the unit of time. *)
Theorem C123_time_unit : forall med sigclip crowded (P : params RN) nints ng nr nc dat gdq rn n (c : R),
  follows_unit med -> clips_any_unit sigclip -> (0 < c)%R ->
  find_crs RN med sigclip crowded (slower c P) nints ng nr nc dat gdq rn = find_crs RN med sigclip crowded P nints ng nr nc dat gdq rn /\
  detection_stage RN med sigclip crowded (slower c P) nints ng nr nc dat gdq rn n = detection_stage RN med sigclip crowded P nints ng nr nc dat gdq rn n.
Proof.
  intros med sigclip crowded P nints ng nr nc dat gdq rn n c HM HS C. split; [apply find_sc; assumption|].
  unfold detection_stage. change (strip RN (slower c P)) with (strip RN P). f_equal. destruct (Nat.eqb n 1).
  - change (with_mingroups RN (slower c P) 3) with (slower c (with_mingroups RN P 3)). rewrite find_sc by assumption. reflexivity.
  - unfold twopoint_diff_multi. do 2 f_equal. apply map_ext. intro b. apply find_sc; assumption.
Qed.
Print Assumptions C123_time_unit.

(** ** An evenly spaced read pattern *)
Lemma pairs_seq {A B} (f : A -> A -> B) (h : nat -> A) n a : pairs f (map h (seq a n)) = map (fun g => f (h g) (h (g + 1)%nat)) (seq a (n - 1)).
Proof.
  revert a. induction n as [|[|n] IH]; intro a; [reflexivity|reflexivity|].
  replace (Datatypes.S (Datatypes.S n) - 1) with (Datatypes.S n) by lia. specialize (IH (Datatypes.S a)). replace (Datatypes.S n - 1) with n in IH by lia. cbn [seq map pairs] in *. rewrite IH. replace (a + 1) with (Datatypes.S a) by lia. reflexivity.
Qed.
Lemma sum_shift (off : nat -> R) x l : forall a, fold_left (fadd RN) (map (fun k => Some (x + off k)%R : RN) l) (Some a : RN) = Some (a + IZR (Z.of_nat (length l)) * x + fold_right Rplus 0%R (map off l))%R.
Proof.
  induction l as [|k l IH]; intro a; [cbn; f_equal; lra|]. cbn [map fold_left fold_right length]. change (fadd RN (Some a) (Some (x + off k)%R)) with (Some (a + (x + off k))%R : RN).
  rewrite IH, Nat2Z.inj_succ, succ_IZR. f_equal. lra.
Qed.
Lemma mean_shift (off : nat -> R) x m : 0 < m -> mean_of RN (map (fun k => Some (x + off k)%R : RN) (seq 0 m)) = Some (x + fold_right Rplus 0%R (map off (seq 0 m)) / IZR (Z.of_nat m))%R.
Proof.
  intro Hm. unfold mean_of. change (fzero RN) with (Some 0%R : RN). rewrite sum_shift, map_length, seq_length. cbn.
  assert (N0 : IZR (Z.of_nat m) <> 0%R) by (apply not_0_IZR; lia). unfold Reqb. destruct (Req_EM_T _ 0); [contradiction|]. f_equal. field. assumption.
Qed.
Lemma mean_same (x : R) l : l <> [] -> (forall y, In y l -> y = Some x) -> mean_of RN l = Some x.
Proof.
  intros NE H. assert (E : l = map (fun k => Some (x + (fun _ => 0%R) k)%R : RN) (seq 0 (length l))).
  { clear NE. cbv beta. rewrite Rplus_0_r. assert (G : forall a, l = map (fun _ => Some x : RN) (seq a (length l))); [|exact (G 0)]. induction l as [|y l IH]; intro a; [reflexivity|].
    cbn [length seq map]. rewrite (H y (or_introl eq_refl)). apply (f_equal (cons (Some x : RN))). apply IH. intros z Hz. apply H. right. exact Hz. }
  assert (L0 : 0 < length l) by (destruct l; [congruence|cbn; lia]). transitivity (mean_of RN (map (fun k => Some (x + (fun _ => 0%R) k)%R : RN) (seq 0 (length l)))); [f_equal; exact E|]. rewrite (mean_shift (fun _ => 0%R)) by exact L0.
  assert (Z0 : forall k, fold_right Rplus 0%R (map (fun _ : nat => 0%R) k) = 0%R) by (induction k as [|? ? IH]; [reflexivity|cbn [map fold_right]; rewrite IH; lra]).
  rewrite Z0. f_equal. field. apply not_0_IZR. lia.
Qed.
Lemma no_spread_same (x : R) l : l <> [] -> (forall y, In y l -> y = Some x) -> no_spread RN l = true.
Proof.
  intros NE H. unfold no_spread. rewrite (mean_same x l NE H). rewrite (mean_same 0%R).
  - cbn. unfold Rltb. destruct (Rlt_dec 0 0); [lra|]. cbn. rewrite sqrt_0. unfold Reqb. destruct (Req_EM_T 0 0); [reflexivity|lra].
  - destruct l; [congruence|discriminate].
  - intros y Hy. apply in_map_iff in Hy. destruct Hy as (z & <- & Hz). rewrite (H z Hz). cbn. f_equal. rewrite Rminus_diag_eq by reflexivity. rewrite Rabs_R0. lra.
Qed.
Lemma along_same n (x : R) l : l <> [] -> length l = n \/ length l = 1 -> (forall y, In y l -> y = Some x) -> along RN n l = Some (fun _ => Some x).
Proof.
  intros NE HL H. unfold along. destruct l as [|y [|z l]]; [congruence|rewrite (H y (or_introl eq_refl)); reflexivity|].
  destruct HL as [HL|HL]; [|discriminate]. match goal with |- context [Nat.eqb ?a n] => destruct (Nat.eqb_spec a n) as [_|NEQ]; [|exfalso; exact (NEQ HL)] end. f_equal. apply functional_extensionality. intro j.
  destruct (Nat.lt_ge_cases j (length (y :: z :: l))) as [J|J]; [apply H, nth_In; exact J|]. rewrite nth_overflow by exact J. apply H. left. reflexivity.
Qed.

(** the step with another read pattern *)
Definition with_pattern {fo} (J : jump_data fo) (p : option (list (list fo))) (nframes : nat) : jump_data fo := {|
  j_data := j_data J; j_gdq := j_gdq J; j_pdq := j_pdq J; j_gain := j_gain J; j_rn := j_rn J; j_nframes := nframes; j_pattern := p; j_ngv := j_ngv J;
  j_rej := j_rej J; j_three := j_three J; j_four := j_four J; j_neigh := j_neigh J; j_maxneigh := j_maxneigh J; j_minneigh := j_minneigh J;
  j_dn1 := j_dn1 J; j_n1 := j_n1 J; j_dn2 := j_dn2 J; j_n2 := j_n2 J; j_mingroups := j_mingroups J; j_minsigclip := j_minsigclip J; j_onlyints := j_onlyints J; j_singlepass := j_singlepass J;
  j_large := j_large J; j_showers := j_showers J; j_snow := j_snow J; j_cores := j_cores J |}.
(** [ng] groups of [m] reads at the offsets [off] from their start; the groups start [s] apart *)
Definition even_pattern (ng m : nat) (t0 s : R) (off : nat -> R) : list (list RN) :=
  map (fun g => map (fun k => Some (t0 + s * INR g + off k)%R) (seq 0 m)) (seq 0 ng).

Lemma step_slower med sigclip crowded rnd disk sr jr inside reg mean nints ng nr nc available (J : jump_data RN) p1 p2 f1 f2 t1 t2 (d n : R) (c : R) u :
  follows_unit med -> clips_any_unit sigclip -> (0 < c)%R ->
  timing RN f1 p1 = Some t1 -> timing RN f2 p2 = Some t2 ->
  along RN (ng - 1) (fst t1) = Some (fun _ => Some (d * c)%R) -> along RN (ng - 1) (snd t1) = Some (fun _ => Some n) ->
  along RN (ng - 1) (fst t2) = Some (fun _ => Some d) -> along RN (ng - 1) (snd t2) = Some (fun _ => Some n) ->
  no_spread RN (snd t1) && no_spread RN (fst t1) = u -> no_spread RN (snd t2) && no_spread RN (fst t2) = u ->
  detect_jumps_data RN med sigclip crowded rnd disk sr jr inside reg mean nints ng nr nc available (with_pattern J p1 f1) =
  detect_jumps_data RN med sigclip crowded rnd disk sr jr inside reg mean nints ng nr nc available (with_pattern J p2 f2).
Proof.
  intros HM HS C T1 T2 A1 B1 A2 B2 U1 U2. unfold detect_jumps_data. cbn [with_pattern j_nframes j_pattern j_cores j_ngv j_gain j_pdq j_snow j_gdq].
  rewrite T1, T2. cbn [bind]. rewrite A1, B1, A2, B2. cbn [bind]. rewrite U1, U2. destruct (j_cores J) as [s|]; [|reflexivity]. cbn [bind].
  destruct (Nat.eqb (compute_num_cores s nr available) 0); [reflexivity|]. set (k := compute_num_cores s nr available).
  set (P := two_point RN med nr nc (with_pattern J p2 f2) (fun _ => Some d) (fun _ => Some n) u).
  change (two_point RN med nr nc (with_pattern J p1 f1) (fun _ => Some (d * c)%R) (fun _ => Some n) u) with (slower c P).
  change (electrons RN (with_pattern J p1 f1)) with (electrons RN J). change (noise_e RN (with_pattern J p1 f1)) with (noise_e RN J).
  change (electrons RN (with_pattern J p2 f2)) with (electrons RN J). change (noise_e RN (with_pattern J p2 f2)) with (noise_e RN J).
  assert (E : two_point_pass RN med sigclip crowded (slower c P) nints ng nr nc (electrons RN J) (j_gdq J) (noise_e RN J) k = two_point_pass RN med sigclip crowded P nints ng nr nc (electrons RN J) (j_gdq J) (noise_e RN J) k).
  { unfold two_point_pass. destruct (Nat.eqb k 1).
    - change (with_mingroups RN (slower c P) 3) with (slower c (with_mingroups RN P 3)). rewrite find_sc by assumption. reflexivity.
    - unfold twopoint_diff_multi. f_equal. apply map_ext. intro b. apply find_sc; assumption. }
  rewrite E. destruct (two_point_pass _ _ _ _ _ _ _ _ _ _ _ _ _) as [g1 tot]. reflexivity.
Qed.

(** An evenly spaced pattern gives what no pattern gives with as many frames per group: the same flags and counts. *)
Theorem C123_even_pattern : forall med sigclip crowded rnd disk sr jr inside reg mean nints ng nr nc available (J : jump_data RN) m t0 s off,
  follows_unit med -> clips_any_unit sigclip -> 2 <= ng -> 0 < m -> (0 < s)%R ->
  detect_jumps_data RN med sigclip crowded rnd disk sr jr inside reg mean nints ng nr nc available (with_pattern J (Some (even_pattern ng m t0 s off)) m) =
  detect_jumps_data RN med sigclip crowded rnd disk sr jr inside reg mean nints ng nr nc available (with_pattern J None m).
Proof.
  intros med sigclip crowded rnd disk sr jr inside reg mean nints ng nr nc available J m t0 s off HM HS Hg Hm C.
  assert (T : timing RN m (Some (even_pattern ng m t0 s off)) = Some (map (fun _ => Some s : RN) (seq 0 (ng - 1)), map (fun _ => Some (IZR (Z.of_nat (m + m))) : RN) (seq 0 (ng - 1)))).
  { unfold timing, even_pattern. rewrite !map_map, !pairs_seq, !map_map. do 2 f_equal.
    - apply map_ext. intro g. rewrite !mean_shift by exact Hm. cbn. f_equal. rewrite plus_INR. cbn. lra.
    - apply map_ext. intro g. rewrite !map_length, !seq_length. reflexivity. }
  assert (T' : timing RN m None = Some ([Some 1%R], [Some (IZR (Z.of_nat (m + m)))])).
  { unfold timing. destruct (Nat.eqb_spec m 0); [lia|]. cbn. do 4 f_equal. rewrite Nat2Z.inj_add, plus_IZR. lra. }
  assert (NE : forall x : RN, map (fun _ : nat => x) (seq 0 (ng - 1)) <> []) by (intros x E; apply (f_equal (@length RN)) in E; rewrite map_length, seq_length in E; cbn in E; lia).
  assert (SM : forall x (y : RN), In y (map (fun _ : nat => x) (seq 0 (ng - 1))) -> y = x) by (intros x y H; apply in_map_iff in H; destruct H as (z & <- & _); reflexivity).
  assert (LE : forall x : RN, length (map (fun _ : nat => x) (seq 0 (ng - 1))) = ng - 1 \/ length (map (fun _ : nat => x) (seq 0 (ng - 1))) = 1) by (intro x; left; rewrite map_length, seq_length; reflexivity).
  eapply (step_slower med sigclip crowded rnd disk sr jr inside reg mean nints ng nr nc available J _ _ m m _ _ 1%R (IZR (Z.of_nat (m + m))) s true HM HS C T T'); cbn [fst snd].
  - rewrite Rmult_1_l. apply along_same; auto.
  - apply along_same; auto.
  - reflexivity.
  - reflexivity.
  - rewrite (no_spread_same (IZR (Z.of_nat (m + m)))), (no_spread_same s) by auto. reflexivity.
  - rewrite (no_spread_same (IZR (Z.of_nat (m + m)))), (no_spread_same 1%R); [reflexivity|discriminate|intros y [<-|[]]; reflexivity|discriminate|intros y [<-|[]]; reflexivity].
Qed.
Print Assumptions C123_even_pattern.
Example C123_example : even_pattern 3 2 1 4 INR = [[Some (1 + 4 * 0 + 0); Some (1 + 4 * 0 + 1)]; [Some (1 + 4 * 1 + 0); Some (1 + 4 * 1 + 1)]; [Some (1 + 4 * (1 + 1) + 0); Some (1 + 4 * (1 + 1) + 1)]]%R /\
  follows_unit (hd None) /\ clips_any_unit (fun _ _ _ _ _ _ => false).
Proof. split; [reflexivity|]. split; [apply C122_units_example|intros c b n m d _; reflexivity]. Qed.
