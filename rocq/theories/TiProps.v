(** Additions to C07, C24, C45 and C60 found by mutation: decimal requests, the strict size limit of saturated cores, a missing exposure time, counting and start of the shower search. *)
From Verif Require Import Base BaseLemmas FLaws JumpModel SnowModel ResModel MpModel.
From Coq Require Import Lia Ascii String Decimal DecimalString DecimalNat FinFun.
Local Open Scope nat_scope. Local Open Scope list_scope.

(** ** C24: a region that became saturated is grown exactly when both its axes exceed the limit *)
Theorem C24_core_size : forall fo, FLaws fo -> forall (P : snow fo) (e : ellipse fo), fisnan fo (e_w e) = false -> fisnan fo (e_h e) = false ->
  (big_core fo P e = true <-> flt fo (s_minrad P) (e_w e) = true /\ flt fo (s_minrad P) (e_h e) = true).
Proof.
  intros fo L P e Hw Hh. unfold big_core, SnowModel.pymin. destruct (flt fo (e_h e) (e_w e)) eqn:E.
  - split; [|tauto]. intro H. split; [|exact H]. exact (flt_trans fo L _ _ _ H E).
  - split; [|tauto]. intro H. split; [exact H|]. destruct (flt fo (s_minrad P) (e_h e)) eqn:F; [reflexivity|]. exfalso.
    rewrite (nflt_trans fo L _ _ _ Hh F E) in H. discriminate.
Qed.
Print Assumptions C24_core_size.

(** ** C45: exposure-time weights without an exposure time *)
(** the model's data and group have been counted, then the call fails *)
Theorem C45_no_time : forall fo D dadd (c : rcfg fo) (s : rstate fo D) (m : rmodel fo) n a,
  s_fin fo D s = false -> m_keys fo m = true -> m_dim2 fo m = true -> c_var fo c = true -> c_wt fo c = Exptime -> m_meas fo m = None -> m_exp fo m = None ->
  In n (map fst (s_vars fo D s)) -> m_var fo m n = Some a ->
  let r := add_model fo D dadd c s m in
  snd r = Some NoTime /\ s_driz fo D (fst r) = option_map (fun d => dadd d m) (s_driz fo D s) /\ In (m_group fo m) (s_groups fo D (fst r)).
Proof.
  intros fo D dadd c s m n a Fin K Dm V W Me Ex I Hn. cbv zeta. unfold add_model. rewrite Fin, K, Dm, V. cbn [negb].
  set (s1 := count _ _ _ _). assert (Q : s_vars fo D s1 = s_vars fo D s /\ s_driz fo D s1 = option_map (fun d => dadd d m) (s_driz fo D s) /\ In (m_group fo m) (s_groups fo D s1)).
  { subst s1. unfold count. destruct (existsb _ _) eqn:E.
    - split; [reflexivity|]. split; [reflexivity|]. apply existsb_exists in E. destruct E as (x & X & Y). apply Nat.eqb_eq in Y. subst x. exact X.
    - destruct (tmeasure fo m). split; [reflexivity|]. split; [reflexivity|]. cbn [s_groups]. apply in_or_app. right. left. reflexivity. }
  clearbody s1. destruct Q as (Q1 & Q2 & Q3). unfold add_vars, var_weight, tmeasure. rewrite W, Me, Ex, Q1. cbn [fst].
  assert (E : existsb (fun nv : nat * vinfo fo => match m_var fo m (fst nv) with Some _ => true | None => false end) (store_vars fo m (s_vars fo D s)) = true).
  { apply existsb_exists. apply in_map_iff in I. destruct I as ([n' v] & E & I). cbn [fst] in E. subst n'.
    exists (n, {| v_sum := v_sum fo v; v_wt := v_wt fo v; v_last := Some a |}). split; [|cbn [fst]; rewrite Hn; reflexivity].
    unfold store_vars. apply in_map_iff. exists (n, v). split; [rewrite Hn; reflexivity|exact I]. }
  rewrite E. cbn [fst snd set_vars s_driz s_groups]. split; [reflexivity|]. split; assumption.
Qed.
Print Assumptions C45_no_time.
(** without any variance array the same model is accepted *)
Theorem C45_no_time_no_arrays : forall fo D dadd (c : rcfg fo) (s : rstate fo D) (m : rmodel fo),
  s_fin fo D s = false -> m_keys fo m = true -> m_dim2 fo m = true -> (forall n, m_var fo m n = None) -> snd (add_model fo D dadd c s m) = None.
Proof.
  intros fo D dadd c s m Fin K Dm V. unfold add_model. rewrite Fin, K, Dm. cbn [negb]. set (s1 := count _ _ _ _). clearbody s1.
  assert (E : forall vs, existsb (fun nv : nat * vinfo fo => match m_var fo m (fst nv) with Some _ => true | None => false end) vs = false).
  { induction vs as [|x l IH]; [reflexivity|]. cbn [existsb]. rewrite V. exact IH. }
  destruct (c_var fo c); [|reflexivity]. unfold add_vars. destruct (var_weight fo c m _) as [[w|]|e]; rewrite ?E; reflexivity.
Qed.
Print Assumptions C45_no_time_no_arrays.

(** ** C07: a request written as a decimal number is that number *)
Lemma int_of_string d : forall acc, all_digits (NilEmpty.string_of_uint d) = true /\ int_of_aux acc (NilEmpty.string_of_uint d) = Nat.of_uint_acc d acc.
Proof.
  induction d; intro acc; cbn [NilEmpty.string_of_uint all_digits int_of_aux Nat.of_uint_acc]; [split; reflexivity|..];
    (split; [apply andb_true_intro; split; [reflexivity|apply (IHd 0)]|]; rewrite (proj2 (IHd _)); f_equal; rewrite Nat.tail_mul_spec; cbn; lia).
Qed.
Theorem C07_decimal : forall n nchunks available, compute_num_cores (NilEmpty.string_of_uint (Nat.to_uint n)) nchunks available = Nat.min (Nat.min nchunks n) available.
Proof.
  intros n nchunks available. unfold compute_num_cores. destruct (int_of_string (Nat.to_uint n) 0) as [D I].
  assert (Ne : isnumeric (NilEmpty.string_of_uint (Nat.to_uint n)) = true).
  { unfold isnumeric. destruct (Nat.to_uint n) as [| | | | | | | | | |] eqn:E; try exact D. exfalso.
    assert (Z : n = 0) by (rewrite <- (Unsigned.of_to n), E; reflexivity). subst n. discriminate E. }
  rewrite Ne. unfold int_of. rewrite I. replace (Nat.of_uint_acc (Nat.to_uint n) 0) with n; [reflexivity|]. symmetry. exact (Unsigned.of_to n).
Qed.
Print Assumptions C07_decimal.

(** ** C60: what is counted, and where the search starts *)
Lemma NoDup_app_own {A} (l l' : list A) : NoDup l -> NoDup l' -> (forall x, In x l -> ~ In x l') -> NoDup (l ++ l').
Proof.
  induction l as [|a l IH]; intros H H' D; [exact H'|]. inversion H; subst. cbn. constructor.
  - rewrite in_app_iff. intros [X|X]; [contradiction|]. exact (D a (or_introl eq_refl) X).
  - apply IH; [assumption|assumption|]. intros x X. apply D. right; exact X.
Qed.
Definition unusable {fo : FOps} (kd : N) (g : img N) (nr nc : nat) : Prop := forall r c, r < nr -> c < nc -> N.testbit (g r c) kd = true.
Lemma all_pix_iff {fo : FOps} (P : snow fo) kd nr nc g : s_dnu P = bit kd -> all_pix nr nc (fun r c => has (g r c) (s_dnu P)) = true <-> @unusable fo kd g nr nc.
Proof.
  intro E. rewrite E. unfold unusable, all_pix. rewrite forallb_forall. split.
  - intros H r c R C. specialize (H r ltac:(apply in_seq; lia)). rewrite forallb_forall in H. rewrite <- has_bit. apply H, in_seq. lia.
  - intros H r R. apply in_seq in R. apply forallb_forall. intros c C. apply in_seq in C. rewrite has_bit. apply H; lia.
Qed.
(** the number of planes in which no pixel is usable *)
Theorem C60_count : forall fo (P : snow fo) kd nints ng nr nc gdq l, s_dnu P = bit kd -> NoDup l ->
  (forall i g, In (i, g) l <-> i < nints /\ g < ng /\ @unusable fo kd (gdq i g) nr nc) ->
  count_dnu_groups fo P nints ng nr nc gdq = List.length l.
Proof.
  intros fo P kd nints ng nr nc gdq l E ND H. unfold count_dnu_groups.
  set (q i g := all_pix nr nc (fun r c => has (gdq i g r c) (s_dnu P))).
  set (l' := flat_map (fun i => map (fun g => (i, g)) (filter (q i) (seq 0 ng))) (seq 0 nints)).
  assert (L : list_sum (map (fun i => count_if (q i) (seq 0 ng)) (seq 0 nints)) = List.length l').
  { unfold l'. generalize (seq 0 nints). induction l0 as [|i l0 IH]; [reflexivity|]. cbn [map list_sum flat_map fold_right]. rewrite app_length, map_length, <- IH. reflexivity. }
  unfold q in L at 1. rewrite L.
  assert (ND' : NoDup l').
  { unfold l'. assert (Q : forall a b, NoDup (flat_map (fun i => map (fun g => (i, g)) (filter (q i) (seq 0 ng))) (seq a b))); [|apply Q].
    intros a b. revert a. induction b as [|b IH]; intro a; [constructor|]. cbn [seq flat_map]. apply NoDup_app_own; [|apply IH|].
    - apply FinFun.Injective_map_NoDup; [intros x y X; congruence|]. apply NoDup_filter, seq_NoDup.
    - intros [i g] A B. apply in_map_iff in A. destruct A as (g' & A & _). injection A as <- <-. apply in_flat_map in B. destruct B as (i' & B & C). apply in_seq in B. apply in_map_iff in C. destruct C as (g'' & C & _). injection C as -> _. lia. }
  apply Nat.le_antisymm; apply NoDup_incl_length; try assumption; intros [i g] I.
  - unfold l' in I. apply in_flat_map in I. destruct I as (i' & I & J). apply in_seq in I. apply in_map_iff in J. destruct J as (g' & J & K). injection J as -> ->.
    apply filter_In in K. destruct K as [K1 K2]. apply in_seq in K1. apply H. split; [lia|]. split; [lia|]. apply (all_pix_iff P kd nr nc (gdq i g) E), K2.
  - apply H in I. destruct I as (A & B & C). unfold l'. apply in_flat_map. exists i. split; [apply in_seq; lia|]. apply in_map_iff. exists g. split; [reflexivity|].
    apply filter_In. split; [apply in_seq; lia|]. apply (all_pix_iff P kd nr nc (gdq i g) E), C.
Qed.
Print Assumptions C60_count.
(** the first group with a usable pixel; 0 when there is none *)
Theorem C60_first_good : forall fo (P : snow fo) kd ng nr nc (g : nat -> img N), s_dnu P = bit kd ->
  let f := first_good_group fo P ng nr nc g in
  (f < ng /\ ~ @unusable fo kd (g f) nr nc /\ (forall k, k < f -> @unusable fo kd (g k) nr nc)) \/ (f = 0 /\ forall k, k < ng -> @unusable fo kd (g k) nr nc).
Proof.
  intros fo P kd ng nr nc g E f. unfold first_good_group in f.
  assert (Q : forall a b, match find (fun k => negb (all_pix nr nc (fun r c => has (g k r c) (s_dnu P)))) (seq a b) with
     | Some k => a <= k < a + b /\ ~ @unusable fo kd (g k) nr nc /\ (forall j, a <= j < k -> @unusable fo kd (g j) nr nc) | None => forall j, a <= j < a + b -> @unusable fo kd (g j) nr nc end).
  { clear f. intros a b. revert a. induction b as [|b IH]; intro a; cbn [seq find]; [intros j J; lia|]. destruct (all_pix nr nc (fun r c => has (g a r c) (s_dnu P))) eqn:A; cbn [negb].
    - apply (all_pix_iff P kd nr nc (g a) E) in A. specialize (IH (S a)). revert IH. destruct (find _ _) as [k|]; intro IH.
      + destruct IH as (B & C & D). split; [lia|]. split; [exact C|]. intros j J. destruct (Nat.eq_dec j a) as [->|]; [exact A|apply D; lia].
      + intros j J. destruct (Nat.eq_dec j a) as [->|]; [exact A|apply IH; lia].
    - split; [lia|]. split; [|intros; lia]. intro B. apply (all_pix_iff P kd nr nc (g a) E) in B. congruence. }
  specialize (Q 0 ng). subst f. revert Q. destruct (find _ _) as [k|]; intro Q.
  - left. destruct Q as (A & B & C). split; [lia|]. split; [exact B|]. intros j J. apply C. lia.
  - right. split; [reflexivity|]. intros j J. apply Q. lia.
Qed.
Print Assumptions C60_first_good.

(** ** Examples *)
Example C24_core_size_example : forall P : snow B64, s_minrad P = fofZ B64 2 ->
  big_core B64 P {| e_col := fofZ B64 5; e_row := fofZ B64 5; e_w := fofZ B64 2; e_h := fofZ B64 9; e_angle := fzero B64 |} = false /\
  big_core B64 P {| e_col := fofZ B64 5; e_row := fofZ B64 5; e_w := fofZ B64 3; e_h := fofZ B64 9; e_angle := fzero B64 |} = true.
Proof. intros P E. unfold big_core. rewrite E. split; vm_compute; reflexivity. Qed.
Example C45_no_time_example : let c := {| c_var := true; c_wt := Exptime; c_names := [0; 1]; c_imaging := true; c_ratio := None |} in
  let m := {| m_group := 1; m_start := fzero B64; m_end := fone B64; m_exp := None; m_meas := None; m_dur := None; m_keys := true; m_dim2 := true; m_ratio := None; m_var := fun n => if Nat.eqb n 1 then Some (fun _ => fone B64) else None |} in
  let s := create B64 nat (fun _ => 0) c in
  s_fin B64 nat s = false /\ In 1 (map fst (s_vars B64 nat s)) /\ m_var B64 m 1 = Some (fun _ => fone B64) /\ snd (add_model B64 nat (fun d _ => S d) c s m) = Some NoTime.
Proof. intros c m s. split; [reflexivity|]. split; [right; left; reflexivity|]. split; reflexivity. Qed.
Example C07_decimal_example : NilEmpty.string_of_uint (Nat.to_uint 190) = "190"%string /\ compute_num_cores "190" 500 300 = 190.
Proof. split; vm_compute; reflexivity. Qed.
(** three groups of one pixel, the first marked *)
Definition ex_snow_gdq (i g r c : nat) : N := if Nat.eqb g 0 then 1%N else 0%N.
Example C60_count_example : NoDup [(0, 0); (1, 0)] /\ forall i g, In (i, g) [(0, 0); (1, 0)] <-> i < 2 /\ g < 3 /\ @unusable B64 0 (ex_snow_gdq i g) 1 1.
Proof.
  split; [repeat constructor; cbn; intuition congruence|]. intros i g. split.
  - intros [E|[E|[]]]; injection E as <- <-; (split; [lia|]; split; [lia|]; intros r c _ _; reflexivity).
  - intros (I & G & U). specialize (U 0 0 ltac:(lia) ltac:(lia)). unfold ex_snow_gdq in U. destruct (Nat.eqb_spec g 0) as [->|]; [|discriminate]. cbn [In]. destruct i as [|[|i]]; [left; reflexivity|right; left; reflexivity|lia].
Qed.
Example C60_first_good_example : forall P : snow B64, s_dnu P = bit 0 -> first_good_group B64 P 3 1 1 (ex_snow_gdq 0) = 1.
Proof. intros P E. unfold first_good_group. rewrite E. vm_compute. reflexivity. Qed.
