(** C115: a constant added to all groups of an integration changes nothing in the least-squares fit. *)
From Verif Require Import Base BaseLemmas FLaws RBase RNBase Cas22Model Cas22Spec Cas22Proofs OlsModel OlsSpec OlsProofs OlsFit OlsErr Cas22Fit OlsProps OvProps ShProps3.
From Coq Require Import Reals Lra Lia.

(** ** Specification *)
(** the same pixel with a pedestal added to every group, one value for each integration *)
Definition lifted (c : nat -> R) (p : opix RN) : opix RN :=
  {| x_data := fun k j => fadd RN (x_data RN p k j) (Some (c k)); x_gdq := x_gdq RN p; x_dq := x_dq RN p; x_gain := x_gain RN p; x_rn := x_rn RN p; x_dark := x_dark RN p; x_zf := x_zf RN p; x_orig := x_orig RN p |}.
(** the fit rests on differences only: every segment has two groups or more, and the rate behind the Poisson variance does not
    fall back on the first group alone *)
Definition differences_only (m : ometa RN) (p : opix RN) (k : nat) : Prop :=
  Forall (fun g => 2 <= snd g - fst g) (sl_nodes (scan_segments (m_f RN m) (x_gdq RN p k) (m_ng RN m))) /\
  (rates RN m p k <> [] \/ good_group RN m p k 0 = false).

(** ** Sums with missing values *)
Lemma osum_RN_from l a : fold_left (fadd RN) (map Some l) (Some a) = Some (a + Rsum l)%R.
Proof. revert a. induction l as [|x l IH]; intro a; [change (Some a = Some (a + Rsum [])%R); rewrite Rsum_nil, Rplus_0_r; reflexivity|]. cbn [map fold_left]. change (fadd RN (Some a) (Some x)) with (Some (a + x)%R). rewrite IH, Rsum_cons. f_equal. ring. Qed.
Lemma osum_RN {A} (g : A -> R) (f : A -> RN) l : (forall x, In x l -> f x = Some (g x)) -> osum RN (map f l) = Some (Rsum (map g l)).
Proof.
  intro H. unfold osum. replace (map f l) with (map Some (map g l)) by (rewrite map_map; apply map_ext_in; intros x I; symmetry; apply H, I). change (fzero RN) with (Some 0%R). rewrite osum_RN_from. f_equal. ring.
Qed.
Lemma osum_none_from (l : list RN) : fold_left (fadd RN) l None = None.
Proof. induction l as [|x l IH]; [reflexivity|exact IH]. Qed.
Lemma osum_none {A} (f : A -> RN) l x : In x l -> f x = None -> osum RN (map f l) = None.
Proof.
  unfold osum. generalize (fzero RN). induction l as [|y l IH]; intros a I E; [contradiction|]. cbn [map fold_left]. destruct I as [->|I]; [|apply IH; assumption]. rewrite E. replace (fadd RN a None) with (@None R) by (destruct a; reflexivity). apply osum_none_from.
Qed.
Lemma all_or_none {A} (f : A -> RN) l : (forall x, In x l -> exists r, f x = Some r) \/ exists x, In x l /\ f x = None.
Proof.
  induction l as [|y l IH]; [left; intros x []|]. destruct (f y) as [r|] eqn:E; [|right; exists y; split; [left; reflexivity|exact E]].
  destruct IH as [IH|(x & I & N)]; [left; intros x [<-|I]; [exists r; exact E|apply IH, I]|right; exists x; split; [right; exact I|exact N]].
Qed.

Section Lift.
  Variable pow : RN -> RN -> RN.
  Variables (m : ometa RN) (p : opix RN) (c : nat -> R).
  Notation p' := (lifted c p).
  Variables dnu jump sat pers ngval chg : N.
  Hypothesis Hf : m_f RN m = flags_at dnu jump sat pers ngval chg.
  Hypothesis Hd : NoDup [dnu; jump; sat; pers; ngval].
  Hypothesis NG : 2 <= m_ng RN m.
  Variable t : R.
  Hypothesis Ht : m_tgroup RN m = Some t. Hypothesis T0 : t <> 0%R.
  Variable k : nat.
  Hypothesis numbers : forall j, j < m_ng RN m -> exists v : R, x_data RN p k j = Some v.
  Hypothesis O : ordinary RN m p k.
  Hypothesis D : differences_only m p k.
  Lemma Tb : Reqb t 0 = false.
  Proof. apply not_true_is_false. intro Z. apply Reqb_spec in Z. contradiction. Qed.
  Lemma O' : ordinary RN m p' k. Proof. exact O. Qed.
  Notation i := (prep0 RN m p k). Notation i' := (prep0 RN m p' k).
  Lemma diff_lift a b x y : x_data RN p k a = Some x -> x_data RN p k b = Some y ->
    fsub RN (x_data RN p' k a) (x_data RN p' k b) = fsub RN (x_data RN p k a) (x_data RN p k b).
  Proof. intros A B. cbn [lifted x_data]. rewrite A, B. cbn. f_equal. ring. Qed.
  Lemma rate_lift j : j + 1 < m_ng RN m -> fsub RN (loc_rate RN m i' (j + 1)) (loc_rate RN m i' j) = fsub RN (loc_rate RN m i (j + 1)) (loc_rate RN m i j).
  Proof.
    intro J. unfold loc_rate. cbn [prep0 i_gdq i_data lifted x_gdq x_data]. destruct (numbers j ltac:(lia)) as (u & ->), (numbers (j + 1) J) as (v & ->).
    rewrite Ht. repeat match goal with |- context [has ?a ?b] => destruct (has a b) end; try reflexivity; cbn; rewrite Tb; cbn; try reflexivity. f_equal. field. assumption.
  Qed.
  Lemma diffs_lift : OlsModel.first_diffs RN m i' = OlsModel.first_diffs RN m i.
  Proof.
    apply map_ext_in. intros j J. apply in_seq in J. change (i_gdq RN i') with (x_gdq RN p k). change (i_gdq RN i) with (x_gdq RN p k).
    destruct (has _ _); [reflexivity|]. apply rate_lift. lia.
  Qed.
  Lemma irate_lift : integ_rate RN m (prep RN m p' k) = integ_rate RN m (prep RN m p k).
  Proof.
    rewrite (prep_ordinary RN m p' k O'), (prep_ordinary RN m p k O). unfold integ_rate. cbn [prep0 i_0th i_zf]. fold i i'. unfold median_rate_integration. cbv zeta. rewrite diffs_lift.
    destruct D as [_ [R|B]].
    - rewrite (some_num RN m p k RN_laws eq_refl) by (try exact R; intros j J _; unfold diff_rate; destruct (numbers j ltac:(lia)) as (u & ->), (numbers (j + 1) J) as (v & ->); rewrite Ht; cbn; rewrite Tb; reflexivity). reflexivity.
    - assert (N : fisnan RN (loc_rate RN m i 0) = true) by (apply bad_rate; [exact RN_laws|reflexivity|exact B]).
      assert (N' : fisnan RN (loc_rate RN m i' 0) = true) by (apply bad_rate; [exact RN_laws|reflexivity|exact B]). rewrite N, N'. cbn [negb]. rewrite andb_false_r. reflexivity.
  Qed.
  (** a group of a segment: its value is a number and shifts by the pedestal *)
  Lemma seg_data g j : In g (sl_nodes (scan_segments (m_f RN m) (x_gdq RN p k) (m_ng RN m))) -> fst g <= j < snd g ->
    exists v, i_data RN i j = Some v /\ i_data RN i' j = Some (v + c k)%R.
  Proof.
    intros I J. pose proof (init_ramps_runs (flags_of (m_f RN m) (x_gdq RN p k)) (m_ng RN m)) as IR. destruct (segments_kept _ _ _ _ IR) as [SN _]. rewrite SN in I. apply kept_in in I.
    set (m0 := Build_ometa RF (m_f RN m) 0 (m_ng RN m) 0%R 0%R 0 true).
    set (p0 := Build_opix RF (fun _ _ => 0%R) (x_gdq RN p) 0%N 1%R 1%R 0%R None None).
    assert (U : has (x_gdq RN p k j) (o_sat (m_f RN m)) = false) by (eapply (seg_unsat m0 p0); first [exact Hf|exact Hd|exact I|exact J|cbn; lia|cbn; lra|split; apply N.bits_0]).
    assert (JN : j < m_ng RN m).
    { destruct IR as [[Sp _] C]. apply in_map_iff in I. destruct I as (r & E & I). specialize (Sp r I). destruct (proj1 (C (snd r))) as [B _]; [exists r; split; [assumption|lia]|].
      rewrite <- E in J. unfold extend in J. cbn [fst snd] in J. lia. }
    destruct (numbers j JN) as (v & E). exists v. cbn [prep0 i_data lifted x_gdq x_data]. rewrite U, E. split; reflexivity.
  Qed.
  Lemma seg_lift mr g : In g (sl_nodes (scan_segments (m_f RN m) (x_gdq RN p k) (m_ng RN m))) -> fit_segment RN pow m p' i' mr g = fit_segment RN pow m p i mr g.
  Proof.
    intro I. destruct D as [S _]. rewrite Forall_forall in S. specialize (S g I). pose proof (fun j => seg_data g j I) as V. clear I.
    unfold fit_segment. destruct (Nat.eqb_spec 1 (snd g - fst g)) as [?|_]; [lia|]. destruct (Nat.eqb_spec 2 (snd g - fst g)) as [E|N2].
    - unfold fit_len2. f_equal. destruct (V (fst g) ltac:(lia)) as (u & -> & ->), (V (fst g + 1) ltac:(lia)) as (v & -> & ->). f_equal. cbn. f_equal. ring.
    - assert (SNR : segment_snr RN p' i' g = segment_snr RN p i g).
      { unfold segment_snr. destruct (V (fst g) ltac:(lia)) as (u & -> & ->), (V (snd g - 1) ltac:(lia)) as (v & -> & ->).
        replace (fsub RN (Some (v + c k)%R) (Some (u + c k)%R)) with (fsub RN (Some v) (Some u)) by (cbn; f_equal; ring). reflexivity. }
      unfold fit_default. rewrite SNR. f_equal. f_equal. f_equal.
      set (w := o_weight RN pow p' _ g). change (o_weight RN pow p (snr_power RN (segment_snr RN p i g)) g) with w. set (ks := seq 0 (snd g - fst g)).
      destruct (all_or_none w ks) as [W|(x & I & N)]; [|rewrite (osum_none w ks x I N); reflexivity].
      set (wr := fun j => match w j with Some r => r | None => 0%R end). assert (WR : forall j, In j ks -> w j = Some (wr j)) by (intros j J; destruct (W j J) as (r & E); unfold wr; rewrite E; reflexivity).
      set (xr := fun j => (INR j + INR (fst g))%R). assert (XR : forall j, o_x RN g j = Some (xr j)) by (intro j; unfold o_x, fnat, xr; cbn; rewrite <- !INR_IZR_INZ; reflexivity).
      set (yr := fun j => match i_data RN i (fst g + j) with Some r => r | None => 0%R end).
      assert (YR : forall j, In j ks -> o_y RN i g j = Some (yr j) /\ o_y RN i' g j = Some (yr j + c k)%R).
      { intros j J. apply in_seq in J. unfold o_y, yr. destruct (V (fst g + j) ltac:(lia)) as (v & -> & ->). split; reflexivity. }
      rewrite (osum_RN wr w ks WR). rewrite (osum_RN (fun j => xr j * wr j)%R (fun k0 => fmul RN (o_x RN g k0) (w k0)) ks) by (intros j J; rewrite (WR j J), XR; reflexivity).
      rewrite (osum_RN (fun j => yr j * wr j)%R (fun k0 => fmul RN (o_y RN i g k0) (w k0)) ks) by (intros j J; rewrite (WR j J), (proj1 (YR j J)); reflexivity).
      rewrite (osum_RN (fun j => yr j * (xr j * wr j))%R (fun k0 => fmul RN (o_y RN i g k0) (fmul RN (o_x RN g k0) (w k0))) ks) by (intros j J; rewrite (WR j J), XR, (proj1 (YR j J)); reflexivity).
      rewrite (osum_RN (fun j => (yr j + c k) * wr j)%R (fun k0 => fmul RN (o_y RN i' g k0) (w k0)) ks) by (intros j J; rewrite (WR j J), (proj2 (YR j J)); reflexivity).
      rewrite (osum_RN (fun j => (yr j + c k) * (xr j * wr j))%R (fun k0 => fmul RN (o_y RN i' g k0) (fmul RN (o_x RN g k0) (w k0))) ks) by (intros j J; rewrite (WR j J), XR, (proj2 (YR j J)); reflexivity).
      replace (Rsum (map (fun j => (yr j + c k) * wr j)%R ks)) with (Rsum (map (fun j => yr j * wr j)%R ks) + c k * Rsum (map wr ks))%R.
      2:{ rewrite <- Rsum_scal, <- Rsum_plus. apply Rsum_ext. intros; ring. }
      replace (Rsum (map (fun j => (yr j + c k) * (xr j * wr j))%R ks)) with (Rsum (map (fun j => yr j * (xr j * wr j))%R ks) + c k * Rsum (map (fun j => xr j * wr j)%R ks))%R.
      2:{ rewrite <- Rsum_scal, <- Rsum_plus. apply Rsum_ext. intros; ring. }
      cbn. f_equal. ring.
  Qed.
  Lemma fit_lift mr : fit_integration RN pow m p' mr k = fit_integration RN pow m p mr k.
  Proof.
    unfold fit_integration. rewrite (prep_ordinary RN m p' k O'), (prep_ordinary RN m p k O). cbn [prep0 i_gdq i_dnusat i_sat lifted x_gdq]. fold i. fold i'.
    change (int_dq0 RN m p' i') with (int_dq0 RN m p i). destruct (Z.eqb _ _); [reflexivity|].
    unfold fit_slope. destruct (has (x_gdq RN p k 0) _); [reflexivity|]. destruct (Nat.eqb _ 0); [reflexivity|].
    replace (map (fit_segment RN pow m p' i' mr) _) with (map (fit_segment RN pow m p i mr) (sl_nodes (scan_segments (m_f RN m) (x_gdq RN p k) (m_ng RN m)))); [reflexivity|].
    apply map_ext_in. intros g G. symmetry. apply seg_lift, G.
  Qed.
  Lemma finish_lift mr : finish_integration RN pow m p' mr k = finish_integration RN pow m p mr k.
  Proof.
    unfold finish_integration. rewrite fit_lift. replace (i_sat RN (prep RN m p' k)) with (i_sat RN (prep RN m p k)); [reflexivity|].
    rewrite (prep_ordinary RN m p' k O'), (prep_ordinary RN m p k O). reflexivity.
  Qed.
End Lift.

(** ** The whole pixel *)
Lemma existsb_ext_in {A} (f g : A -> bool) l : (forall x, In x l -> f x = g x) -> existsb f l = existsb g l.
Proof. induction l as [|x l IH]; intro H; [reflexivity|]. cbn [existsb]. rewrite (H x (or_introl eq_refl)), IH; [reflexivity|]. intros; apply H; right; assumption. Qed.
Lemma existsb_map {A B} (f : B -> bool) (g : A -> B) l : existsb f (map g l) = existsb (fun x => f (g x)) l.
Proof. induction l as [|x l IH]; [reflexivity|]. cbn [map existsb]. rewrite IH. reflexivity. Qed.
Lemma fold_left_ext_in {A B} (f g : A -> B -> A) l a : (forall a x, In x l -> f a x = g a x) -> fold_left f l a = fold_left g l a.
Proof. revert a. induction l as [|x l IH]; intros a H; [reflexivity|]. cbn [fold_left]. rewrite (H a x (or_introl eq_refl)). apply IH. intros; apply H; right; assumption. Qed.
Theorem C115_pedestal : forall pow (m : ometa RN) (p : opix RN) (c : nat -> R) dnu jump sat pers ngval chg t,
  m_f RN m = flags_at dnu jump sat pers ngval chg -> NoDup [dnu; jump; sat; pers; ngval] -> 2 <= m_ng RN m -> m_tgroup RN m = Some t -> t <> 0%R ->
  (forall k j, k < m_nints RN m -> j < m_ng RN m -> exists v : R, x_data RN p k j = Some v) ->
  (forall k, k < m_nints RN m -> ordinary RN m p k /\ differences_only m p k) ->
  ols_pixel RN pow m (lifted c p) = ols_pixel RN pow m p.
Proof.
  intros pow m p c dnu jump sat pers ngval chg t Hf Hd NG Ht T0 NU H.
  assert (MR : median_rate RN m (lifted c p) = median_rate RN m p).
  { unfold median_rate. destruct (Nat.eqb_spec 1 (m_ng RN m)); [lia|]. do 2 f_equal. apply map_ext_in. intros k K. apply in_seq in K. destruct (H k ltac:(lia)) as [O D].
    apply (irate_lift m p c NG t Ht T0 k); try assumption. intros j J. apply NU; [lia|assumption]. }
  assert (FL : forall k, In k (seq 0 (m_nints RN m)) -> i_jump RN (prep RN m (lifted c p) k) = i_jump RN (prep RN m p k) /\ i_pers RN (prep RN m (lifted c p) k) = i_pers RN (prep RN m p k) /\
      i_chg RN (prep RN m (lifted c p) k) = i_chg RN (prep RN m p k) /\ len1_timing RN m (prep RN m (lifted c p) k) = len1_timing RN m (prep RN m p k)).
  { intros k K. apply in_seq in K. destruct (H k ltac:(lia)) as [O D]. rewrite (prep_ordinary RN m p k O), (prep_ordinary RN m (lifted c p) k O). repeat split. }
  assert (FI : fit_pixel RN pow m (lifted c p) = fit_pixel RN pow m p).
  { unfold fit_pixel. rewrite MR. replace (map (finish_integration RN pow m (lifted c p) (median_rate RN m p)) (seq 0 (m_nints RN m))) with (map (finish_integration RN pow m p (median_rate RN m p)) (seq 0 (m_nints RN m))).
    - rewrite !existsb_map. rewrite (existsb_ext_in (fun x => i_jump RN (prep RN m (lifted c p) x)) (fun x => i_jump RN (prep RN m p x))) by (intros k K; apply FL, K).
      rewrite (existsb_ext_in (fun x => i_pers RN (prep RN m (lifted c p) x)) (fun x => i_pers RN (prep RN m p x))) by (intros k K; apply FL, K). reflexivity.
    - apply map_ext_in. intros k K. apply in_seq in K. destruct (H k ltac:(lia)) as [O D]. symmetry.
      eapply finish_lift; try eassumption. intros j J. apply NU; [lia|assumption]. }
  unfold ols_pixel. rewrite FI. unfold chargeloss. cbn [lifted x_orig]. destruct (x_orig RN p) as [orig|]; [|reflexivity]. rewrite !existsb_map.
  rewrite (existsb_ext_in (fun x => i_chg RN (prep RN m (lifted c p) x)) (fun x => i_chg RN (prep RN m p x))) by (intros k K; apply FL, K).
  assert (CI : forall k, In k (seq 0 (m_nints RN m)) -> chargeloss_inv RN m (lifted c p) orig k = chargeloss_inv RN m p orig k).
  { intros k K. unfold chargeloss_inv. apply fold_left_ext_in. intros a g _. replace (rnoise RN m (lifted c p) (prep RN m (lifted c p) k) g) with (rnoise RN m p (prep RN m p k) g); [reflexivity|].
    unfold rnoise. destruct (FL k K) as (_ & _ & _ & ->). reflexivity. }
  destruct (negb _); [reflexivity|]. f_equal.
  - match goal with |- context [fold_left ?f (seq 0 (m_nints RN m)) ?z] => match goal with |- context [fold_left ?g (seq 0 (m_nints RN m)) z] => tryif constr_eq f g then fail else assert (FE : fold_left f (seq 0 (m_nints RN m)) z = fold_left g (seq 0 (m_nints RN m)) z) end end; [|rewrite FE; reflexivity].
    apply fold_left_ext_in. intros a k K. destruct (FL k K) as (_ & _ & -> & _). rewrite (CI k K). reflexivity.
  - apply map_ext_in. intros k K. destruct (FL k K) as (_ & _ & -> & _). rewrite (CI k K). reflexivity.
Qed.
Print Assumptions C115_pedestal.

(** ** The two conditions are needed *)
(** only the first group usable: its own value over the group time is the slope, pedestal included (binary64) *)
Theorem C115_one_group_refuted : exists p q : opix B64, let m := ex_meta B64 3 1 true in
  (forall k j, x_gdq B64 p k j = x_gdq B64 q k j) /\ (forall k j, k < 1 -> j < 3 -> x_data B64 q k j = fadd B64 (x_data B64 p k j) (fofZ B64 100)) /\
  q_slope B64 (fst (ols_pixel B64 one_pow m p)) = fofZ B64 2 /\ q_slope B64 (fst (ols_pixel B64 one_pow m q)) = fofZ B64 12.
Proof.
  exists (ex_pix B64 [[20; 30; 40]%Z] [[0; 2; 2]%N] 1 1 None None), (ex_pix B64 [[120; 130; 140]%Z] [[0; 2; 2]%N] 1 1 None None). intro m.
  split; [reflexivity|]. split; [|split; vm_compute; reflexivity].
  intros k j K J. destruct k as [|k]; [|lia]. destruct j as [|[|[|j]]]; [vm_compute; reflexivity..|lia].
Qed.
Print Assumptions C115_one_group_refuted.

(** ** Examples *)
(** a jump in the middle, a saturated last group, two integrations *)
Example C115_example : let m := ex_meta RN 6 2 false in let p := ex_pix RN [[5; 8; 60; 63; 66; 900]; [1; 2; 3; 4; 5; 6]]%Z [[0; 0; 4; 0; 0; 2]; [0; 0; 0; 0; 0; 0]]%N 1 1 None None in
  (forall k j, k < m_nints RN m -> j < m_ng RN m -> exists v : R, x_data RN p k j = Some v) /\
  (forall k, k < m_nints RN m -> ordinary RN m p k /\ differences_only m p k) /\
  sl_nodes (scan_segments (m_f RN m) (x_gdq RN p 0) 6) = [(0, 2); (2, 5)].
Proof.
  intros m p. split; [intros k j _ _; eexists; reflexivity|]. split; [|vm_compute; reflexivity].
  intros k K. cbn in K. split; [right; exists 0, 1; destruct k as [|[|k]]; [repeat split; cbn; lia..|lia]|]. unfold differences_only. destruct k as [|[|k]]; [| |lia].
  - change (sl_nodes (scan_segments (m_f RN m) (x_gdq RN p 0) (m_ng RN m))) with [(0, 2); (2, 5)]. split; [repeat constructor; cbn; lia|]. left. unfold rates. cbn. discriminate.
  - change (sl_nodes (scan_segments (m_f RN m) (x_gdq RN p 1) (m_ng RN m))) with [(0, 6)]. split; [repeat constructor; cbn; lia|]. left. unfold rates. cbn. discriminate.
Qed.
