(** C134: what a group flagged DO_NOT_USE or SATURATED holds does not matter.  In any arithmetic. *)
From Coq Require Import FunctionalExtensionality.
From Verif Require Import Base BaseLemmas FLaws.
From Verif Require JumpModel JumpProps.
Notation arr4 := JumpModel.arr4.
Notation z64 := JumpProps.z64.
Notation med64 := JumpProps.med64.
Notation nosig := JumpProps.nosig.
Notation nocrowd := JumpProps.nocrowd.
Notation exP := JumpProps.exP.
From Verif Require Import Cas22Model Cas22Spec Cas22Proofs Cas22Props OlsModel OlsSpec OlsProofs OlsProps.

Lemma fold_ext_in {A B} (f g : A -> B -> A) l : (forall a x, In x l -> f a x = g a x) -> forall a, fold_left f l a = fold_left g l a.
Proof. induction l as [|x l IH]; intros H a; cbn [fold_left]; [reflexivity|]. rewrite H by (left; reflexivity). apply IH. intros; apply H; right; assumption. Qed.

(** ** Jump detection *)
(** Two exposures that differ only in samples flagged DO_NOT_USE or SATURATED get the same flags and the same count. *)
Theorem C134_jump : forall (fo : FOps) med sigclip crowded (P : JumpModel.params fo) nints ng nr nc dat dat' gdq rn kd ks,
  JumpModel.p_dnu P = bit kd -> JumpModel.p_sat P = bit ks ->
  (forall i g r c, N.testbit (gdq i g r c) kd = false -> N.testbit (gdq i g r c) ks = false -> dat i g r c = dat' i g r c) ->
  JumpModel.find_crs fo med sigclip crowded P nints ng nr nc dat gdq rn = JumpModel.find_crs fo med sigclip crowded P nints ng nr nc dat' gdq rn.
Proof.
  intros fo med sigclip crowded P nints ng nr nc dat dat' gdq rn kd ks Hd Hs H.
  assert (E : JumpModel.mask_data fo P dat gdq = JumpModel.mask_data fo P dat' gdq).
  { extensionality i. extensionality g. extensionality r. extensionality c. unfold JumpModel.mask_data. rewrite Hd, Hs.
    destruct (has (gdq i g r c) (N.lor (bit kd) (bit ks))) eqn:B; [reflexivity|].
    assert (BB : forall k, k = kd \/ k = ks -> N.testbit (gdq i g r c) k = false).
    { intros k K. unfold has in B. apply negb_false_iff, N.eqb_eq in B. apply (f_equal (fun x => N.testbit x k)) in B. rewrite N.land_spec, N.lor_spec, !bit_testbit, N.bits_0 in B.
      destruct (N.testbit (gdq i g r c) k); [|reflexivity]. destruct K as [-> | ->]; rewrite N.eqb_refl, ?orb_true_r in B; discriminate. }
    apply H; apply BB; tauto. }
  unfold JumpModel.find_crs, JumpModel.run_jump_detection. rewrite E. reflexivity.
Qed.
Print Assumptions C134_jump.

(** samples 2 and 3 of a pixel with a jump in its last group are flagged DO_NOT_USE and SATURATED: whatever they hold, only the jump is flagged *)
Definition ug_gdq : arr4 N := fun _ g _ _ => nth g [0; 0; 1; 2; 0; 0; 0; 0]%N 0%N.
Definition ug_dat (x y : Z) : arr4 B64 := fun _ g _ _ => z64 (nth g [0; 100; x; y; 400; 500; 600; 5000]%Z 0%Z).
Definition ug_flags (x y : Z) : list N := map (fun g => JumpModel.res_gdq (JumpModel.find_crs B64 med64 nosig nocrowd (exP 3 100 true) 1 8 1 1 (ug_dat x y) ug_gdq (fun _ _ => z64 5)) 0 g 0 0) (seq 0 8).
Example C134_jump_example : JumpModel.p_dnu (exP 3 100 true) = bit 0 /\ JumpModel.p_sat (exP 3 100 true) = bit 1 /\
  (forall i g r c, N.testbit (ug_gdq i g r c) 0 = false -> N.testbit (ug_gdq i g r c) 1 = false -> ug_dat 200 300 i g r c = ug_dat (-7000) 65535 i g r c) /\
  ug_flags 200 300 = [0; 0; 1; 2; 0; 0; 0; 4]%N /\ ug_flags (-7000) 65535 = [0; 0; 1; 2; 0; 0; 0; 4]%N.
Proof.
  split; [reflexivity|]. split; [reflexivity|]. split; [|split; vm_compute; reflexivity].
  intros i g r c H1 H2. unfold ug_gdq, ug_dat in *. do 2 (destruct g as [|g]; [reflexivity|]). destruct g as [|g]; [discriminate H1|]. destruct g as [|g]; [discriminate H2|]. reflexivity.
Qed.

(** ** The Casertano fit *)
Definition agree_on {A} (r : ramp) (y y' : nat -> A) : Prop := forall i, fst r <= i <= snd r -> y i = y' i.
Lemma fit_ramp_agree (fo : FOps) pow (y y' t tau : nat -> fo) nr rn r : fst r <= snd r -> agree_on r y y' -> fit_ramp fo pow y t tau nr rn r = fit_ramp fo pow y' t tau nr rn r.
Proof.
  intros V A. unfold fit_ramp. destruct (Nat.leb _ _) eqn:E; [reflexivity|].
  assert (RP : ramp_power fo y rn r = ramp_power fo y' rn r) by (unfold ramp_power; rewrite !A by lia; reflexivity).
  assert (W : forall i, weight_at fo pow y t nr rn r i = weight_at fo pow y' t nr rn r i) by (intro i; unfold weight_at; rewrite RP; reflexivity).
  cbv zeta. rewrite !(map_ext (weight_at fo pow y t nr rn r) (weight_at fo pow y' t nr rn r) W).
  rewrite (map_ext (fun i => fmul fo (weight_at fo pow y t nr rn r i) (t i)) (fun i => fmul fo (weight_at fo pow y' t nr rn r i) (t i))) by (intro; rewrite W; reflexivity).
  rewrite (map_ext (fun i => fmul fo (weight_at fo pow y t nr rn r i) (fmul fo (t i) (t i))) (fun i => fmul fo (weight_at fo pow y' t nr rn r i) (fmul fo (t i) (t i)))) by (intro; rewrite W; reflexivity).
  destruct (feq fo _ _); [reflexivity|]. f_equal.
  match goal with |- (let '(_, _) := fold_left ?f ?l ?a in _) = (let '(_, _) := fold_left ?f' _ _ in _) => assert (EF : fold_left f l a = fold_left f' l a) end; [|rewrite EF; reflexivity].
  apply fold_ext_in. intros [a s] i I. unfold members in I. apply in_seq in I. unfold coeff_at. rewrite W, (A i) by lia. reflexivity.
Qed.
Lemma loop_agree (A : Type) (fit fit' : ramp -> A) d d' (ok : nat -> Prop) fuel : forall w,
  (forall r f k, fst r <= snd r -> d r f = Some k -> k < snd r - fst r) ->
  (forall r, fst r <= snd r -> (forall i, fst r <= i <= snd r -> ok i) -> fit r = fit' r /\ forall f, d r f = d' r f) ->
  (forall r, In r (w_stack w) -> fst r <= snd r /\ forall i, fst r <= i <= snd r -> ok i) ->
  loop A fit d fuel w = loop A fit' d' fuel w.
Proof.
  induction fuel as [|fuel IH]; intros w R D H; cbn [loop]; destruct (w_stack w) as [|r rest] eqn:E; try reflexivity.
  assert (Hr : fst r <= snd r /\ forall i, fst r <= i <= snd r -> ok i) by (apply H; left; reflexivity). destruct Hr as [V O]. destruct (D r V O) as [F1 F2].
  assert (EB : body A fit d r rest w = body A fit' d' r rest w) by (unfold body; rewrite <- F1, F2; reflexivity).
  rewrite EB. apply IH; [assumption|assumption|]. rewrite <- EB. intros x I. unfold body in I. destruct (d r (fit r)) as [k|] eqn:K; cbn [w_stack] in I.
  - pose proof (R _ _ _ V K). destruct (Nat.ltb_spec (fst r) (k + fst r)), (Nat.ltb_spec (k + fst r + 1) (snd r)); cbn [In] in I;
      repeat (destruct I as [<-|I]; [cbn [fst snd]; split; [lia|intros i Hi; apply O; lia]|]); apply H; right; exact I.
  - apply H. right. exact I.
Qed.
(** Two ramps that differ only in resultants with a flag give the same rate, variances, flags and records. *)
Theorem C134_casertano : forall fo, FLaws fo -> fisnan fo (fnan fo) = true -> forall pow lg use_jump ic cc t tau nr n (y y' : nat -> fo) dq rn b b',
  (forall k, k < n -> dq k = 0%Z -> y k = y' k) ->
  option_map fst (fit_jumps fo pow lg use_jump ic cc t tau nr n y dq rn b) = option_map fst (fit_jumps fo pow lg use_jump ic cc t tau nr n y' dq rn b').
Proof.
  intros fo L HN pow lg use_jump ic cc t tau nr n y y' dq rn b b' H. rewrite (C65_buffer_irrelevant fo L HN pow lg use_jump ic cc t tau nr n y' dq rn b' b).
  unfold fit_jumps. cbv zeta. set (B := if use_jump then fill_pixel fo y _ _ _ _ _ b else b). set (B' := if use_jump then fill_pixel fo y' _ _ _ _ _ b else b).
  assert (E : split_ramps (rfit fo) (fit_ramp fo pow y t tau nr rn) (detect fo lg t tau nr use_jump ic cc B) n dq n
            = split_ramps (rfit fo) (fit_ramp fo pow y' t tau nr rn) (detect fo lg t tau nr use_jump ic cc B') n dq n).
  { unfold split_ramps. apply (loop_agree _ _ _ _ _ (fun k => k < n /\ dq k = 0%Z)).
    - apply detect_in_range; assumption.
    - intros r V O. assert (AG : agree_on r y y') by (intros i I; apply H; apply (O i I)). split; [apply fit_ramp_agree; assumption|]. intro f. apply detect_buf; [exact V|].
      intros d i D I1 I2. unfold B, B'. destruct use_jump; [|reflexivity]. pose proof (proj1 (O (snd r) ltac:(lia))) as N. rewrite !fill_pixel_spec by (assumption || lia).
      unfold pixel_at. rewrite !AG by lia. reflexivity.
    - cbn [w_stack]. intros r I. apply in_rev in I. destruct (init_ramps_runs dq n) as [[SP _] C]. split; [apply SP; exact I|]. intros i Hi. apply (C i). exists r. auto. }
  assert (HH : forall (A X : Type) (o1 o2 : option A) (f : A -> X) (c1 c2 : buffer fo), o1 = o2 -> option_map fst (do w <- o1; Some (f w, c1)) = option_map fst (do w <- o2; Some (f w, c2))) by (intros A X o1 o2 f c1 c2 ->; destruct o2; reflexivity).
  exact (HH _ _ _ _ (fun w : work (rfit fo) => {| p_avg := average fo (map snd (w_fits w)); p_dq := w_dq w; p_fits := w_fits w; p_jumps := w_jumps w |}) B B' E).
Qed.
Print Assumptions C134_casertano.
Example C134_casertano_example : FLaws B64 /\ fisnan B64 (fnan B64) = true /\
  (forall k, k < 8 -> nth k [0; 0; 1; 0; 0; 0; 1; 0]%Z 1%Z = 0%Z -> fz B64 (nth k [5; 8; 0; 14; 17; 20; 0; 26]%Z 0%Z) = fz B64 (nth k [5; 8; 900; 14; 17; 20; -3; 26]%Z 0%Z)) /\
  ex_out true [5; 8; 0; 14; 17; 20; 0; 26]%Z [0; 0; 1; 0; 0; 0; 1; 0]%Z 1 = ex_out true [5; 8; 900; 14; 17; 20; -3; 26]%Z [0; 0; 1; 0; 0; 0; 1; 0]%Z 1 /\
  ex_out true [5; 8; 11; 14; 17; 20; 23; 26]%Z [0; 0; 0; 0; 0; 0; 0; 0]%Z 1 <> ex_out true [5; 8; 900; 14; 17; 20; -3; 26]%Z [0; 0; 0; 0; 0; 0; 0; 0]%Z 1.
Proof.
  split; [apply JumpProps.exP_flags|]. split; [reflexivity|]. split; [|split; [vm_compute; reflexivity|vm_compute; discriminate]].
  intros k K H. do 8 (destruct k as [|k]; [try reflexivity; discriminate H|]). lia.
Qed.

(** ** The least-squares fit *)
Definition other_data (fo : FOps) (p : opix fo) (d : nat -> nat -> fo) : opix fo :=
  {| x_data := d; x_gdq := x_gdq fo p; x_dq := x_dq fo p; x_gain := x_gain fo p; x_rn := x_rn fo p; x_dark := x_dark fo p; x_zf := x_zf fo p; x_orig := x_orig fo p |}.
Section Ols.
  Variable fo : FOps.
  Variable powf : fo -> fo -> fo.
  Variable m : ometa fo.
  Variable p : opix fo.
  Variable d : nat -> nat -> fo.
  Variables dnu jump sat pers ngval chg : N.
  Hypothesis MF : m_f fo m = flags_at dnu jump sat pers ngval chg.
  Hypothesis MD : NoDup [dnu; jump; sat; pers; ngval].
  Hypothesis N2 : 2 <= m_ng fo m.
  Hypothesis SAME : forall k j, k < m_nints fo m -> j < m_ng fo m -> N.testbit (x_gdq fo p k j) dnu = false -> N.testbit (x_gdq fo p k j) sat = false -> x_data fo p k j = d k j.
  Let p' := other_data fo p d.
  Notation I k := (prep fo m p k).
  Notation I' k := (prep fo m p' k).
  (** the same but for the data of groups that are not to be used *)
  Definition sim (i i' : iprep fo) : Prop :=
    i_gdq fo i' = i_gdq fo i /\ i_sat fo i' = i_sat fo i /\ i_dnu fo i' = i_dnu fo i /\ i_dnusat fo i' = i_dnusat fo i /\ i_good fo i' = i_good fo i /\
    i_jump fo i' = i_jump fo i /\ i_chg fo i' = i_chg fo i /\ i_pers fo i' = i_pers fo i /\ i_0th fo i' = i_0th fo i /\ i_zf fo i' = i_zf fo i /\
    (forall j, j < m_ng fo m -> has (i_gdq fo i j) (o_dnu (m_f fo m)) = false -> i_data fo i' j = i_data fo i j) /\
    (i_0th fo i = true \/ i_zf fo i = true -> i_gdq fo i 0 = 0%N).
  Lemma prep_sim k : k < m_nints fo m -> sim (I k) (I' k).
  Proof.
    intro K. assert (D0 : forall j, j < m_ng fo m -> has (x_gdq fo p k j) (o_dnu (m_f fo m)) = false -> i_data fo (prep0 fo m p' k) j = i_data fo (prep0 fo m p k) j).
    { intros j J. rewrite MF. cbn [flags_at o_dnu]. rewrite has_bit. intro B. unfold prep0. cbn [i_data x_gdq x_data p' other_data]. rewrite MF. cbn [flags_at o_sat]. rewrite has_bit.
      destruct (N.testbit (x_gdq fo p k j) sat) eqn:S; [reflexivity|]. symmetry. apply SAME; assumption. }
    unfold prep. change (x_zf fo p') with (x_zf fo p). change (i_good fo (prep0 fo m p' k)) with (i_good fo (prep0 fo m p k)). change (i_gdq fo (prep0 fo m p' k)) with (i_gdq fo (prep0 fo m p k)).
    destruct (m_sup fo m); [repeat split; [exact D0|intros [X|X]; discriminate]|].
    destruct (Z.eqb 1 (i_good fo (prep0 fo m p k)) && N.eqb 0 (i_gdq fo (prep0 fo m p k) 0)) eqn:E1.
    { apply andb_true_iff in E1. destruct E1 as [_ E1]. apply N.eqb_eq in E1. repeat split; [exact D0|intros _; symmetry; exact E1]. }
    destruct (x_zf fo p) as [zf|]; [|repeat split; [exact D0|intros [X|X]; discriminate]].
    destruct (Z.eqb 0 (i_good fo (prep0 fo m p k)) && negb (feq fo (fzero fo) (zf k))); [|repeat split; [exact D0|intros [X|X]; discriminate]].
    repeat split. cbn [i_data i_gdq]. intros j J. unfold upd. destruct (Nat.eqb j 0); [reflexivity|]. apply D0, J.
  Qed.
  Lemma loc_sim i i' j : sim i i' -> j < m_ng fo m -> loc_rate fo m i' j = loc_rate fo m i j.
  Proof. intros (G & _ & _ & _ & _ & _ & _ & _ & _ & _ & D & _) J. unfold loc_rate. rewrite G. destruct (has _ _) eqn:E; [reflexivity|]. rewrite D by assumption. reflexivity. Qed.
  Lemma rate_sim i i' : sim i i' -> integ_rate fo m i' = integ_rate fo m i.
  Proof.
    intro S. assert (FD : OlsModel.first_diffs fo m i' = OlsModel.first_diffs fo m i).
    { unfold OlsModel.first_diffs. apply map_ext_in. intros k K. apply in_seq in K. rewrite !(loc_sim i i') by (assumption || lia). destruct S as (G & _). rewrite G. reflexivity. }
    assert (L0 := loc_sim i i' 0 S ltac:(lia)). unfold integ_rate, median_rate_integration. rewrite FD, L0.
    destruct S as (G & _ & _ & _ & _ & _ & _ & _ & T & Z & D & F). rewrite T, Z.
    assert (D0 : i_0th fo i = true \/ i_zf fo i = true -> i_data fo i' 0 = i_data fo i 0) by (intro X; apply D; [lia|]; rewrite (F X); reflexivity).
    destruct (i_0th fo i); [rewrite D0 by tauto; reflexivity|]. destruct (i_zf fo i); [rewrite D0 by tauto; reflexivity|]. reflexivity.
  Qed.
  Lemma median_sim : median_rate fo m p' = median_rate fo m p.
  Proof.
    unfold median_rate. destruct (Nat.eqb_spec 1 (m_ng fo m)); [lia|]. do 2 f_equal. apply map_ext_in. intros k K. apply in_seq in K. apply rate_sim, prep_sim. lia.
  Qed.
  Lemma members_data i i' g : sim i i' -> In g (sl_nodes (scan_segments (m_f fo m) (i_gdq fo i) (m_ng fo m))) ->
    fst g < snd g /\ forall j, fst g <= j < snd g -> i_data fo i' j = i_data fo i j.
  Proof.
    intros S IN. split; [apply (proj1 (Forall_forall _ _) (proj1 (C30_ordered_disjoint (m_f fo m) (i_gdq fo i) (m_ng fo m))) g IN)|].
    intros j J. destruct (C30_members _ _ _ g j IN J) as [J1 J2]. destruct S as (_ & _ & _ & _ & _ & _ & _ & _ & _ & _ & D & _). apply D; [exact J1|].
    rewrite MF in *. cbn [flags_at o_dnu o_pers o_jump] in *. rewrite has_bit.
    assert (NE : dnu <> pers /\ dnu <> jump) by (inversion_clear MD as [|? ? N1 _]; cbn [In] in N1; split; intros ->; apply N1; tauto).
    assert (B : N.testbit (N.ldiff (i_gdq fo i j) (bit pers)) dnu = false).
    { destruct J2 as [J2|[_ J2]]; rewrite J2; [reflexivity|]. rewrite bit_testbit. apply N.eqb_neq. intro X. apply (proj2 NE). congruence. }
    rewrite N.ldiff_spec, bit_testbit in B. replace (N.eqb pers dnu) with false in B by (symmetry; apply N.eqb_neq; intro X; apply (proj1 NE); congruence). rewrite andb_true_r in B. exact B.
  Qed.
  Lemma timing_sim i i' : sim i i' -> len1_timing fo m i' = len1_timing fo m i.
  Proof. intros (_ & _ & _ & _ & _ & _ & _ & _ & T & Z & _). unfold len1_timing. rewrite T, Z. reflexivity. Qed.
  Lemma segment_sim i i' mr g : sim i i' -> In g (sl_nodes (scan_segments (m_f fo m) (i_gdq fo i) (m_ng fo m))) -> fit_segment fo powf m p' i' mr g = fit_segment fo powf m p i mr g.
  Proof.
    intros S IN. destruct (members_data i i' g S IN) as [V D]. unfold fit_segment. destruct (Nat.eqb_spec 1 (snd g - fst g)).
    { unfold fit_len1. rewrite (timing_sim i i' S), D by lia. reflexivity. }
    destruct (Nat.eqb_spec 2 (snd g - fst g)).
    { unfold fit_len2. rewrite !D by lia. reflexivity. }
    unfold fit_default. assert (SN : segment_snr fo p' i' g = segment_snr fo p i g) by (unfold segment_snr; rewrite !D by lia; reflexivity). rewrite SN.
    assert (Y : forall k, In k (seq 0 (snd g - fst g)) -> o_y fo i' g k = o_y fo i g k) by (intros k K; apply in_seq in K; unfold o_y; rewrite D by lia; reflexivity).
    change (o_weight fo powf p') with (o_weight fo powf p). cbv zeta.
    set (w := o_weight fo powf p _ g).
    rewrite (map_ext_in (fun k => fmul fo (o_y fo i' g k) (w k)) (fun k => fmul fo (o_y fo i g k) (w k))) by (intros k K; rewrite Y by exact K; reflexivity).
    rewrite (map_ext_in (fun k => fmul fo (o_y fo i' g k) (fmul fo (o_x fo g k) (w k))) (fun k => fmul fo (o_y fo i g k) (fmul fo (o_x fo g k) (w k)))) by (intros k K; rewrite Y by exact K; reflexivity).
    reflexivity.
  Qed.
  Lemma integration_sim mr k : k < m_nints fo m -> finish_integration fo powf m p' mr k = finish_integration fo powf m p mr k.
  Proof.
    intro K. pose proof (prep_sim k K) as S. set (i := I k) in *. set (i' := I' k) in *.
    assert (E : fit_integration fo powf m p' mr k = fit_integration fo powf m p mr k).
    { unfold fit_integration. fold i i'. pose proof S as (G & ST & DN & DS & GD & JP & CH & PE & T & Z & D & F). unfold int_dq0. rewrite G, ST, DS, JP, PE. change (pixel_dq fo m p') with (pixel_dq fo m p).
      cbv zeta. destruct (Z.eqb _ (i_dnusat fo i)); [reflexivity|]. unfold fit_slope. destruct (has (i_gdq fo i 0) (o_sat (m_f fo m))); [reflexivity|].
      destruct (Nat.eqb _ 0); [reflexivity|]. rewrite (map_ext_in (fit_segment fo powf m p' i' mr) (fit_segment fo powf m p i mr)); [reflexivity|]. intros g IN. apply segment_sim; assumption. }
    unfold finish_integration. rewrite E. fold i i'. destruct S as (G & ST & _). rewrite ST. reflexivity.
  Qed.
  (** Two pixels that differ only in samples flagged DO_NOT_USE or SATURATED get the same slopes, variances, errors and flags. *)
  Theorem C134_least_squares : ols_pixel fo powf m (other_data fo p d) = ols_pixel fo powf m p.
  Proof.
    fold p'.
    assert (PS : forall (X : Type) (h : iprep fo -> X), (forall i i', sim i i' -> h i' = h i) -> map (fun k => h (I' k)) (seq 0 (m_nints fo m)) = map (fun k => h (I k)) (seq 0 (m_nints fo m))).
    { intros X h Hh. apply map_ext_in. intros k K. apply in_seq in K. apply Hh, prep_sim. lia. }
    assert (EX : forall h : iprep fo -> bool, (forall i i', sim i i' -> h i' = h i) -> existsb h (map (prep fo m p') (seq 0 (m_nints fo m))) = existsb h (map (prep fo m p) (seq 0 (m_nints fo m)))).
    { intros h Hh. assert (C : forall l, existsb h l = existsb (fun b => b) (map h l)) by (induction l as [|x l IH]; [reflexivity|]; cbn; rewrite IH; reflexivity).
      rewrite !C, !map_map. f_equal. apply PS, Hh. }
    assert (FP : fit_pixel fo powf m p' = fit_pixel fo powf m p).
    { unfold fit_pixel. rewrite median_sim. rewrite (map_ext_in (finish_integration fo powf m p' (median_rate fo m p)) (finish_integration fo powf m p (median_rate fo m p))) by (intros k K; apply in_seq in K; apply integration_sim; lia).
      rewrite (EX (i_jump fo)) by (intros i i' S; apply S). rewrite (EX (i_pers fo)) by (intros i i' S; apply S). reflexivity. }
    unfold ols_pixel, chargeloss. rewrite FP. change (x_orig fo p') with (x_orig fo p). destruct (x_orig fo p) as [orig|]; [|reflexivity].
    rewrite (EX (i_chg fo)) by (intros i i' S; apply S).
    assert (CI : forall k, k < m_nints fo m -> chargeloss_inv fo m p' orig k = chargeloss_inv fo m p orig k).
    { intros k K. unfold chargeloss_inv. apply fold_ext_in. intros a g _. unfold rnoise. rewrite (timing_sim _ _ (prep_sim k K)). reflexivity. }
    assert (CH : forall k, k < m_nints fo m -> i_chg fo (I' k) = i_chg fo (I k)) by (intros k K; apply (prep_sim k K)).
    cbv zeta. destruct (negb _); [reflexivity|]. f_equal.
    - do 2 f_equal. match goal with |- (if flt fo _ (fold_left ?f _ _) then _ else _) = (if flt fo _ (fold_left ?f' _ _) then _ else _) => rewrite (fold_ext_in f f') end; [reflexivity|].
      intros a k K. apply in_seq in K. rewrite CH, CI by lia. reflexivity.
    - apply map_ext_in. intros k K. apply in_seq in K. rewrite CH, CI by lia. reflexivity.
  Qed.
End Ols.
Print Assumptions C134_least_squares.
(** one group marked DO_NOT_USE and one saturated, in each of two integrations *)
Definition ug_m : ometa B64 := ex_meta B64 6 2 false.
Definition ug_p (x y : Z) : opix B64 := ex_pix B64 [[5; 8; x; 14; 17; y]; [5; x; 11; 15; y; y]]%Z [[0; 0; 1; 0; 0; 2]; [0; 1; 0; 0; 2; 2]]%N 1 1 None None.
Example C134_least_squares_example : m_f B64 ug_m = flags_at 0 2 1 3 4 7 /\ NoDup [0; 2; 1; 3; 4]%N /\ 2 <= m_ng B64 ug_m /\
  (forall k j, k < 2 -> j < 6 -> N.testbit (x_gdq B64 (ug_p 11 20) k j) 0 = false -> N.testbit (x_gdq B64 (ug_p 11 20) k j) 1 = false -> x_data B64 (ug_p 11 20) k j = x_data B64 (ug_p 999 (-4)) k j) /\
  ex_show ug_m (ug_p 11 20) = ex_show ug_m (ug_p 999 (-4)) /\ flt B64 (fzero B64) (q_slope B64 (fst (ols_pixel B64 one_pow ug_m (ug_p 11 20)))) = true.
Proof.
  split; [reflexivity|]. split; [repeat constructor; cbn; intuition discriminate|]. split; [cbn; lia|]. split; [|split; vm_compute; reflexivity].
  intros k j K J H1 H2. destruct k as [|[|k]]; [| |lia]; (do 6 (destruct j as [|j]; [try reflexivity; first [discriminate H1|discriminate H2]|])); lia.
Qed.
(** With one group per integration, the count of an integration that is not to be used still enters the variance of the others. *)
Theorem C134_one_group_refuted : exists (p : opix B64) d, let m := ex_meta B64 1 2 false in
  (forall k j, k < m_nints B64 m -> j < m_ng B64 m -> N.testbit (x_gdq B64 p k j) 0 = false -> N.testbit (x_gdq B64 p k j) 1 = false -> x_data B64 p k j = d k j) /\
  let vp x := map (q_vp B64) (snd (ols_pixel B64 one_pow m x)) in nth 0 (vp p) (fzero B64) <> nth 0 (vp (other_data B64 p d)) (fzero B64).
Proof.
  exists (ex_pix B64 [[100]; [200]]%Z [[0]; [1]]%N 1 1 None None), (fun k j => fofZ B64 (ex_nth 0%Z [[100]; [4000]]%Z k j)). split; [|vm_compute; discriminate].
  intros k j K J H1 H2. cbn in K, J. destruct k as [|[|k]]; [| |lia]; (destruct j as [|j]; [|lia]); [reflexivity|discriminate H1].
Qed.
Print Assumptions C134_one_group_refuted.
