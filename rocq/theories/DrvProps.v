(** Theorems about the entry points of ramp fitting (C105, C106, C108). *)
From Verif Require Import Base BaseLemmas OlsModel OlsSpec OlsProofs OlsPyModel OlsPyProofs OlsProps LikelyModel ChgProps DrvModel.
From Coq Require Import String Ascii SpecFloat FunctionalExtensionality.
Local Open Scope nat_scope.

(** ** The fit of one pixel does not look at CHARGELOSS unless the original group DQ is at hand *)
Definition with_chg (f : oflags) (c : N) : oflags := {| o_dnu := o_dnu f; o_jump := o_jump f; o_sat := o_sat f; o_pers := o_pers f; o_ngval := o_ngval f; o_chg := c |}.
Definition meta_chg (fo : FOps) (m : ometa fo) (c : N) : ometa fo :=
  {| m_f := with_chg (m_f fo m) c; m_nints := m_nints fo m; m_ng := m_ng fo m; m_tgroup := m_tgroup fo m; m_tframe := m_tframe fo m; m_nframes := m_nframes fo m; m_sup := m_sup fo m |}.
Definition iset (fo : FOps) (i : iprep fo) (b : bool) : iprep fo :=
  {| i_data := i_data fo i; i_gdq := i_gdq fo i; i_sat := i_sat fo i; i_dnu := i_dnu fo i; i_dnusat := i_dnusat fo i; i_good := i_good fo i;
     i_jump := i_jump fo i; i_chg := b; i_pers := i_pers fo i; i_0th := i_0th fo i; i_zf := i_zf fo i |}.
Lemma iset_id (fo : FOps) i : iset fo i (i_chg fo i) = i.
Proof. destruct i. reflexivity. Qed.
Lemma prep_chg (fo : FOps) m p c k : prep fo (meta_chg fo m c) p k = iset fo (prep fo m p k) (i_chg fo (prep fo (meta_chg fo m c) p k)).
Proof.
  unfold prep. cbn [meta_chg m_sup m_ng]. assert (E : prep0 fo (meta_chg fo m c) p k = iset fo (prep0 fo m p k) (i_chg fo (prep0 fo (meta_chg fo m c) p k))) by reflexivity.
  rewrite E. set (b := i_chg fo (prep0 fo (meta_chg fo m c) p k)). clearbody b. set (i := prep0 fo m p k). clearbody i. clear E. cbn [iset i_good i_gdq i_data i_sat i_dnu i_dnusat i_jump i_pers].
  destruct (m_sup fo m); [reflexivity|]. destruct (_ && _); [reflexivity|]. destruct (x_zf fo p) as [zf|]; [|reflexivity]. destruct (_ && _); reflexivity.
Qed.
Lemma segment_chg (fo : FOps) powf m p i b c mr s : fit_segment fo powf (meta_chg fo m c) p (iset fo i b) mr s = fit_segment fo powf m p i mr s.
Proof.
  unfold fit_segment. destruct (Nat.eqb 1 _); [unfold fit_len1, len1_timing; reflexivity|]. destruct (Nat.eqb 2 _); [unfold fit_len2, rnoise_len2; reflexivity|].
  unfold fit_default, rnoise_default, segment_snr, o_y, o_x, o_weight. reflexivity.
Qed.
Lemma finish_chg (fo : FOps) powf m p c mr k : finish_integration fo powf (meta_chg fo m c) p mr k = finish_integration fo powf m p mr k.
Proof.
  unfold finish_integration. assert (E : fit_integration fo powf (meta_chg fo m c) p mr k = fit_integration fo powf m p mr k).
  { unfold fit_integration. rewrite prep_chg. set (b := i_chg fo _). clearbody b. set (i := prep fo m p k). clearbody i.
    assert (D : int_dq0 fo (meta_chg fo m c) p (iset fo i b) = int_dq0 fo m p i) by reflexivity. rewrite D.
    assert (S1 : scan_segments (m_f fo (meta_chg fo m c)) (i_gdq fo (iset fo i b)) (m_ng fo (meta_chg fo m c)) = scan_segments (m_f fo m) (i_gdq fo i) (m_ng fo m)) by reflexivity. rewrite S1.
    cbn [iset i_gdq i_dnusat i_sat meta_chg m_f with_chg o_sat o_dnu m_ng]. destruct (Z.eqb _ _); [reflexivity|]. unfold fit_slope. destruct (Nat.eqb _ 0); [reflexivity|].
    rewrite (map_ext _ _ (segment_chg fo powf m p i b c mr)). reflexivity. }
  rewrite E. rewrite prep_chg. set (b := i_chg fo _). clearbody b. set (i := prep fo m p k). clearbody i. cbn [iset i_sat meta_chg m_f with_chg o_sat o_dnu]. reflexivity.
Qed.
Lemma fit_chg (fo : FOps) powf m p c : fit_pixel fo powf (meta_chg fo m c) p = fit_pixel fo powf m p.
Proof.
  unfold fit_pixel. assert (M : median_rate fo (meta_chg fo m c) p = median_rate fo m p).
  { unfold median_rate. cbn [meta_chg m_ng m_nints]. destruct (Nat.eqb 1 _); f_equal; f_equal; apply map_ext; intro k; rewrite prep_chg; set (b := i_chg fo _); clearbody b; reflexivity. }
  rewrite M. cbn [meta_chg m_nints m_f with_chg o_dnu o_jump o_sat o_pers]. rewrite (map_ext _ _ (finish_chg fo powf m p c (median_rate fo m p))).
  assert (J : forall g, (forall i b, g (iset fo i b) = g i) -> existsb g (map (prep fo (meta_chg fo m c) p) (seq 0 (m_nints fo m))) = existsb g (map (prep fo m p) (seq 0 (m_nints fo m)))).
  { intros g Hg. induction (seq 0 (m_nints fo m)) as [|k l IH]; [reflexivity|]. cbn [map existsb]. rewrite IH, prep_chg, Hg. reflexivity. }
  rewrite !J by reflexivity. reflexivity.
Qed.
Lemma pixel_chg (fo : FOps) powf m p c : x_orig fo p = None -> ols_pixel fo powf (meta_chg fo m c) p = ols_pixel fo powf m p.
Proof. intro H. unfold ols_pixel, chargeloss. rewrite H. apply fit_chg. Qed.

(** * C105: the choice of algorithm *)
Section Choice.
  Variable fo : FOps.
  Variable powf : fo -> fo -> fo.
  Variable L : Type.
  Variable likely : rdata fo -> img fo -> img fo -> L.
  Notation fit := (ramp_fit fo powf L likely).
  (** no group of the exposure carries the flag *)
  Definition nowhere (w : rmodel fo) (flag : N) : Prop :=
    forall i g r c, i < w_ni fo w -> g < w_ng fo w -> r < w_nr fo w -> c < w_nc fo w -> N.land (w_gdq fo w i g r c) flag = 0%N.
  Lemma any_nowhere w flag : any_flag fo w flag = false <-> nowhere w flag.
  Proof.
    unfold any_flag, nowhere. rewrite <- not_true_iff_false, existsb_exists. split.
    - intros H i g r c I G R C. destruct (N.eq_dec (N.land (w_gdq fo w i g r c) flag) 0) as [E|E]; [exact E|]. exfalso. apply H. exists i. split; [apply in_seq; lia|].
      apply existsb_exists. exists g. split; [apply in_seq; lia|]. apply existsb_exists. exists (r, c). split; [apply pixels_in; cbn; lia|]. unfold has. cbn [fst snd]. apply negb_true_iff, N.eqb_neq, E.
    - intros H (i & I & E). apply existsb_exists in E. destruct E as (g & G & E). apply existsb_exists in E. destruct E as ((r & c) & P & E). apply in_seq in I, G. apply pixels_in in P. cbn [fst snd] in *.
      unfold has in E. rewrite H in E by lia. discriminate.
  Qed.
  Theorem C105_names : forall w rn gain a b dq sup, upper a = upper b -> fit w rn gain a dq sup = fit w rn gain b dq sup.
  Proof. intros w rn gain a b dq sup E. unfold ramp_fit, create, fit_data. rewrite E. reflexivity. Qed.
  (** letters that differ at most in case, by their ASCII codes *)
  Definition same_letter (c d : ascii) : Prop := c = d \/ exists k, k < 26 /\ (nat_of_ascii c = 65 + k \/ nat_of_ascii c = 97 + k) /\ (nat_of_ascii d = 65 + k \/ nat_of_ascii d = 97 + k).
  Fixpoint same_name (a b : string) : Prop :=
    match a, b with EmptyString, EmptyString => True | String c a', String d b' => same_letter c d /\ same_name a' b' | _, _ => False end.
  Lemma upper1_code c k : k < 26 -> nat_of_ascii c = 65 + k \/ nat_of_ascii c = 97 + k -> upper1 c = ascii_of_nat (65 + k).
  Proof.
    intros K [E|E]; unfold upper1; rewrite E.
    - destruct (Nat.leb_spec 97 (65 + k)); [lia|]. cbn [andb]. rewrite <- E, ascii_nat_embedding. reflexivity.
    - destruct (Nat.leb_spec 97 (97 + k)); [|lia]. destruct (Nat.leb_spec (97 + k) 122); [|lia]. cbn [andb]. f_equal.
  Qed.
  Lemma same_name_upper a : forall b, same_name a b -> upper a = upper b.
  Proof.
    induction a as [|c a IH]; intros [|d b] H; cbn in H; try contradiction; [reflexivity|]. destruct H as [H1 H2]. cbn [upper]. rewrite (IH _ H2). f_equal.
    destruct H1 as [->|(k & K & C & D)]; [reflexivity|]. rewrite (upper1_code c k K C), (upper1_code d k K D). reflexivity.
  Qed.
  Theorem C105_case : forall w rn gain a b dq sup, same_name a b -> fit w rn gain a dq sup = fit w rn gain b dq sup.
  Proof. intros. apply C105_names, same_name_upper. assumption. Qed.
  (** exposures of one group are never suppressed *)
  Theorem C34_one_group_exposure : forall w rn gain alg dq sup, w_ng fo w = 1 -> fit w rn gain alg dq sup = fit w rn gain alg dq false.
  Proof. intros w rn gain alg dq sup E. unfold ramp_fit. rewrite E. destruct sup; reflexivity. Qed.
  (** four or more groups: the likelihood fit gets the model's own arrays and the read noise as given *)
  Theorem C105_likely : forall w rn gain alg dq sup r, upper alg = ALG_LIKELY -> 4 <= w_ng fo w -> fit w rn gain alg dq sup = Some r ->
    exists d, r = by_likely fo L (likely d rn gain) /\ d_in fo d = w /\ d_gdq fo d = w_gdq fo w /\ d_orig fo d = None.
  Proof.
    intros w rn gain alg dq sup r A G E. unfold ramp_fit in E. set (sp := if sup && Nat.eqb (w_ng fo w) 1 then false else sup) in E. clearbody sp.
    destruct (create fo w alg dq sp) as [d|] eqn:D; [|discriminate]. cbn [bind] in E. injection E as <-. exists d.
    unfold create in D. rewrite A in D. change (String.eqb ALG_LIKELY ALG_OLS) with false in D. cbn [bind] in D.
    repeat match type of D with bind ?o _ = _ => destruct o; [cbn [bind] in D|discriminate] end. injection D as <-.
    unfold fit_data. cbn [d_in]. rewrite A, (proj2 (Nat.leb_le 4 _) G). repeat split.
  Qed.
  (** anything else, and a likelihood fit of three groups or fewer, is done by least squares *)
  Theorem C105_ols : forall w rn gain alg dq sup r, upper alg <> ALG_LIKELY \/ w_ng fo w < 4 -> fit w rn gain alg dq sup = Some r -> exists x, r = by_ols fo L x.
  Proof.
    intros w rn gain alg dq sup r H E. unfold ramp_fit in E. set (sp := if sup && Nat.eqb (w_ng fo w) 1 then false else sup) in E. clearbody sp.
    destruct (create fo w alg dq sp) as [d|] eqn:D; [|discriminate]. cbn [bind] in E. injection E as <-.
    assert (W : d_in fo d = w). { unfold create in D. repeat match type of D with bind ?o _ = _ => destruct o; [cbn [bind] in D|discriminate] end. injection D as <-. reflexivity. }
    unfold fit_data. rewrite W. destruct (String.eqb_spec (upper alg) ALG_LIKELY) as [A|_]; [|eexists; reflexivity]. destruct H as [H|H]; [contradiction|].
    destruct (Nat.leb_spec 4 (w_ng fo w)); [lia|]. eexists. reflexivity.
  Qed.
  (** and the result is then the least-squares result, if no group lost charge *)
  Theorem C105_short_likely : forall w rn gain a b dq sup flag, upper a = ALG_LIKELY -> upper b = ALG_OLS -> w_ng fo w < 4 ->
    dq "CHARGELOSS"%string = Some flag -> nowhere w flag -> fit w rn gain a dq sup = fit w rn gain b dq sup.
  Proof.
    intros w rn gain a b dq sup flag A B G K NW. unfold ramp_fit. set (sp := if sup && Nat.eqb (w_ng fo w) 1 then false else sup). clearbody sp.
    unfold create. rewrite A, B, K. change (String.eqb ALG_LIKELY ALG_OLS) with false. change (String.eqb ALG_OLS ALG_OLS) with true. cbv iota. cbn [bind].
    rewrite (proj2 (any_nowhere w flag) NW).
    destruct (dq "DO_NOT_USE"%string) as [dnu|]; [cbn [bind]|reflexivity]. destruct (dq "JUMP_DET"%string) as [jump|]; [cbn [bind]|reflexivity].
    destruct (dq "SATURATED"%string) as [sat|]; [cbn [bind]|reflexivity]. destruct (dq "PERSISTENCE"%string) as [pers|]; [cbn [bind]|reflexivity].
    destruct (dq "NO_GAIN_VALUE"%string) as [ngv|]; [cbn [bind]|reflexivity]. destruct (dq "UNRELIABLE_SLOPE"%string) as [us|]; [cbn [bind]|reflexivity].
    unfold fit_data. cbn [d_in]. rewrite A, B. change (String.eqb ALG_OLS ALG_LIKELY) with false. rewrite (proj2 (Nat.leb_gt 4 _) G), andb_false_r. cbn [andb]. f_equal. f_equal.
    unfold ols_image. cbn [d_in d_sup d_gdq]. set (d1 := Build_rdata _ _ _ _ _ _ _ _ _ _ _ None _ _). set (d2 := Build_rdata _ _ _ _ _ _ _ _ _ _ _ (Some flag) _ _).
    assert (SU : forall q, suppress (c_flags fo d1) (w_ni fo w) (w_ng fo w) (w_nr fo w) (w_nc fo w) q = suppress (c_flags fo d2) (w_ni fo w) (w_ng fo w) (w_nr fo w) (w_nc fo w) q) by reflexivity.
    assert (DI : forall q, discard_miri (c_flags fo d1) (w_ni fo w) (w_ng fo w) (w_nr fo w) (w_nc fo w) q = discard_miri (c_flags fo d2) (w_ni fo w) (w_ng fo w) (w_nr fo w) (w_nc fo w) q).
    { intro q. unfold discard_miri. assert (ML : forall fuel mem off rem, miri_loop (c_flags fo d1) (w_ni fo w) (w_nr fo w) (w_nc fo w) fuel mem off rem = miri_loop (c_flags fo d2) (w_ni fo w) (w_nr fo w) (w_nc fo w) fuel mem off rem).
      { induction fuel as [|fuel IH]; intros mem off rem; [reflexivity|]. cbn [miri_loop]. rewrite IH. reflexivity. }
      rewrite ML. reflexivity. }
    rewrite SU, DI. set (gdq := if sp then _ else _). clearbody gdq. set (rs := fun r c => scaled_readnoise _ _ _ _). clearbody rs.
    destruct (if String.eqb (w_name fo w) "MIRI" && Nat.ltb 1 (w_ng fo w) then _ else _) as [[[mem off] n]|]; [cbn [bind]|reflexivity].
    assert (AF : all_first fo d1 mem off = all_first fo d2 mem off) by reflexivity. rewrite AF. destruct (all_first fo d2 mem off); [reflexivity|]. f_equal.
    extensionality r. extensionality c. change (pixel_meta fo d1 n) with (meta_chg fo (pixel_meta fo d2 n) 0%N). change (pixel_in fo d1 mem off rs gain r c) with (pixel_in fo d2 mem off rs gain r c).
    apply pixel_chg. reflexivity.
  Qed.
  Print Assumptions C105_names. Print Assumptions C105_likely. Print Assumptions C105_ols. Print Assumptions C105_short_likely.
End Choice.
(** an exposure of one pixel: the flags of ex_meta *)
Definition ex_dict : flagdict := fun s =>
  if String.eqb s "DO_NOT_USE" then Some 1%N else if String.eqb s "SATURATED" then Some 2%N else if String.eqb s "JUMP_DET" then Some 4%N else
  if String.eqb s "PERSISTENCE" then Some 8%N else if String.eqb s "NO_GAIN_VALUE" then Some 16%N else if String.eqb s "UNRELIABLE_SLOPE" then Some 32%N else
  if String.eqb s "CHARGELOSS" then Some 128%N else None.
Definition ex_model (data : list Z) (words : list N) (zf : option Z) (name : string) : rmodel B64 :=
  {| w_ni := 1; w_ng := List.length data; w_nr := 1; w_nc := 1; w_data := fun _ g _ _ => fofZ B64 (nth g data 0%Z); w_gdq := fun _ g _ _ => nth g words 0%N; w_pdq := fun _ _ => 0%N;
     w_dark := None; w_zf := match zf with Some z => Some (fun _ _ _ => fofZ B64 z) | None => None end; w_name := name; w_frame := fofZ B64 1; w_group := fofZ B64 10; w_gap := 9; w_nframes := 1; w_drop := None; w_times := [] |}.
(** one pixel, one group *)
Definition ex_row1 (x : Z) (word : N) : rmodel B64 :=
  {| w_ni := 1; w_ng := 1; w_nr := 1; w_nc := 1; w_data := fun _ _ _ _ => fofZ B64 x; w_gdq := fun _ _ _ _ => word; w_pdq := fun _ _ => 0%N;
     w_dark := None; w_zf := None; w_name := "NIRISS"%string; w_frame := fofZ B64 1; w_group := fofZ B64 10; w_gap := 9; w_nframes := 1; w_drop := None; w_times := [] |}.
Definition flat (x : B64) : img B64 := fun _ _ => x.
Definition ex_fit (w : rmodel B64) (alg : string) := ramp_fit B64 one_pow unit (fun _ _ _ => tt) w (flat (fofZ B64 3)) (flat (fone B64)) alg ex_dict false.
(** the read-noise variance of the exposure at pixel (0, 0) *)
Definition vr_of (r : option (fitted B64 unit)) : option spec_float :=
  match r with Some (by_ols _ _ (Some f)) => Some (q_vr B64 (fst (f 0 0))) | _ => None end.
(** with lost groups the two differ: the likelihood path never learns the CHARGELOSS flag *)
Theorem C105_chargeloss_refuted : exists w, w_ng B64 w < 4 /\ vr_of (ex_fit w "LIKELY") <> None /\ vr_of (ex_fit w "OLS_C") <> None /\ vr_of (ex_fit w "LIKELY") <> vr_of (ex_fit w "OLS_C").
Proof. exists (ex_model [10; 20; 29]%Z [0; 0; 129]%N None "NIRISS"). vm_compute. repeat split; try discriminate. lia. Qed.
Print Assumptions C105_chargeloss_refuted.
Print Assumptions C105_case. Print Assumptions C34_one_group_exposure.
Example C34_one_group_example : w_ng B64 (ex_row1 10 0) = 1 /\ suppress (flags_at 0 2 1 3 4 7) 1 1 1 1 (w_gdq B64 (ex_row1 10 0)) 0 0 0 0 = 1%N.
Proof. vm_compute. repeat split. Qed.
Example C105_case_example : same_name "likely" "LiKELY" /\ same_name "Ols_C" "OLS_c" /\ ~ same_name "OLS" "OLS_C".
Proof.
  assert (L : forall k, k < 26 -> same_letter (ascii_of_nat (65 + k)) (ascii_of_nat (97 + k)) /\ same_letter (ascii_of_nat (97 + k)) (ascii_of_nat (65 + k))).
  { intros k K. split; right; exists k; rewrite !nat_ascii_embedding by lia; tauto. }
  cbn. repeat split; try (left; reflexivity); try tauto; try (intros (_ & _ & _ & []); fail); first [exact (proj2 (L 8 ltac:(lia)))|exact (proj2 (L 10 ltac:(lia)))|exact (proj2 (L 4 ltac:(lia)))|exact (proj2 (L 11 ltac:(lia)))|exact (proj2 (L 18 ltac:(lia)))|exact (proj2 (L 24 ltac:(lia)))|exact (proj1 (L 2 ltac:(lia)))|idtac].
Qed.
Example C105_example : upper "likely" = ALG_LIKELY /\ upper "Ols_C" = ALG_OLS /\ w_ng B64 (ex_model [10; 20; 29]%Z [0; 4; 0]%N None "NIRISS") < 4 /\
  nowhere B64 (ex_model [10; 20; 29]%Z [0; 4; 0]%N None "NIRISS") 128 /\ vr_of (ex_fit (ex_model [10; 20; 29]%Z [0; 4; 0]%N None "NIRISS") "likely") <> None.
Proof. repeat split; try (vm_compute; lia); [|vm_compute; discriminate]. intros i g r c _ G _ _. cbn in G |- *. do 3 (destruct g as [|g]; [reflexivity|]). lia. Qed.

(** * C106: the flags a caller must name *)
Definition named (dq : flagdict) (s : string) : Prop := exists v, dq s = Some v.
Definition six_names : list string := ["DO_NOT_USE"; "JUMP_DET"; "SATURATED"; "PERSISTENCE"; "NO_GAIN_VALUE"; "UNRELIABLE_SLOPE"]%string.
Theorem C106_names_needed : forall (fo : FOps) powf L likely w rn gain alg dq sup,
  (exists r, ramp_fit fo powf L likely w rn gain alg dq sup = Some r) <-> (forall s, In s six_names -> named dq s) /\ (upper alg = ALG_OLS -> named dq "CHARGELOSS").
Proof.
  intros fo powf L likely w rn gain alg dq sup. unfold ramp_fit. set (sp := if sup && Nat.eqb (w_ng fo w) 1 then false else sup). clearbody sp. unfold named, six_names.
  assert (A : (exists r, (do d <- create fo w alg dq sp; Some (fit_data fo powf L likely d rn gain alg)) = Some r) <-> create fo w alg dq sp <> None).
  { destruct (create fo w alg dq sp); cbn [bind]; split; intro H; try discriminate; [eexists; reflexivity|destruct H; discriminate|contradiction]. }
  rewrite A. clear A. unfold create. destruct (String.eqb_spec (upper alg) ALG_OLS) as [E|E].
  - destruct (dq "CHARGELOSS"%string) as [v|] eqn:C; cbn [bind].
    + split.
      * intro H. split; [|intros _; exists v; reflexivity]. intros s I. cbn [In] in I.
        destruct (dq "DO_NOT_USE"%string) eqn:D1; cbn [bind] in H; [|congruence]. destruct (dq "JUMP_DET"%string) eqn:D2; cbn [bind] in H; [|congruence].
        destruct (dq "SATURATED"%string) eqn:D3; cbn [bind] in H; [|congruence]. destruct (dq "PERSISTENCE"%string) eqn:D4; cbn [bind] in H; [|congruence].
        destruct (dq "NO_GAIN_VALUE"%string) eqn:D5; cbn [bind] in H; [|congruence]. destruct (dq "UNRELIABLE_SLOPE"%string) eqn:D6; cbn [bind] in H; [|congruence].
        decompose [or] I; subst; eauto. contradiction.
      * intros [H _]. destruct (H "DO_NOT_USE"%string) as [? ->]; [cbn; tauto|]. destruct (H "JUMP_DET"%string) as [? ->]; [cbn; tauto|]. destruct (H "SATURATED"%string) as [? ->]; [cbn; tauto|].
        destruct (H "PERSISTENCE"%string) as [? ->]; [cbn; tauto|]. destruct (H "NO_GAIN_VALUE"%string) as [? ->]; [cbn; tauto|]. destruct (H "UNRELIABLE_SLOPE"%string) as [? ->]; [cbn; tauto|]. cbn [bind]. discriminate.
    + split; [congruence|]. intros [_ H]. destruct (H E). discriminate.
  - cbn [bind]. split.
    + intro H. split; [|contradiction]. intros s I. cbn [In] in I.
      destruct (dq "DO_NOT_USE"%string) eqn:D1; cbn [bind] in H; [|congruence]. destruct (dq "JUMP_DET"%string) eqn:D2; cbn [bind] in H; [|congruence].
      destruct (dq "SATURATED"%string) eqn:D3; cbn [bind] in H; [|congruence]. destruct (dq "PERSISTENCE"%string) eqn:D4; cbn [bind] in H; [|congruence].
      destruct (dq "NO_GAIN_VALUE"%string) eqn:D5; cbn [bind] in H; [|congruence]. destruct (dq "UNRELIABLE_SLOPE"%string) eqn:D6; cbn [bind] in H; [|congruence].
      decompose [or] I; subst; eauto. contradiction.
    + intros [H _]. destruct (H "DO_NOT_USE"%string) as [? ->]; [cbn; tauto|]. destruct (H "JUMP_DET"%string) as [? ->]; [cbn; tauto|]. destruct (H "SATURATED"%string) as [? ->]; [cbn; tauto|].
      destruct (H "PERSISTENCE"%string) as [? ->]; [cbn; tauto|]. destruct (H "NO_GAIN_VALUE"%string) as [? ->]; [cbn; tauto|]. destruct (H "UNRELIABLE_SLOPE"%string) as [? ->]; [cbn; tauto|]. cbn [bind]. discriminate.
Qed.
Print Assumptions C106_names_needed.
(** the names the documentation asks for (ramp_fit.py lines 165-167) are not enough, whatever the algorithm *)
Definition documented : list string := ["DO_NOT_USE"; "SATURATED"; "JUMP_DET"; "NO_GAIN_VALUE"; "UNRELIABLE_SLOPE"]%string.
Theorem C106_documented_refuted : exists dq : flagdict, (forall s, In s documented -> named dq s) /\
  forall (fo : FOps) powf L likely w rn gain alg sup, ramp_fit fo powf L likely w rn gain alg dq sup = None.
Proof.
  exists (fun s => if String.eqb s "PERSISTENCE" then None else ex_dict s). split.
  - intros s I. cbn in I. unfold named. decompose [or] I; subst; try contradiction; eexists; reflexivity.
  - intros. destruct (ramp_fit fo powf L likely w rn gain alg _ sup) eqn:E; [|reflexivity]. assert (X : exists r, ramp_fit fo powf L likely w rn gain alg (fun s => if String.eqb s "PERSISTENCE" then None else ex_dict s) sup = Some r) by (eexists; exact E).
    apply C106_names_needed in X. destruct X as [X _]. destruct (X "PERSISTENCE"%string) as [v V]; [cbn; tauto|]. discriminate V.
Qed.
Print Assumptions C106_documented_refuted.
Example C106_example : (forall s, In s six_names -> named ex_dict s) /\ named ex_dict "CHARGELOSS" /\ ex_dict "INVALID"%string = None.
Proof. split; [|split; [eexists; reflexivity|reflexivity]]. intros s I. cbn in I. unfold named. decompose [or] I; subst; try contradiction; eexists; reflexivity. Qed.

(** * C108: a pixel's result depends on that pixel only *)
(** two exposures taken the same way, with the same pixel (r, c) *)
Definition same_setup (fo : FOps) (v w : rmodel fo) : Prop :=
  w_ni fo v = w_ni fo w /\ w_ng fo v = w_ng fo w /\ w_frame fo v = w_frame fo w /\ w_group fo v = w_group fo w /\ w_nframes fo v = w_nframes fo w.
Definition same_pixel (fo : FOps) (v w : rmodel fo) (r c : nat) : Prop :=
  (forall i g, w_data fo v i g r c = w_data fo w i g r c) /\ (forall i g, w_gdq fo v i g r c = w_gdq fo w i g r c) /\ w_pdq fo v r c = w_pdq fo w r c /\
  match w_dark fo v, w_dark fo w with Some a, Some b => a r c = b r c | None, None => True | _, _ => False end /\
  match w_zf fo v, w_zf fo w with Some a, Some b => forall i, a i r c = b i r c | None, None => True | _, _ => False end.
Definition inside (fo : FOps) (w : rmodel fo) (r c : nat) : Prop := r < w_nr fo w /\ c < w_nc fo w.
Lemma fresh_eq {fo : FOps} (p q : opix fo) : fresh p (x_gdq fo p) = fresh q (x_gdq fo q) -> x_orig fo p = x_orig fo q -> p = q.
Proof. destruct p as [a1 a2 a3 a4 a5 a6 a7 a8], q as [b1 b2 b3 b4 b5 b6 b7 b8]. unfold fresh. cbn. intros E ->. injection E. intros. subst. reflexivity. Qed.
Theorem C108_own_pixel : forall (fo : FOps) powf L likely v w rn gain rn' gain' alg dq sup r c f f',
  same_setup fo v w -> same_pixel fo v w r c -> inside fo v r c -> inside fo w r c ->
  (forall x y, dq "DO_NOT_USE"%string = Some x -> dq "CHARGELOSS"%string = Some y -> N.land x y = 0%N) -> w_name fo v <> "MIRI"%string -> w_name fo w <> "MIRI"%string -> rn r c = rn' r c -> gain r c = gain' r c ->
  ramp_fit fo powf L likely v rn gain alg dq sup = Some (by_ols fo L (Some f)) -> ramp_fit fo powf L likely w rn' gain' alg dq sup = Some (by_ols fo L (Some f')) ->
  f r c = f' r c.
Proof.
  intros fo powf L likely v w rn gain rn' gain' alg dq sup r c f f' (E1 & E2 & E3 & E4 & E5) (P1 & P2 & P3 & P4 & P5) Iv Iw DC Mv Mw R0 G0 Fv Fw.
  unfold ramp_fit in Fv, Fw. rewrite E2 in Fv. set (sp := if sup && Nat.eqb (w_ng fo w) 1 then false else sup) in Fv, Fw. clearbody sp.
  destruct (create fo v alg dq sp) as [d|] eqn:Dv; [|discriminate]. destruct (create fo w alg dq sp) as [e|] eqn:Dw; [|discriminate]. cbn [bind] in Fv, Fw.
  injection Fv as Fv. injection Fw as Fw. unfold create in Dv, Dw.
  destruct (dq "DO_NOT_USE"%string) as [dnu|]; [|destruct (if String.eqb (upper alg) ALG_OLS then _ else _) in Dv; discriminate].
  destruct (dq "JUMP_DET"%string) as [jump|]; [|destruct (if String.eqb (upper alg) ALG_OLS then _ else _) in Dv; discriminate].
  destruct (dq "SATURATED"%string) as [sat|]; [|destruct (if String.eqb (upper alg) ALG_OLS then _ else _) in Dv; discriminate].
  destruct (dq "PERSISTENCE"%string) as [pers|]; [|destruct (if String.eqb (upper alg) ALG_OLS then _ else _) in Dv; discriminate].
  destruct (dq "NO_GAIN_VALUE"%string) as [ngv|]; [|destruct (if String.eqb (upper alg) ALG_OLS then _ else _) in Dv; discriminate].
  destruct (dq "UNRELIABLE_SLOPE"%string) as [us|]; [|destruct (if String.eqb (upper alg) ALG_OLS then _ else _) in Dv; discriminate].
  assert (Fit : forall (chg : option N) (o o' : option (nat -> nat -> img N)),
    (forall x, chg = Some x -> N.land dnu x = 0%N) -> (o = match chg with Some x => if any_flag fo v x then Some (w_gdq fo v) else None | None => None end) ->
    (o' = match chg with Some x => if any_flag fo w x then Some (w_gdq fo w) else None | None => None end) ->
    d = {| d_in := v; d_gdq := w_gdq fo v; d_dark := match w_dark fo v with Some d => d | None => fun _ _ => fzero fo end; d_orig := o; d_dnu := dnu; d_jump := jump; d_sat := sat; d_pers := pers;
           d_ngval := ngv; d_uslope := us; d_chg := chg; d_pattern := match w_times fo v with [] => None | l => Some l end; d_sup := sp |} ->
    e = {| d_in := w; d_gdq := w_gdq fo w; d_dark := match w_dark fo w with Some d => d | None => fun _ _ => fzero fo end; d_orig := o'; d_dnu := dnu; d_jump := jump; d_sat := sat; d_pers := pers;
           d_ngval := ngv; d_uslope := us; d_chg := chg; d_pattern := match w_times fo w with [] => None | l => Some l end; d_sup := sp |} -> f r c = f' r c).
  2: { destruct (String.eqb (upper alg) ALG_OLS); [destruct (dq "CHARGELOSS"%string) as [x|]; [|discriminate]|]; cbn [bind] in Dv, Dw; injection Dv as <-; injection Dw as <-; [apply (Fit (Some x) _ _ (fun y Y => DC dnu y eq_refl Y) eq_refl eq_refl eq_refl eq_refl)|apply (Fit None _ _ (fun x X => match X with eq_refl => I end) eq_refl eq_refl eq_refl eq_refl)]. }
  intros chg o o' DX Ho Ho' Ed Ee. clear Dv Dw.
  assert (Hd : d_in fo d = v) by (rewrite Ed; reflexivity). assert (He : d_in fo e = w) by (rewrite Ee; reflexivity).
  unfold fit_data in Fv, Fw. rewrite Hd in Fv. rewrite He in Fw. rewrite E2 in Fv. destruct (String.eqb (upper alg) ALG_LIKELY && Nat.leb 4 (w_ng fo w)); [discriminate|].
  injection Fv as Fv. injection Fw as Fw. unfold ols_image in Fv, Fw. rewrite Hd in Fv. rewrite He in Fw.
  rewrite (proj2 (String.eqb_neq _ _) Mv) in Fv. rewrite (proj2 (String.eqb_neq _ _) Mw) in Fw. cbn [andb bind] in Fv, Fw.
  match type of Fv with (if ?b then _ else _) = _ => destruct b; [discriminate|] end. match type of Fw with (if ?b then _ else _) = _ => destruct b; [discriminate|] end.
  injection Fv as <-. injection Fw as <-.
  set (fl := c_flags fo d) in *. assert (FL : c_flags fo e = fl) by (unfold fl; rewrite Ed, Ee; reflexivity). rewrite FL in *.
  assert (PM : pixel_meta fo d (w_ng fo w) = pixel_meta fo e (w_ng fo w)) by (unfold pixel_meta; rewrite Hd, He, FL, E1, E3, E4, E5; fold fl; rewrite Ed, Ee; reflexivity).
  rewrite ?E2, PM. set (m := pixel_meta fo e (w_ng fo w)).
  set (qv := if d_sup fo d then _ else _). set (qw := if d_sup fo e then _ else _).
  assert (Q : forall i g, qv i g r c = qw i g r c).
  { intros i g. unfold qv, qw. rewrite Ed, Ee. cbn [d_sup d_gdq]. destruct sp; [|apply P2]. rewrite !suppress_spec, E1. destruct (Nat.ltb i (w_ni fo w)); [|apply P2].
    rewrite !suppress_integ_spec, P2. destruct Iv as [V1 V2], Iw as [W1 W2]. rewrite (proj2 (Nat.ltb_lt r (w_nr fo v)) V1), (proj2 (Nat.ltb_lt c (w_nc fo v)) V2), (proj2 (Nat.ltb_lt r (w_nr fo w)) W1), (proj2 (Nat.ltb_lt c (w_nc fo w)) W2).
    cbn [andb]. f_equal. f_equal. unfold one_good. f_equal. f_equal. rewrite ?E2. apply filter_ext. intro k. cbn [fst snd]. rewrite P2. reflexivity. }
  assert (Qc : forall x k j, chg = Some x -> k < w_ni fo w -> j < w_ng fo w -> has (w_gdq fo w k j r c) x = false -> has (qw k j r c) x = false).
  { intros x k j X K J H. unfold qw. rewrite Ee. cbn [d_sup d_gdq]. destruct sp; [|exact H]. rewrite suppress_spec, (proj2 (Nat.ltb_lt k _) K), suppress_integ_spec. unfold has in *.
    apply negb_false_iff, N.eqb_eq in H. apply negb_false_iff, N.eqb_eq. rewrite N.land_lor_distr_l, H. unfold fl. rewrite Ed. cbn [c_flags o_dnu d_dnu]. destruct (_ && _); cbn [flag_if]; [|reflexivity]. rewrite (DX x X). reflexivity. }
  clearbody qv qw.
  set (pv := pixel_in fo d qv 0 _ gain r c). set (pw := pixel_in fo e qw 0 _ gain' r c).
  assert (SP : fresh pv (x_gdq fo pv) = fresh pw (x_gdq fo pw)).
  { unfold fresh, pv, pw, pixel_in. cbn [x_data x_gdq x_dq x_gain x_rn x_dark x_zf]. rewrite Hd, He. f_equal; try assumption.
    - extensionality i. extensionality g. apply P1.
    - extensionality i. extensionality g. apply Q.
    - rewrite E5, R0, G0. reflexivity.
    - rewrite Ed, Ee. cbn [d_dark]. destruct (w_dark fo v), (w_dark fo w); try contradiction; [assumption|reflexivity].
    - destruct (w_zf fo v), (w_zf fo w); try contradiction; [|reflexivity]. f_equal. extensionality kk. apply P5. }
  assert (SO : x_orig fo pv = x_orig fo pw -> ols_pixel fo powf m pv = ols_pixel fo powf m pw).
  { intro EO. rewrite (fresh_eq pv pw SP EO). reflexivity. }
  (* the copy of the group DQ may exist for one exposure only: then the pixel has no lost group *)
  assert (Ov : x_orig fo pv = match o with Some q => Some (fun i g => q i g r c) | None => None end) by (unfold pv, pixel_in; cbn [x_orig]; rewrite Ed; reflexivity).
  assert (Ow : x_orig fo pw = match o' with Some q => Some (fun i g => q i g r c) | None => None end) by (unfold pw, pixel_in; cbn [x_orig]; rewrite Ee; reflexivity).
  assert (X0 : forall x, chg = Some x -> o_chg (m_f fo m) = x) by (intros x X; unfold m, pixel_meta; cbn [m_f]; rewrite FL; unfold fl; rewrite Ed; cbn [c_flags o_chg d_chg]; rewrite X; reflexivity).
  destruct chg as [x|]; [|apply SO; rewrite Ov, Ow, Ho, Ho'; reflexivity].
  assert (Un : any_flag fo v x = false \/ any_flag fo w x = false -> ols_pixel fo powf m pv = ols_pixel fo powf m pw).
  { intro AF. assert (NF : forall k j, k < w_ni fo w -> j < w_ng fo w -> has (w_gdq fo w k j r c) x = false).
    { intros k j K J. unfold has. destruct Iv, Iw. destruct AF as [AF|AF]; apply any_nowhere in AF; [rewrite <- P2|]; rewrite AF by (rewrite ?E1, ?E2; assumption); reflexivity. }
    rewrite (C104_unflagged_pixel fo powf m pv), (C104_unflagged_pixel fo powf m pw), SP; [reflexivity| |]; intros k j K J; change (m_nints fo m) with (w_ni fo (d_in fo e)) in K; change (m_ng fo m) with (w_ng fo w) in J; rewrite He in K; rewrite (X0 x eq_refl); unfold pv, pw, pixel_in; cbn [x_gdq]; rewrite ?Q; apply (Qc x k j eq_refl K J), (NF k j K J). }
  destruct (any_flag fo v x) eqn:Av; [|apply Un; left; reflexivity]. destruct (any_flag fo w x) eqn:Aw; [|apply Un; right; reflexivity].
  apply SO. rewrite Ov, Ow, Ho, Ho'. f_equal. extensionality i. extensionality g. apply P2.
Qed.
Print Assumptions C108_own_pixel.
(** an exposure of one row: data and words per pixel *)
Definition ex_row (data : list (list Z)) (words : list (list N)) (zf : option Z) (name : string) (ng : nat) : rmodel B64 :=
  {| w_ni := 1; w_ng := ng; w_nr := 1; w_nc := List.length data; w_data := fun _ g _ c => fofZ B64 (nth g (nth c data []) 0%Z); w_gdq := fun _ g _ c => nth g (nth c words []) 0%N; w_pdq := fun _ _ => 0%N;
     w_dark := None; w_zf := match zf with Some z => Some (fun _ _ _ => fofZ B64 z) | None => None end; w_name := name; w_frame := fofZ B64 1; w_group := fofZ B64 10; w_gap := 9; w_nframes := 1; w_drop := None; w_times := [] |}.
Definition at00 (r : option (fitted B64 unit)) : option (spec_float * N) :=
  match r with Some (by_ols _ _ (Some f)) => Some (q_slope B64 (fst (f 0 0)), q_dq B64 (fst (f 0 0))) | _ => None end.
(** every pixel saturated in its first group: no result at all, although the ZEROFRAME gives this pixel a rate next to an unsaturated one *)
Theorem C108_all_saturated_refuted : exists v w s, same_setup B64 v w /\ same_pixel B64 v w 0 0 /\ w_name B64 v = "NIRCAM"%string /\
  at00 (ex_fit v "OLS_C") = None /\ at00 (ex_fit w "OLS_C") = Some s /\ sf_isnan (fst s) = false.
Proof.
  exists (ex_row [[50; 60]]%Z [[2; 2]]%N (Some 7%Z) "NIRCAM" 2), (ex_row [[50; 60]; [5; 6]]%Z [[2; 2]; [0; 0]]%N (Some 7%Z) "NIRCAM" 2). eexists.
  split; [repeat split|]. split; [repeat split; intros; destruct g as [|[|[|g]]]; reflexivity|]. split; [reflexivity|]. split; [vm_compute; reflexivity|]. split; [vm_compute; reflexivity|]. vm_compute. reflexivity.
Qed.
Print Assumptions C108_all_saturated_refuted.
(** MIRI: the same pixel keeps or loses JUMP_DET according to whether the whole first group is DO_NOT_USE *)
Theorem C108_miri_refuted : exists v w, same_setup B64 v w /\ same_pixel B64 v w 0 0 /\ w_name B64 v = "MIRI"%string /\
  at00 (ex_fit v "OLS_C") <> None /\ at00 (ex_fit w "OLS_C") <> None /\ at00 (ex_fit v "OLS_C") <> at00 (ex_fit w "OLS_C").
Proof.
  exists (ex_row [[5; 15; 25; 35]]%Z [[1; 4; 0; 0]]%N None "MIRI" 4), (ex_row [[5; 15; 25; 35]; [5; 6; 7; 8]]%Z [[1; 4; 0; 0]; [0; 0; 0; 0]]%N None "MIRI" 4).
  split; [repeat split|]. split; [repeat split; intros; destruct g as [|[|[|[|[|g]]]]]; reflexivity|]. split; [reflexivity|]. vm_compute. repeat split; discriminate.
Qed.
Print Assumptions C108_miri_refuted.
Example C108_example : let v := ex_row [[5; 15; 25]; [5; 6; 9]]%Z [[0; 0; 0]; [0; 0; 129]]%N None "NIRCAM" 3 in let w := ex_row [[5; 15; 25]; [1; 1; 1]]%Z [[0; 0; 0]; [0; 0; 0]]%N None "NIRCAM" 3 in
  same_setup B64 v w /\ same_pixel B64 v w 0 0 /\ inside B64 v 0 0 /\ inside B64 w 0 0 /\ at00 (ex_fit v "OLS_C") = at00 (ex_fit w "OLS_C") /\ at00 (ex_fit v "OLS_C") <> None.
Proof. cbv zeta. split; [repeat split|]. split; [repeat split; intros; destruct g as [|[|[|[|g]]]]; reflexivity|]. split; [split; cbn; lia|]. split; [split; cbn; lia|]. vm_compute. split; [reflexivity|discriminate]. Qed.
