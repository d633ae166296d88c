(** C35, C83, C108: the least-squares entry point on MIRI exposures and on fully saturated ones; the pixel range and the bounding
    boxes of a pixel map. *)
From Verif Require Import Base BaseLemmas FLaws OlsModel OlsSpec OlsProofs OlsPyModel OlsPyProofs OlsPyProps OlsProps LikelyModel DrvModel DrvProps ResUtilModel.
From Coq Require Import String SpecFloat FunctionalExtensionality.
Local Open Scope nat_scope.

(** * C108: when there is no result at all *)
(** every pixel of every integration is saturated in its first group *)
Definition saturated_from_start (fo : FOps) (w : rmodel fo) (s : N) : Prop :=
  forall i r c, i < w_ni fo w -> r < w_nr fo w -> c < w_nc fo w -> N.land (w_gdq fo w i 0 r c) s <> 0%N.
Section None_at_all.
  Variable fo : FOps.
  Variable powf : fo -> fo -> fo.
  Variable L : Type.
  Variable likely : rdata fo -> img fo -> img fo -> L.
  Notation fit := (ramp_fit fo powf L likely).
  Lemma all_first_spec d q off : all_first fo d q off = true <->
    forall i r c, i < w_ni fo (d_in fo d) -> r < w_nr fo (d_in fo d) -> c < w_nc fo (d_in fo d) -> N.land (q i off r c) (d_sat fo d) <> 0%N.
  Proof.
    unfold all_first. rewrite forallb_forall. split.
    - intros H i r c I R C. specialize (H i ltac:(apply in_seq; lia)). rewrite forallb_forall in H. specialize (H (r, c) ltac:(apply pixels_in; cbn; lia)). cbn [fst snd] in H. unfold has in H. apply negb_true_iff, N.eqb_neq in H. exact H.
    - intros H i I. apply in_seq in I. apply forallb_forall. intros [r c] P. apply pixels_in in P. cbn [fst snd] in *. unfold has. apply negb_true_iff, N.eqb_neq. apply H; lia.
  Qed.
  Theorem C108_no_result : forall w rn gain alg dq sup r s,
    w_name fo w <> "MIRI"%string -> upper alg = ALG_OLS -> dq "SATURATED"%string = Some s -> (forall x, dq "DO_NOT_USE"%string = Some x -> N.land x s = 0%N) ->
    fit w rn gain alg dq sup = Some r -> (r = by_ols fo L None <-> saturated_from_start fo w s).
  Proof.
    intros w rn gain alg dq sup r s M A S D E. unfold ramp_fit in E. set (sp := if sup && Nat.eqb (w_ng fo w) 1 then false else sup) in E. clearbody sp.
    unfold create in E. rewrite A in E. change (String.eqb ALG_OLS ALG_OLS) with true in E. cbv iota in E.
    destruct (dq "CHARGELOSS"%string) as [chg|]; [|discriminate]. cbn [bind] in E. destruct (dq "DO_NOT_USE"%string) as [dnu|]; [|discriminate]. specialize (D dnu eq_refl). cbn [bind] in E.
    destruct (dq "JUMP_DET"%string) as [jump|]; [|discriminate]. rewrite S in E. destruct (dq "PERSISTENCE"%string) as [pers|]; [|discriminate]. destruct (dq "NO_GAIN_VALUE"%string) as [ngv|]; [|discriminate].
    destruct (dq "UNRELIABLE_SLOPE"%string) as [us|]; [|discriminate]. cbn [bind] in E. injection E as <-.
    set (d := Build_rdata _ _ _ _ _ _ _ _ _ _ _ _ _ _). unfold fit_data. rewrite A. change (String.eqb ALG_OLS ALG_LIKELY) with false. cbn [andb].
    set (q := if d_sup fo d then _ else _). unfold ols_image. change (w_name fo (d_in fo d)) with (w_name fo w). rewrite (proj2 (String.eqb_neq _ _) M). cbn [andb bind].
    assert (Q : forall i r c, N.land (q i 0 r c) s = N.land (w_gdq fo w i 0 r c) s).
    { intros i r c. unfold q. cbn [d d_sup d_gdq]. destruct sp; [|reflexivity]. rewrite suppress_spec. destruct (Nat.ltb i _); [|reflexivity]. rewrite suppress_integ_spec.
      rewrite N.land_lor_distr_l. cbn [c_flags o_dnu d_dnu d]. destruct (_ && _); cbn [flag_if]; [rewrite D|rewrite N.land_0_l]; apply N.lor_0_r. }
    pose proof (all_first_spec d q 0) as AF. change (d_in fo d) with w in AF. change (d_sat fo d) with s in AF. unfold saturated_from_start.
    destruct (all_first fo d q 0).
    - split; [intros _|reflexivity]. intros i r c I R C. rewrite <- Q. apply (proj1 AF eq_refl); assumption.
    - split; [discriminate|]. intro H. assert (false = true); [|discriminate]. apply AF. intros i r c I R C. rewrite Q. apply H; assumption.
  Qed.

  (** * C35: a MIRI exposure is fitted like an ordinary exposure without the discarded groups *)
  (** the exposure that starts at group [l] and has [n] groups; if a group was dropped, the jump flag of the new first group is gone *)
  Definition without (w : rmodel fo) (l n : nat) (jump : N) (name : string) : rmodel fo :=
    {| w_ni := w_ni fo w; w_ng := n; w_nr := w_nr fo w; w_nc := w_nc fo w; w_data := fun i g => w_data fo w i (l + g);
       w_gdq := fun i g r c => if Nat.eqb g 0 && negb (Nat.eqb l 0) && Nat.ltb i (w_ni fo w) && Nat.ltb r (w_nr fo w) && Nat.ltb c (w_nc fo w) then N.ldiff (w_gdq fo w i l r c) (bit jump) else w_gdq fo w i (l + g) r c;
       w_pdq := w_pdq fo w; w_dark := w_dark fo w; w_zf := w_zf fo w; w_name := name; w_frame := w_frame fo w; w_group := w_group fo w; w_gap := w_gap fo w; w_nframes := w_nframes fo w; w_drop := w_drop fo w; w_times := w_times fo w |}.
  Theorem C35_fit : forall w rn gain alg dq dnu jump sat pers ngval chg uslope l (last : bool) name,
    w_name fo w = "MIRI"%string -> name <> "MIRI"%string -> upper alg = ALG_OLS ->
    dq "DO_NOT_USE"%string = Some (bit dnu) -> dq "JUMP_DET"%string = Some (bit jump) -> dq "SATURATED"%string = Some (bit sat) -> dq "PERSISTENCE"%string = Some (bit pers) ->
    dq "NO_GAIN_VALUE"%string = Some (bit ngval) -> dq "CHARGELOSS"%string = Some (bit chg) -> dq "UNRELIABLE_SLOPE"%string = Some uslope -> dnu <> jump ->
    2 <= w_ng fo w -> nowhere fo w (bit chg) ->
    l <= w_ng fo w -> (forall g, g < l -> group_bad dnu (w_ni fo w) (w_nr fo w) (w_nc fo w) (w_gdq fo w) g) -> (l < w_ng fo w -> ~ group_bad dnu (w_ni fo w) (w_nr fo w) (w_nc fo w) (w_gdq fo w) l) ->
    (last = true <-> group_bad dnu (w_ni fo w) (w_nr fo w) (w_nc fo w) (w_gdq fo w) (w_ng fo w - 1)) ->
    let n := w_ng fo w - l - (if last then 1 else 0) in
    fit w rn gain alg dq false = if Nat.ltb n 2 then Some (by_ols fo L None) else fit (without w l n jump name) rn gain alg dq false.
  Proof.
    intros w rn gain alg dq dnu jump sat pers ngval chg uslope l last name M M' A D1 D2 D3 D4 D5 D6 D7 DJ NG NW LE B1 B2 B3 n.
    pose proof (C35_discard dnu jump sat pers ngval chg (w_ni fo w) (w_ng fo w) (w_nr fo w) (w_nc fo w) (w_gdq fo w) l last DJ ltac:(lia) LE B1 B2 B3) as DS. cbv zeta in DS. fold n in DS.
    pose proof (C35_jump_cleared dnu jump sat pers ngval chg (w_ni fo w) (w_ng fo w) (w_nr fo w) (w_nc fo w) (w_gdq fo w) l DJ ltac:(lia) LE B1 B2) as JC. cbv zeta in JC.
    unfold ramp_fit. cbn [andb]. unfold create. rewrite A, D1, D2, D3, D4, D5, D6, D7. change (String.eqb ALG_OLS ALG_OLS) with true. cbv iota. cbn [bind].
    rewrite (proj2 (any_nowhere fo w (bit chg)) NW).
    unfold fit_data. rewrite A. change (String.eqb ALG_OLS ALG_LIKELY) with false. cbn [andb d_in d_sup d_gdq].
    set (d := Build_rdata _ w _ _ None _ _ _ _ _ _ _ _ _). unfold ols_image at 1. cbn [d_in d]. rewrite M, (proj2 (Nat.ltb_lt 1 (w_ng fo w))) by lia. change (String.eqb "MIRI" "MIRI") with true. cbn [andb].
    change (c_flags fo d) with (flags_at dnu jump sat pers ngval chg).
    destruct (discard_miri (flags_at dnu jump sat pers ngval chg) (w_ni fo w) (w_ng fo w) (w_nr fo w) (w_nc fo w) (w_gdq fo w)) as [mem res] eqn:DM. cbn [fst snd] in DS, JC. rewrite DS.
    destruct (Nat.ltb_spec n 2) as [N2|N2]; [reflexivity|]. cbn [bind fst snd].
    assert (CL : forall i g r c, mem i (l + g) r c = w_gdq fo (without w l n jump name) i g r c).
    { intros i g r c. cbn [without w_gdq]. destruct (JC i (l + g) r c) as [J1 J2].
      destruct (Nat.eqb_spec g 0) as [->|G]; cbn [andb]; [|apply J2; intros (_ & _ & _ & X); lia]. rewrite Nat.add_0_r in *.
      destruct (Nat.eqb_spec l 0) as [L0|L0]; cbn [andb negb]; [apply J2; intros (_ & _ & _ & X); lia|].
      destruct (Nat.ltb_spec i (w_ni fo w)) as [X|X]; cbn [andb]; [|apply J2; intros (X1 & X2 & X3 & X4); lia]. destruct (Nat.ltb_spec r (w_nr fo w)) as [Y|Y]; cbn [andb]; [|apply J2; intros (X1 & X2 & X3 & X4); lia].
      destruct (Nat.ltb_spec c (w_nc fo w)) as [Z|Z]; cbn [andb]; [|apply J2; intros (X1 & X2 & X3 & X4); lia].
      apply J1; try assumption. unfold n in N2. lia. }
    assert (NW' : nowhere fo (without w l n jump name) (bit chg)).
    { intros i g r c I G R C. cbn [without w_gdq w_ni w_ng w_nr w_nc] in *. assert (T : forall j, j < w_ng fo w -> N.land (w_gdq fo w i j r c) (bit chg) = 0%N) by (intros j J; apply NW; assumption).
      destruct (_ && _); [|apply T; unfold n in *; lia]. rewrite <- (N.bits_inj (N.land (N.ldiff (w_gdq fo w i l r c) (bit jump)) (bit chg)) 0%N); [reflexivity|]. intro b. rewrite N.land_spec, N.ldiff_spec, N.bits_0.
      pose proof (f_equal (fun x => N.testbit x b) (T l ltac:(unfold n in *; lia))) as X. cbn beta in X. rewrite N.land_spec, N.bits_0 in X. destruct (N.testbit (w_gdq fo w i l r c) b); [cbn [andb] in X|reflexivity]. cbn [andb]. rewrite X. apply andb_false_r. }
    rewrite (proj2 (any_nowhere fo _ (bit chg)) NW'). set (d' := Build_rdata _ (without w l n jump name) _ _ None _ _ _ _ _ _ _ _ _).
    unfold ols_image. change (w_name fo (d_in fo d')) with name. rewrite (proj2 (String.eqb_neq _ _) M'). cbn [andb bind].
    assert (AF : all_first fo d mem l = all_first fo d' (w_gdq fo (without w l n jump name)) 0).
    { unfold all_first. cbn [d d' d_in d_sat without w_ni w_nr w_nc]. f_equal. extensionality i. f_equal. extensionality rc. rewrite <- CL, Nat.add_0_r. reflexivity. }
    rewrite AF. destruct (all_first fo d' _ 0); [reflexivity|]. do 3 f_equal. extensionality r. extensionality c.
    assert (PX : forall rs, pixel_in fo d mem l rs gain r c = pixel_in fo d' (w_gdq fo (without w l n jump name)) 0 rs gain r c).
    { intro rs. unfold pixel_in. cbn [d d' d_in d_dark d_orig]. f_equal. extensionality i. extensionality g. apply CL. }
    rewrite PX. reflexivity.
  Qed.
End None_at_all.
Print Assumptions C108_no_result.
Print Assumptions C35_fit.
(** two pixels, both saturated from the start, and one that is not *)
Example C108_no_result_example : let w := ex_row [[50; 60]; [7; 8]]%Z [[2; 2]; [6; 2]]%N None "NIRCAM" 2 in let v := ex_row [[50; 60]; [7; 8]]%Z [[2; 2]; [4; 2]]%N None "NIRCAM" 2 in
  saturated_from_start B64 w 2 /\ ~ saturated_from_start B64 v 2 /\ at00 (ex_fit w "OLS_C") = None /\ at00 (ex_fit v "OLS_C") <> None.
Proof.
  cbv zeta. split; [|split; [|vm_compute; split; [reflexivity|discriminate]]].
  - intros i r c I R C. cbn in I, R, C. destruct c as [|[|c]]; [vm_compute; discriminate|vm_compute; discriminate|lia].
  - intro H. apply (H 0 0 1); first [vm_compute; lia|vm_compute; reflexivity].
Qed.
(** the first and the last of five groups are unusable, the second holds a jump: fitted as three groups without that jump *)
Example C35_fit_example : let w := ex_row [[5; 15; 25; 36; 49]]%Z [[1; 4; 0; 0; 1]]%N None "MIRI" 5 in
  nowhere B64 w 128 /\ group_bad 0 1 1 1 (w_gdq B64 w) 0 /\ ~ group_bad 0 1 1 1 (w_gdq B64 w) 1 /\ group_bad 0 1 1 1 (w_gdq B64 w) 4 /\
  at00 (ex_fit w "OLS_C") = at00 (ex_fit (ex_row [[15; 25; 36]]%Z [[0; 0; 0]]%N None "NIRCAM" 3) "OLS_C") /\ at00 (ex_fit w "OLS_C") <> None.
Proof.
  cbv zeta. split; [|split; [|split; [|split; [|vm_compute; split; [reflexivity|discriminate]]]]].
  - intros i g r c I G R C. cbn in I, G, R, C. assert (r = 0) by lia. assert (c = 0) by lia. subst. do 5 (destruct g as [|g]; [reflexivity|]). lia.
  - intros i r c I R C. assert (r = 0) by lia. assert (c = 0) by lia. subst. reflexivity.
  - intro H. specialize (H 0 0 0 ltac:(lia) ltac:(lia) ltac:(lia)). discriminate.
  - intros i r c I R C. assert (r = 0) by lia. assert (c = 0) by lia. subst. reflexivity.
Qed.

(** * C83: the pixel range and the bounding boxes *)
(** a pixel is in the range of an axis iff it is in the image and, if there is a bounding box, in the box *)
Theorem C83_range (n : Z) (bb : option (Z * Z)) : forall lo hi, grid_range n bb = (lo, hi) ->
  forall i, (lo <= i <= hi <-> 0 <= i < n /\ forall a b, bb = Some (a, b) -> a <= i <= b)%Z.
Proof.
  intros lo hi E i. destruct bb as [[a b]|]; cbn in E; injection E as <- <-.
  - split; [intro H; split; [lia|]; intros a' b' X; injection X as <- <-; lia|intros [H K]; specialize (K a b eq_refl); lia].
  - split; [intro H; split; [lia|discriminate]|lia].
Qed.
Print Assumptions C83_range.
Example C83_range_example : grid_range 40 (Some (3, 50)%Z) = (3, 39)%Z /\ grid_range 40 None = (0, 39)%Z. Proof. split; reflexivity. Qed.
(** the full map honours a bounding box exactly when there is one and it was not to be disabled *)
Theorem C83_boxes_used {fo : FOps} (pm : bool -> bool -> fo -> fo -> fo * fo) spline nx ny bbx bby hasto d order : exists f bf bt,
  fst (pixmap fo pm spline nx ny bbx bby hasto d 1 order) = PixMap fo f /\ (forall x y, f x y = pm bf bt (fofZ fo x) (fofZ fo y)) /\
  (bf = true <-> bbx <> None /\ d <> DFrom /\ d <> DBoth) /\ (bt = true <-> hasto = true /\ d <> DTo /\ d <> DBoth).
Proof.
  unfold pixmap. destruct (grid_range nx bbx) as [x0 x1]. destruct (grid_range ny bby) as [y0 y1]. cbn [fst Z.eqb orb]. do 3 eexists. split; [reflexivity|]. split; [intros; reflexivity|].
  split; [destruct bbx, d|destruct hasto, d]; cbn; split; intro H; try discriminate; try reflexivity; try (destruct H as (H1 & H2 & H3); congruence); repeat split; discriminate.
Qed.
Print Assumptions C83_boxes_used.
Example C83_boxes_used_example : let tell (bf bt : bool) (x y : B64) := (fofZ B64 (if bf then 1 else 0), fofZ B64 (if bt then 1 else 0)) in
  map (fun d => match fst (pixmap B64 tell (fun _ _ _ _ _ _ => fzero B64) 9 9 (Some (0, 8)%Z) (Some (0, 8)%Z) true d 1 1) with PixMap _ f => f 4%Z 4%Z | BadOrder _ => (fnan B64, fnan B64) end) [DTo; DFrom; DBoth; DNone] =
  [(fone B64, fzero B64); (fzero B64, fone B64); (fzero B64, fzero B64); (fone B64, fone B64)].
Proof. vm_compute. reflexivity. Qed.
