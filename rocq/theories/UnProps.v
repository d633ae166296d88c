(** C120: the least-squares fit in other units of counts and time. *)
From Verif Require Import Base BaseLemmas FLaws RBase RNBase OlsModel OlsSpec OlsProofs OlsProps PdProps.
From Coq Require Import Reals Lra Lia.
Local Open Scope R_scope.

(** ** Specification *)
(** a value in a unit 1/a times as large; NaN stays NaN *)
Definition sc (a : R) (x : RN) : RN := option_map (Rmult a) x.
(** counts in units 1/k as large, times in units 1/t as large (both positive); the gain (electrons per count) is then 1/k of what it was,
    the read noise is in electrons, the dark rate in counts per time *)
Definition meta_units (t : R) (m : ometa RN) : ometa RN :=
  {| m_f := m_f RN m; m_nints := m_nints RN m; m_ng := m_ng RN m; m_tgroup := sc t (m_tgroup RN m); m_tframe := sc t (m_tframe RN m); m_nframes := m_nframes RN m; m_sup := m_sup RN m |}.
Definition pix_units (k t : R) (p : opix RN) : opix RN :=
  {| x_data := fun i j => sc k (x_data RN p i j); x_gdq := x_gdq RN p; x_dq := x_dq RN p; x_gain := sc (/ k) (x_gain RN p); x_rn := x_rn RN p; x_dark := sc (k / t) (x_dark RN p);
     x_zf := match x_zf RN p with Some z => Some (fun i => sc k (z i)) | None => None end; x_orig := x_orig RN p |}.
(** rates and errors scale by [s], variances by its square, DQ words stay *)
Definition fit_units (s : R) (q : pfit RN) : pfit RN :=
  {| q_slope := sc s (q_slope RN q); q_dq := q_dq RN q; q_vp := sc (s * s) (q_vp RN q); q_vr := sc (s * s) (q_vr RN q); q_err := sc s (q_err RN q) |}.
(** variances above 10^6 are written as zero, whatever the unit: the same entries have to be zero in both units *)
Definition zeros (x y : RN) : Prop := x = Some 0 <-> y = Some 0.
Definition same_zeros (q q' : pfit RN) : Prop := zeros (q_vp RN q) (q_vp RN q') /\ zeros (q_vr RN q) (q_vr RN q') /\ zeros (q_err RN q) (q_err RN q').

(** ** Values that differ by a factor *)
Definition rel (a : R) (x x' : RN) : Prop := x' = sc a x.
Lemma rel_id x : rel 1 x x.
Proof. destruct x as [x|]; [|reflexivity]. unfold rel, sc. cbn. f_equal. ring. Qed.
Lemma rel_eq a b x x' : rel a x x' -> a = b -> rel b x x'.
Proof. intros H <-. exact H. Qed.
Lemma rel_0 a : rel a (Some 0) (Some 0).
Proof. unfold rel, sc. cbn. f_equal. ring. Qed.
Lemma rel_nan a : rel a None None. Proof. reflexivity. Qed.
Lemma rel_add a x x' y y' : rel a x x' -> rel a y y' -> rel a (fadd RN x y) (fadd RN x' y').
Proof. unfold rel. intros -> ->. destruct x, y; try reflexivity. cbn. f_equal. ring. Qed.
Lemma rel_sub a x x' y y' : rel a x x' -> rel a y y' -> rel a (fsub RN x y) (fsub RN x' y').
Proof. unfold rel. intros -> ->. destruct x, y; try reflexivity. cbn. f_equal. ring. Qed.
Lemma rel_mul a b x x' y y' : rel a x x' -> rel b y y' -> rel (a * b) (fmul RN x y) (fmul RN x' y').
Proof. unfold rel. intros -> ->. destruct x, y; try reflexivity. cbn. f_equal. ring. Qed.
Lemma eqb_scale a x : a <> 0 -> Reqb (a * x) 0 = Reqb x 0.
Proof. intro A. apply eq_iff_eq_true. rewrite !Reqb_spec. split; intro H; [|subst; ring]. apply Rmult_integral in H. tauto. Qed.
Lemma rel_div a b x x' y y' : b <> 0 -> rel a x x' -> rel b y y' -> rel (a / b) (fdiv RN x y) (fdiv RN x' y').
Proof.
  unfold rel. intros B -> ->. destruct x as [x|], y as [y|]; try reflexivity. cbn. rewrite eqb_scale by exact B. destruct (Reqb y 0) eqn:E; [reflexivity|]. cbn. f_equal.
  assert (y <> 0) by (intro Z; apply Reqb_spec in Z; congruence). field. split; assumption.
Qed.
Lemma rel_nanb a x x' : rel a x x' -> fisnan RN x' = fisnan RN x.
Proof. intros ->. destruct x; reflexivity. Qed.
Lemma ltb_scale a x y : 0 < a -> Rltb (a * x) (a * y) = Rltb x y.
Proof. intro A. apply eq_iff_eq_true. rewrite !Rltb_spec. split; intro H; [apply Rmult_lt_reg_l in H; assumption|apply Rmult_lt_compat_l; assumption]. Qed.
Lemma leb_scale a x y : 0 < a -> Rleb (a * x) (a * y) = Rleb x y.
Proof. intro A. apply eq_iff_eq_true. rewrite !Rleb_spec. split; intro H; [apply Rmult_le_reg_l in H; assumption|apply Rmult_le_compat_l; lra]. Qed.
Lemma rel_lt a x x' y y' : 0 < a -> rel a x x' -> rel a y y' -> flt RN x' y' = flt RN x y.
Proof. intros A -> ->. destruct x, y; try reflexivity. apply ltb_scale, A. Qed.
Lemma rel_le a x x' y y' : 0 < a -> rel a x x' -> rel a y y' -> fle RN x' y' = fle RN x y.
Proof. intros A -> ->. destruct x, y; try reflexivity. apply leb_scale, A. Qed.
Lemma rel_eqz a x x' : 0 < a -> rel a x x' -> feq RN x' (Some 0) = feq RN x (Some 0) /\ feq RN (Some 0) x' = feq RN (Some 0) x.
Proof.
  intros A ->. destruct x as [x|]; [|split; reflexivity]. cbn. rewrite eqb_scale by lra. split; [reflexivity|]. apply eq_iff_eq_true. rewrite !Reqb_spec. split; intro H; [|subst; ring].
  symmetry in H. apply Rmult_integral in H. destruct H; lra.
Qed.
Lemma rel_sqrt a x x' : 0 < a -> rel (a * a) x x' -> rel a (fsqrt RN x) (fsqrt RN x').
Proof.
  intros A ->. destruct x as [x|]; [|reflexivity]. cbn. replace (Rltb (a * a * x) 0) with (Rltb x 0).
  - destruct (Rltb x 0) eqn:E; [reflexivity|]. unfold rel. cbn. f_equal. assert (0 <= x) by (apply Rnot_lt_le; intro L; apply Rltb_spec in L; congruence). rewrite sqrt_mult by nra. rewrite sqrt_square by lra. reflexivity.
  - rewrite <- (ltb_scale (a * a) x 0) by nra. f_equal. ring.
Qed.
Lemma rel_fold a (l l' : list RN) x x' : Forall2 (rel a) l l' -> rel a x x' -> rel a (fold_left (fadd RN) l x) (fold_left (fadd RN) l' x').
Proof. intro H. revert x x'. induction H as [|y y' l l' R _ IH]; intros x x' X; [exact X|]. cbn [fold_left]. apply IH, rel_add; assumption. Qed.
Lemma rel_osum a (l l' : list RN) : Forall2 (rel a) l l' -> rel a (osum RN l) (osum RN l').
Proof. intro H. apply rel_fold; [exact H|apply rel_0]. Qed.
Lemma Forall2_map_in {A B} (P : B -> B -> Prop) (f g : A -> B) l : (forall x, In x l -> P (f x) (g x)) -> Forall2 P (map f l) (map g l).
Proof. induction l as [|x l IH]; intro H; [constructor|]. constructor; [apply H; left; reflexivity|apply IH; intros; apply H; right; assumption]. Qed.
Lemma rel_one a x x' : a <> 0 -> rel a x x' -> rel (/ a) (fdiv RN (fone RN) x) (fdiv RN (fone RN) x').
Proof. intros A H. eapply rel_eq; [apply (rel_div 1 a); [exact A|apply rel_id|exact H]|]. field. exact A. Qed.
(** the median *)
Lemma rel_insert a x x' l l' : 0 < a -> rel a x x' -> Forall2 (rel a) l l' -> Forall2 (rel a) (insert RN x l) (insert RN x' l').
Proof.
  intros A X H. induction H as [|y y' l l' R H IH]; [repeat constructor; exact X|]. cbn [insert]. rewrite (rel_lt a x x' y y' A X R). destruct (flt RN x y); [repeat constructor; assumption|constructor; assumption].
Qed.
Lemma rel_sorted a l l' : 0 < a -> Forall2 (rel a) l l' -> Forall2 (rel a) (sorted RN l) (sorted RN l').
Proof.
  intros A H. unfold sorted. induction H as [|y y' l l' R H IH]; [constructor|]. cbn [filter]. rewrite (rel_nanb a y y' R). destruct (negb (fisnan RN y)); [|exact IH]. cbn [fold_right]. apply rel_insert; assumption.
Qed.
Lemma rel_nth a l l' n : Forall2 (rel a) l l' -> rel a (nth n l (fzero RN)) (nth n l' (fzero RN)).
Proof. intro H. revert n. induction H as [|y y' l l' R H IH]; intros [|n]; cbn [nth]; try apply rel_0; [exact R|apply IH]. Qed.
Lemma rel_median a l l' : 0 < a -> Forall2 (rel a) l l' -> rel a (nan_median RN l) (nan_median RN l').
Proof.
  intros A H. apply (rel_sorted a l l' A) in H. unfold nan_median. cbv zeta. assert (E : length (sorted RN l') = length (sorted RN l)) by (clear - H; induction H; cbn [length]; congruence). rewrite E.
  assert (H2 : forall i j, rel a (fdiv RN (fadd RN (nth i (sorted RN l) (fzero RN)) (nth j (sorted RN l) (fzero RN))) (fofZ RN 2)) (fdiv RN (fadd RN (nth i (sorted RN l') (fzero RN)) (nth j (sorted RN l') (fzero RN))) (fofZ RN 2))).
  { intros i j. eapply rel_eq; [apply (rel_div a 1); [lra|apply rel_add; apply rel_nth, H|apply rel_id]|]. field. }
  destruct (Nat.eqb _ 0); [apply rel_nan|]. destruct (Nat.eqb _ 1); [apply rel_nth, H|]. destruct (Nat.eqb _ 2); [apply H2|]. destruct (Nat.odd _); [apply rel_nth, H|apply H2].
Qed.

(** ** The fit *)
Section Units.
  Variable pow : RN -> RN -> RN.
  Variables (k t : R).
  Hypothesis K : 0 < k. Hypothesis T : 0 < t.
  Variables (m : ometa RN) (p : opix RN).
  Notation m' := (meta_units t m). Notation p' := (pix_units k t p).
  Notation s := (k / t).
  Lemma S0 : 0 < s. Proof. apply Rdiv_lt_0_compat; assumption. Qed.
  Lemma gain_rel : rel (/ k) (x_gain RN p) (x_gain RN p'). Proof. reflexivity. Qed.
  Lemma tg_rel : rel t (m_tgroup RN m) (m_tgroup RN m'). Proof. reflexivity. Qed.
  Lemma tf_rel : rel t (m_tframe RN m) (m_tframe RN m'). Proof. reflexivity. Qed.
  Lemma t1_rel : rel t (t_one RN m) (t_one RN m').
  Proof. unfold t_one. cbn [meta_units m_nframes]. eapply rel_eq; [apply (rel_div (1 * t) 1); [lra|apply rel_mul; [apply rel_id|apply tf_rel]|apply rel_id]|]. field. Qed.
  Lemma kinv : 0 < / k. Proof. apply Rinv_0_lt_compat, K. Qed.
  (** an integration's data and counts *)
  Definition irel (i i' : iprep RN) : Prop :=
    (forall j, rel k (i_data RN i j) (i_data RN i' j)) /\ i_gdq RN i' = i_gdq RN i /\ i_sat RN i' = i_sat RN i /\ i_dnu RN i' = i_dnu RN i /\ i_dnusat RN i' = i_dnusat RN i /\ i_good RN i' = i_good RN i /\
    i_jump RN i' = i_jump RN i /\ i_chg RN i' = i_chg RN i /\ i_pers RN i' = i_pers RN i /\ i_0th RN i' = i_0th RN i /\ i_zf RN i' = i_zf RN i.
  Lemma prep_rel n : irel (prep RN m p n) (prep RN m' p' n).
  Proof.
    assert (P0 : irel (prep0 RN m p n) (prep0 RN m' p' n)).
    { repeat split. intro j. cbn [prep0 i_data pix_units x_gdq x_data meta_units m_f]. destruct (has _ _); [apply rel_nan|reflexivity]. }
    unfold prep. cbn [meta_units m_sup m_ng]. destruct (m_sup RN m); [exact P0|]. cbv zeta.
    change (i_good RN (prep0 RN m' p' n)) with (i_good RN (prep0 RN m p n)). change (i_gdq RN (prep0 RN m' p' n)) with (i_gdq RN (prep0 RN m p n)).
    destruct (Z.eqb 1 _ && _); [destruct P0 as [D _]; repeat split; exact D|]. cbn [pix_units x_zf]. destruct (x_zf RN p) as [zf|]; [|exact P0].
    change (fzero RN) with (Some 0). rewrite (proj2 (rel_eqz k (zf n) (sc k (zf n)) K eq_refl)). destruct (_ && _); [|exact P0]. destruct P0 as [D _]. repeat split.
    intro j. cbn [i_data]. unfold upd. destruct (Nat.eqb _ _); [reflexivity|apply D].
  Qed.
  (** the rate *)
  Lemma loc_rel i i' j : irel i i' -> rel s (loc_rate RN m i j) (loc_rate RN m' i' j).
  Proof. intros (D & G & _). unfold loc_rate. rewrite G. cbn [meta_units m_f]. destruct (has _ _); [apply rel_nan|]. apply rel_div; [lra|apply D|apply tg_rel]. Qed.
  Lemma median_rel i i' : irel i i' -> rel s (median_rate_integration RN m i) (median_rate_integration RN m' i').
  Proof.
    intro I. assert (FD : Forall2 (rel s) (first_diffs RN m i) (first_diffs RN m' i')).
    { unfold first_diffs. cbn [meta_units m_ng m_f]. apply Forall2_map_in. intros j _. destruct I as (D & G & R). rewrite G. destruct (has _ _); [apply rel_nan|]. apply rel_sub; apply loc_rel; repeat split; try assumption; apply R. }
    pose proof (loc_rel i i' 0 I) as L0. unfold median_rate_integration. cbv zeta. apply rel_median; [exact S0|].
    assert (FN : forallb (fisnan RN) (first_diffs RN m' i') = forallb (fisnan RN) (first_diffs RN m i)) by (clear - FD; induction FD as [|x x' l l' R _ IH]; [reflexivity|cbn [forallb]; rewrite IH, (rel_nanb s x x' R); reflexivity]).
    rewrite FN, (rel_nanb s _ _ L0). destruct (_ && _); [|exact FD]. destruct FD; [constructor|constructor; assumption].
  Qed.
  Lemma integ_rel i i' : irel i i' -> rel s (integ_rate RN m i) (integ_rate RN m' i').
  Proof.
    intro I. unfold integ_rate. cbv zeta. pose proof (median_rel i i' I) as M. destruct I as (D & _ & _ & _ & _ & _ & _ & _ & _ & Z0 & Zf). rewrite Z0, Zf.
    match goal with |- rel s (if fisnan RN ?a then _ else _) (if fisnan RN ?b then _ else _) => assert (H : rel s a b) end.
    { destruct (i_0th RN i); [apply rel_div; [lra|apply D|apply t1_rel]|]. destruct (i_zf RN i); [apply rel_div; [lra|apply D|apply tf_rel]|exact M]. }
    rewrite (rel_nanb s _ _ H). destruct (fisnan RN _); [apply rel_0|exact H].
  Qed.
  Lemma rate_rel : rel s (median_rate RN m p) (median_rate RN m' p').
  Proof.
    unfold median_rate. cbn [meta_units m_ng m_nints].
    destruct (Nat.eqb 1 _); (eapply rel_eq; [apply (rel_div s 1); [lra|apply rel_osum, Forall2_map_in; intros n _|apply rel_id]|field; lra]).
    - apply rel_div; [lra|apply prep_rel|apply t1_rel].
    - apply integ_rel, prep_rel.
  Qed.
  (** one segment *)
  Definition grel (g g' : segfit RN) : Prop := rel s (g_slope RN g) (g_slope RN g') /\ rel (s * s) (g_var_p RN g) (g_var_p RN g') /\ rel (s * s) (g_var_r RN g) (g_var_r RN g') /\ rel (s * s) (g_var_e RN g) (g_var_e RN g').
  Lemma pois_rel mr mr' x x' : rel s mr mr' -> rel (/ s) x x' -> rel (s * s) (var_poisson RN p mr x) (var_poisson RN p' mr' x').
  Proof.
    intros M X. pose proof S0. assert (N : / s <> 0) by (apply Rinv_neq_0_compat; lra). unfold var_poisson. rewrite (rel_lt s (fzero RN) (fzero RN) mr mr' S0 (rel_0 s) M).
    assert (DK : rel s (x_dark RN p) (x_dark RN p')) by reflexivity.
    destruct (flt RN _ _); (eapply rel_eq; [apply (rel_div s (/ s)); [exact N|try apply rel_add; assumption|exact X]|field; lra]).
  Qed.
  Lemma timing_rel i i' : irel i i' -> rel t (len1_timing RN m i) (len1_timing RN m' i').
  Proof. intros (_ & _ & _ & _ & _ & _ & _ & _ & _ & Z0 & Zf). unfold len1_timing. cbn [meta_units m_sup]. rewrite Z0, Zf. destruct (negb _); [|apply tg_rel]. destruct (i_0th RN i); [apply t1_rel|]. destruct (i_zf RN i); [apply tf_rel|apply tg_rel]. Qed.
  Lemma noise_rel c d x x' : rel t x x' -> rel (s * s) (fdiv RN (fmul RN (fmul RN c (fdiv RN (x_rn RN p) x)) (fdiv RN (x_rn RN p) x)) (fmul RN (fmul RN d (x_gain RN p)) (x_gain RN p)))
    (fdiv RN (fmul RN (fmul RN c (fdiv RN (x_rn RN p') x')) (fdiv RN (x_rn RN p') x')) (fmul RN (fmul RN d (x_gain RN p')) (x_gain RN p'))).
  Proof.
    intro X. pose proof kinv. assert (Q : rel (1 / t) (fdiv RN (x_rn RN p) x) (fdiv RN (x_rn RN p') x')) by (apply rel_div; [lra|apply rel_id|exact X]).
    eapply rel_eq; [apply rel_div; [|apply rel_mul; [apply rel_mul; [apply rel_id|exact Q]|exact Q]|apply rel_mul; [apply rel_mul; [apply rel_id|apply gain_rel]|apply gain_rel]]; nra|]. field. split; lra.
  Qed.
  Lemma noise_default_rel n : rel (s * s) (rnoise_default RN m p n) (rnoise_default RN m' p' n).
  Proof.
    unfold rnoise_default. change (fzero RN) with (Some 0). rewrite (rel_le (/ k) (x_gain RN p) (x_gain RN p') (Some 0) (Some 0) kinv gain_rel (rel_0 _)), (rel_nanb (/ k) _ _ gain_rel).
    destruct (_ || _); [apply rel_0|]. apply noise_rel, tg_rel.
  Qed.
  Lemma snr_rel i i' g : irel i i' -> segment_snr RN p' i' g = segment_snr RN p i g.
  Proof.
    intros (D & _). unfold segment_snr. cbv zeta. set (d := fsub RN (i_data RN i _) _). set (d' := fsub RN (i_data RN i' _) _).
    assert (R1 : rel k d d') by (apply rel_sub; apply D).
    assert (E : fmul RN d' (x_gain RN p') = fmul RN d (x_gain RN p)).
    { assert (H : rel 1 (fmul RN d (x_gain RN p)) (fmul RN d' (x_gain RN p'))) by (eapply rel_eq; [apply rel_mul; [exact R1|apply gain_rel]|field; lra]). rewrite H. symmetry. exact (rel_id _). }
    rewrite E. change (x_rn RN p') with (x_rn RN p). change (fzero RN) with (Some 0). rewrite (proj1 (rel_eqz (/ k) _ _ kinv gain_rel)). reflexivity.
  Qed.
  Lemma segment_rel mr mr' i i' g : rel s mr mr' -> irel i i' -> grel (fit_segment RN pow m p i mr g) (fit_segment RN pow m' p' i' mr' g).
  Proof.
    intros M I. pose proof S0 as SP. pose proof (proj1 I) as D. unfold fit_segment.
    assert (IS : forall x x', rel (t * / k) x x' -> rel (/ s) x x') by (intros x x' H; eapply rel_eq; [exact H|field; split; lra]).
    assert (GR : forall sl sl' vp vp' vr vr', rel s sl sl' -> rel (s * s) vp vp' -> rel (s * s) vr vr' ->
      grel {| g_slope := sl; g_var_p := vp; g_var_r := vr; g_var_e := fadd RN vp vr |} {| g_slope := sl'; g_var_p := vp'; g_var_r := vr'; g_var_e := fadd RN vp' vr' |}).
    { intros. repeat split; cbn [g_slope g_var_p g_var_r g_var_e]; try assumption. apply rel_add; assumption. }
    destruct (Nat.eqb 1 _); [|destruct (Nat.eqb 2 _)].
    - unfold fit_len1. cbv zeta. pose proof (timing_rel i i' I) as TR. apply GR; [apply rel_div; [lra|apply D|exact TR]|apply pois_rel; [exact M|apply IS, rel_mul; [exact TR|apply gain_rel]]|apply noise_rel; exact TR].
    - unfold fit_len2. cbv zeta. apply GR; [apply rel_div; [lra|apply rel_sub; apply D|apply tg_rel]|apply pois_rel; [exact M|apply IS, rel_mul; [apply tg_rel|apply gain_rel]]|apply noise_rel, tg_rel].
    - unfold fit_default. cbv zeta. rewrite (snr_rel i i' g I). change (o_weight RN pow p') with (o_weight RN pow p).
      set (w := o_weight RN pow p _ g). set (ks := seq 0 _).
      assert (Y : forall j, rel k (o_y RN i g j) (o_y RN i' g j)) by (intro j; unfold o_y; cbv zeta; rewrite (rel_nanb k _ _ (D _)); destruct (fisnan RN _); [apply rel_0|apply D]).
      apply GR; [|apply pois_rel; [exact M|]|apply noise_default_rel].
      + assert (SY : rel k (osum RN (map (fun j => fmul RN (o_y RN i g j) (w j)) ks)) (osum RN (map (fun j => fmul RN (o_y RN i' g j) (w j)) ks))).
        { apply rel_osum, Forall2_map_in. intros j _. eapply rel_eq; [apply rel_mul; [apply Y|apply rel_id]|ring]. }
        assert (SXY : rel k (osum RN (map (fun j => fmul RN (o_y RN i g j) (fmul RN (o_x RN g j) (w j))) ks)) (osum RN (map (fun j => fmul RN (o_y RN i' g j) (fmul RN (o_x RN g j) (w j))) ks))).
        { apply rel_osum, Forall2_map_in. intros j _. eapply rel_eq; [apply rel_mul; [apply Y|apply rel_id]|ring]. }
        eapply rel_eq; [apply (rel_div (k * 1)); [|apply rel_mul; [apply (rel_sub k)|apply rel_id]|apply tg_rel]|field; lra]; [lra| |].
        * eapply rel_eq; [apply rel_mul; [apply rel_id|exact SXY]|ring].
        * eapply rel_eq; [apply rel_mul; [apply rel_id|exact SY]|ring].
      + apply IS. eapply rel_eq; [apply rel_mul; [apply rel_mul; [apply tg_rel|apply gain_rel]|apply rel_id]|ring].
  Qed.
  (** one integration: sums over the segments *)
  Definition srel (a a' : isums RN) : Prop := rel (/ (s * s)) (s_r RN a) (s_r RN a') /\ rel (/ (s * s)) (s_p RN a) (s_p RN a') /\ rel (/ (s * s)) (s_e RN a) (s_e RN a') /\ rel (/ s) (s_n RN a) (s_n RN a').
  Lemma ss : 0 < s * s. Proof. pose proof S0. nra. Qed.
  Lemma add_rel a a' g g' : srel a a' -> grel g g' -> srel (add_fit RN a g) (add_fit RN a' g').
  Proof.
    intros (A1 & A2 & A3 & A4) (G1 & G2 & G3 & G4). pose proof ss as SS. pose proof S0 as SP. assert (NZ : s * s <> 0) by lra. repeat split; cbn [add_fit s_r s_p s_e s_n].
    - apply rel_add; [exact A1|apply rel_one; assumption].
    - rewrite (rel_lt (s * s) (fzero RN) (fzero RN) _ _ SS (rel_0 _) G2). destruct (flt RN _ _); [|exact A2]. apply rel_add; [exact A2|apply rel_one; assumption].
    - apply rel_add; [exact A3|apply rel_one; assumption].
    - apply rel_add; [exact A4|]. eapply rel_eq; [apply rel_div; [exact NZ|exact G1|exact G3]|]. field. split; lra.
  Qed.
  Lemma sums_rel l l' a a' : Forall2 grel l l' -> srel a a' -> srel (fold_left (add_fit RN) l a) (fold_left (add_fit RN) l' a').
  Proof. intro H. revert a a'. induction H as [|g g' l l' G _ IH]; intros a a' A; [exact A|]. cbn [fold_left]. apply IH, add_rel; assumption. Qed.
  (** values that are replaced by zero under some condition *)
  Definition cut (b : bool) (x : RN) : RN := if b then Some 0 else x.
  Lemma cut_rel a b b' x x' : rel a x x' -> zeros (cut b x) (cut b' x') -> rel a (cut b x) (cut b' x').
  Proof.
    unfold cut. intros R Z. destruct b, b'; [apply rel_0| | |exact R].
    - rewrite (proj1 Z eq_refl). apply rel_0.
    - rewrite (proj2 Z eq_refl). apply rel_0.
  Qed.
  (** the sums that are inverted are not negative *)
  Definition nn (x : RN) : Prop := match x with Some v => 0 <= v | None => True end.
  Lemma nn_add x y : nn x -> nn y -> nn (fadd RN x y).
  Proof. destruct x, y; cbn; intros; trivial. lra. Qed.
  Lemma nn_inv x : nn x -> nn (fdiv RN (fone RN) x).
  Proof. destruct x as [x|]; cbn; [|trivial]. intro H. destruct (Reqb x 0) eqn:E; [exact I|]. cbn. assert (x <> 0) by (intro Z; apply Reqb_spec in Z; congruence). apply Rlt_le, Rdiv_lt_0_compat; lra. Qed.
  Lemma nn_noise c d q g : nn c -> nn d -> nn (fdiv RN (fmul RN (fmul RN c q) q) (fmul RN (fmul RN d g) g)).
  Proof.
    destruct c as [c|], d as [d|], q as [q|], g as [g|]; cbn; intros C D; try exact I. destruct (Reqb (d * g * g) 0) eqn:E; [exact I|]. cbn.
    assert (N : d * g * g <> 0) by (intro Z; apply Reqb_spec in Z; congruence). assert (0 <= g * g) by nra. assert (0 <= q * q) by nra.
    assert (0 < d * g * g) by (rewrite Rmult_assoc in *; assert (0 <= d * (g * g)) by (apply Rmult_le_pos; assumption); lra).
    apply Rmult_le_pos; [rewrite Rmult_assoc; apply Rmult_le_pos; assumption|apply Rlt_le, Rinv_0_lt_compat; assumption].
  Qed.
  Lemma nn_segment (m0 : ometa RN) (p0 : opix RN) i mr g : nn (g_var_r RN (fit_segment RN pow m0 p0 i mr g)).
  Proof.
    unfold fit_segment. destruct (Nat.eqb 1 _); [apply nn_noise; cbn; lra|]. destruct (Nat.eqb 2 _); [apply nn_noise; cbn; lra|]. unfold fit_default. cbv zeta. cbn [g_var_r]. unfold rnoise_default.
    destruct (_ || _); [cbn; lra|]. apply nn_noise; [cbn; lra|]. unfold fnat. cbn. set (n := (snd g - fst g)%nat). rewrite <- mult_IZR, <- mult_IZR, <- minus_IZR. apply IZR_le. nia.
  Qed.
  Lemma inv_rel v v' : nn v -> rel (/ (s * s)) v v' -> rel (s * s) (inv_or RN v) (inv_or RN v').
  Proof.
    intros N R. pose proof ss as SS. assert (P : 0 < / (s * s)) by (apply Rinv_0_lt_compat, SS). unfold inv_or. rewrite (rel_lt (/ (s * s)) (fzero RN) (fzero RN) v v' P (rel_0 _) R). destruct (flt RN (fzero RN) v) eqn:E.
    - eapply rel_eq; [apply rel_one; [|exact R]; lra|]. field. pose proof S0. split; lra.
    - rewrite R. destruct v as [v|]; [|reflexivity]. cbn in E, N. assert (v = 0) by (apply Rle_antisym; [apply Rnot_lt_le; intro L; apply Rltb_spec in L; congruence|exact N]). subst. unfold rel, sc. cbn. f_equal. ring.
  Qed.
  (** one integration *)
  Definition crel (c c' : RN * RN * RN) : Prop := rel (/ (s * s)) (fst (fst c)) (fst (fst c')) /\ rel (/ (s * s)) (snd (fst c)) (snd (fst c')) /\ rel (/ s) (snd c) (snd c').
  Definition cnn (c : RN * RN * RN) : Prop := nn (fst (fst c)) /\ nn (snd (fst c)).
  Lemma fit_units_eq q q' : rel s (q_slope RN q) (q_slope RN q') -> q_dq RN q' = q_dq RN q -> rel (s * s) (q_vp RN q) (q_vp RN q') -> rel (s * s) (q_vr RN q) (q_vr RN q') -> rel s (q_err RN q) (q_err RN q') -> q' = fit_units s q.
  Proof. destruct q as [a b c d e], q' as [a' b' c' d' e']. unfold fit_units, rel. cbn. intros -> -> -> -> ->. reflexivity. Qed.
  Lemma dq_rel i i' : irel i i' -> int_dq0 RN m' p' i' = int_dq0 RN m p i.
  Proof.
    intros (_ & _ & _ & _ & _ & _ & J & _ & P & _). unfold int_dq0, pixel_dq. rewrite J, P. change (fzero RN) with (Some 0).
    rewrite (rel_le (/ k) (x_gain RN p) (x_gain RN p') (Some 0) (Some 0) kinv gain_rel (rel_0 _)), (rel_nanb (/ k) _ _ gain_rel). reflexivity.
  Qed.
  Lemma pdq_rel : pixel_dq RN m' p' = pixel_dq RN m p.
  Proof. unfold pixel_dq. change (fzero RN) with (Some 0). rewrite (rel_le (/ k) (x_gain RN p) (x_gain RN p') (Some 0) (Some 0) kinv gain_rel (rel_0 _)), (rel_nanb (/ k) _ _ gain_rel). reflexivity. Qed.
  Lemma large_cut v : large0 RN v = cut (fle RN (LARGE RN) v) v. Proof. reflexivity. Qed.
  Lemma slope_rel i i' mr mr' l (q q' : pfit RN) : rel s mr mr' -> irel i i' -> q' = fit_units s q -> q_vp RN q = Some 0 ->
    let r := fit_slope RN pow m p i mr l q in let r' := fit_slope RN pow m' p' i' mr' l q' in
    crel (snd r) (snd r') /\ cnn (snd r) /\ q_dq RN (fst r') = q_dq RN (fst r) /\ (same_zeros (fst r) (fst r') -> fst r' = fit_units s (fst r)).
  Proof.
    intros M I Eq Q0. cbv zeta. pose proof ss as SS. pose proof S0 as SP. assert (IP : 0 < / (s * s)) by (apply Rinv_0_lt_compat, SS).
    unfold fit_slope. destruct (Nat.eqb (sl_size l) 0).
    { cbn [fst snd]. split; [repeat split; apply rel_0|]. split; [split; cbn; lra|]. split; [rewrite Eq; reflexivity|]. intros _. exact Eq. }
    cbv zeta. set (l1 := map (fit_segment RN pow m p i mr) (sl_nodes l)). set (l2 := map (fit_segment RN pow m' p' i' mr') (sl_nodes l)).
    assert (SR : srel (fold_left (add_fit RN) l1 (isums0 RN)) (fold_left (add_fit RN) l2 (isums0 RN))).
    { apply sums_rel; [|repeat split; apply rel_0]. apply Forall2_map_in. intros g _. apply segment_rel; assumption. }
    assert (NR : nn (s_r RN (fold_left (add_fit RN) l1 (isums0 RN)))).
    { assert (G : forall g, In g l1 -> nn (g_var_r RN g)) by (intros g G; apply in_map_iff in G; destruct G as (x & <- & _); apply nn_segment).
      assert (A0 : nn (s_r RN (isums0 RN))) by (cbn; lra). revert A0 G. generalize (isums0 RN). clear. induction l1 as [|g l0 IH]; intros a A G; [exact A|]. cbn [fold_left]. apply IH; [|intros; apply G; right; assumption].
      cbn [add_fit s_r]. apply nn_add; [exact A|apply nn_inv, G; left; reflexivity]. }
    set (a := fold_left (add_fit RN) l1 (isums0 RN)) in *. set (a' := fold_left (add_fit RN) l2 (isums0 RN)) in *. destruct SR as (R1 & R2 & R3 & R4).
    assert (LT : flt RN (fzero RN) (s_p RN a') = flt RN (fzero RN) (s_p RN a)) by (apply (rel_lt (/ (s * s))); [exact IP|apply rel_0|exact R2]). rewrite LT.
    assert (CN : crel ((if flt RN (fzero RN) (s_p RN a) then s_p RN a else fzero RN, s_r RN a, s_n RN a)) ((if flt RN (fzero RN) (s_p RN a) then s_p RN a' else fzero RN, s_r RN a', s_n RN a'))).
    { clear LT. repeat split; cbn [fst snd]; try assumption. destruct (flt RN (fzero RN) (s_p RN a)); [exact R2|apply rel_0]. }
    assert (CP : cnn ((if flt RN (fzero RN) (s_p RN a) then s_p RN a else fzero RN, s_r RN a, s_n RN a))).
    { split; cbn [fst snd]; [|exact NR]. destruct (flt RN (fzero RN) (s_p RN a)) eqn:E; [|cbn; lra]. destruct (s_p RN a) as [v|]; [|exact Logic.I]. cbn in E |- *. apply Rltb_spec in E. lra. }
    assert (DQ : q_dq RN q' = q_dq RN q) by (rewrite Eq; reflexivity). rewrite DQ. cbn [meta_units m_f].
    destruct (has (q_dq RN q) _); cbn [fst snd].
    { split; [exact CN|]. split; [exact CP|]. split; [reflexivity|]. intros _. apply fit_units_eq; cbn [q_slope q_dq q_vp q_vr q_err]; try apply rel_0; [apply rel_nan|reflexivity]. }
    split; [exact CN|]. split; [exact CP|]. split; [reflexivity|]. intros (Z1 & Z2 & Z3). cbn [q_vp q_vr q_err] in Z1, Z2, Z3.
    assert (IV : forall x x', rel (/ (s * s)) x x' -> rel (s * s) (fdiv RN (fone RN) x) (fdiv RN (fone RN) x')) by (intros x x' H; eapply rel_eq; [apply rel_one; [|exact H]; lra|field; lra]).
    assert (V2 : rel (s * s) (large0 RN (fdiv RN (fone RN) (s_r RN a))) (large0 RN (fdiv RN (fone RN) (s_r RN a')))) by (rewrite !large_cut in *; apply cut_rel; [apply IV, R1|exact Z2]).
    apply fit_units_eq; cbn [q_slope q_dq q_vp q_vr q_err].
    - eapply rel_eq; [apply rel_mul; [exact R4|exact V2]|field; split; lra].
    - reflexivity.
    - rewrite !large_cut in *. apply cut_rel; [|exact Z1]. clear LT CN CP Z1. destruct (flt RN (fzero RN) (s_p RN a)); [apply IV, R2|]. rewrite Eq. cbn [fit_units q_vp]. reflexivity.
    - exact V2.
    - change (rel s (cut (flt RN (LARGE RN) (fdiv RN (fone RN) (s_e RN a))) (fsqrt RN (fdiv RN (fone RN) (s_e RN a)))) (cut (flt RN (LARGE RN) (fdiv RN (fone RN) (s_e RN a'))) (fsqrt RN (fdiv RN (fone RN) (s_e RN a'))))).
      apply cut_rel; [apply rel_sqrt; [exact SP|apply IV, R3]|exact Z3].
  Qed.
  Definition urel (u u' : iout RN) : Prop := crel (u_con RN u) (u_con RN u') /\ cnn (u_con RN u) /\ u_dnu RN u' = u_dnu RN u /\ u_sat RN u' = u_sat RN u /\ u_part RN u' = u_part RN u /\
    (same_zeros (u_fit RN u) (u_fit RN u') -> u_fit RN u' = fit_units s (u_fit RN u)).
  Lemma finish_rel n mr mr' : rel s mr mr' -> urel (finish_integration RN pow m p mr n) (finish_integration RN pow m' p' mr' n).
  Proof.
    intro M. pose proof (prep_rel n) as I. unfold finish_integration.
    assert (F : let r := fit_integration RN pow m p mr n in let r' := fit_integration RN pow m' p' mr' n in
      crel (snd r) (snd r') /\ cnn (snd r) /\ q_dq RN (fst r') = q_dq RN (fst r) /\ (same_zeros (fst r) (fst r') -> fst r' = fit_units s (fst r))).
    { cbv zeta. unfold fit_integration. cbv zeta. rewrite (dq_rel _ _ I). pose proof I as (D & G & SA & _ & DS & _). rewrite G, SA, DS. cbn [meta_units m_f m_ng].
      set (q := {| q_slope := _ |}). destruct (Z.eqb _ (i_dnusat RN _)).
      - cbn [fst snd]. split; [repeat split; apply rel_0|]. split; [split; cbn; lra|]. split; [reflexivity|]. intros _. apply fit_units_eq; cbn [q_slope q_dq q_vp q_vr q_err q]; try apply rel_0; [|reflexivity]. destruct (has _ _); [apply rel_nan|apply rel_0].
      - apply slope_rel; [exact M|exact I| |reflexivity]. apply fit_units_eq; cbn [q_slope q_dq q_vp q_vr q_err q]; try apply rel_0; [|reflexivity]. destruct (has _ _); [apply rel_nan|apply rel_0]. }
    cbv zeta in F. destruct (fit_integration RN pow m p mr n) as [q c], (fit_integration RN pow m' p' mr' n) as [q' c']. cbn [fst snd] in F. destruct F as (C & N & DQ & E).
    destruct I as (_ & _ & SA & _). rewrite SA, DQ. cbn [meta_units m_f].
    split; [exact C|]. split; [exact N|]. split; [reflexivity|]. split; [reflexivity|]. split; [reflexivity|]. cbn [u_fit]. intro Z. specialize (E Z). rewrite E. unfold fit_units. cbn [q_slope q_dq q_vp q_vr q_err].
    f_equal. destruct (_ || _); reflexivity.
  Qed.
  (** the whole pixel, before the CHARGELOSS recomputation *)
  Lemma pixel_rel : let r := fit_pixel RN pow m p in let r' := fit_pixel RN pow m' p' in
    same_zeros (fst r) (fst r') -> Forall2 same_zeros (snd r) (snd r') -> fst r' = fit_units s (fst r) /\ snd r' = map (fit_units s) (snd r).
  Proof.
    cbv zeta. pose proof ss as SS. pose proof S0 as SP. unfold fit_pixel. cbv zeta. cbn [meta_units m_nints m_f].
    pose proof (Forall2_map_in urel (finish_integration RN pow m p (median_rate RN m p)) (finish_integration RN pow m' p' (median_rate RN m' p')) (seq 0 (m_nints RN m)) (fun n _ => finish_rel n _ _ rate_rel)) as U.
    set (us := map (finish_integration RN pow m p _) _) in *. set (us' := map (finish_integration RN pow m' p' _) _) in *.
    assert (B : forall f : iout RN -> bool, (forall u u', urel u u' -> f u' = f u) -> forallb f us' = forallb f us /\ existsb f us' = existsb f us).
    { intros f H. clear - U H. induction U as [|u u' l l' R _ [IH1 IH2]]; [split; reflexivity|]. cbn [forallb existsb]. rewrite IH1, IH2, (H u u' R). split; reflexivity. }
    assert (Su : forall a (g : RN * RN * RN -> RN), (forall c c', crel c c' -> rel a (g c) (g c')) -> rel a (osum RN (map (fun u => g (u_con RN u)) us)) (osum RN (map (fun u => g (u_con RN u)) us'))).
    { intros a g H. apply rel_osum. clear - U H. induction U as [|u u' l l' R _ IH]; [constructor|]. cbn [map]. constructor; [apply H, R|exact IH]. }
    assert (Nn : forall g : RN * RN * RN -> RN, (forall c, cnn c -> nn (g c)) -> nn (osum RN (map (fun u => g (u_con RN u)) us))).
    { intros g H. unfold osum. assert (A0 : nn (fzero RN)) by (cbn; lra). revert A0. generalize (fzero RN). clear - U H. induction U as [|u u' l l' R _ IH]; intros x X; [exact X|]. cbn [map fold_left]. apply IH, nn_add; [exact X|]. apply H, R. }
    rewrite (proj1 (B (u_dnu RN) ltac:(intros u u' R; apply R))), (proj1 (B (u_sat RN) ltac:(intros u u' R; apply R))), (proj2 (B (u_part RN) ltac:(intros u u' R; apply R))), pdq_rel.
    assert (EX : forall f : iprep RN -> bool, (forall i i', irel i i' -> f i' = f i) -> existsb f (map (prep RN m' p') (seq 0 (m_nints RN m))) = existsb f (map (prep RN m p) (seq 0 (m_nints RN m)))).
    { intros f H. rewrite !existsb_map. apply existsb_ext_in. intros n _. apply H, prep_rel. }
    rewrite (EX (i_jump RN) ltac:(intros i i' I; apply I)), (EX (i_pers RN) ltac:(intros i i' I; apply I)).
    pose proof (Su (/ (s * s)) (fun c => fst (fst c)) ltac:(intros c c' C; apply C)) as S1. pose proof (Su (/ (s * s)) (fun c => snd (fst c)) ltac:(intros c c' C; apply C)) as S2. pose proof (Su (/ s) (fun c => snd c) ltac:(intros c c' C; apply C)) as S3.
    pose proof (Nn (fun c => fst (fst c)) ltac:(intros c C; apply C)) as N1. pose proof (Nn (fun c => snd (fst c)) ltac:(intros c C; apply C)) as N2. cbv beta in S1, S2, S3, N1, N2.
    set (a1 := osum RN (map (fun u => fst (fst (u_con RN u))) us)) in *. set (b1 := osum RN (map (fun u => fst (fst (u_con RN u))) us')) in *.
    set (a2 := osum RN (map (fun u => snd (fst (u_con RN u))) us)) in *. set (b2 := osum RN (map (fun u => snd (fst (u_con RN u))) us')) in *.
    set (a3 := osum RN (map (fun u => snd (u_con RN u)) us)) in *. set (b3 := osum RN (map (fun u => snd (u_con RN u)) us')) in *.
    apply (inv_rel _ _ N1) in S1. apply (inv_rel _ _ N2) in S2. clearbody a1 b1 a2 b2 a3 b3.
    match goal with |- context [has ?d (N.lor (o_dnu (m_f RN m)) (o_sat (m_f RN m)))] => destruct (has d (N.lor (o_dnu (m_f RN m)) (o_sat (m_f RN m)))) end; cbn [fst snd]; intros (Z1 & Z2 & Z3) ZI; cbn [q_vp q_vr q_err] in Z1, Z2, Z3.
    - split; [apply fit_units_eq; cbn [q_slope q_dq q_vp q_vr q_err]; try apply rel_0; [apply rel_nan|reflexivity]|].
      clear - U ZI. revert ZI. induction U as [|u u' l l' R _ IH]; intro ZI; [reflexivity|]. cbn [map] in *. inversion ZI; subst. f_equal; [apply R; assumption|apply IH; assumption].
    - assert (V1 : rel (s * s) (if fle RN (LARGE RN) (inv_or RN a1) || flt RN (inv_or RN a1) (fzero RN) then fzero RN else inv_or RN a1) (if fle RN (LARGE RN) (inv_or RN b1) || flt RN (inv_or RN b1) (fzero RN) then fzero RN else inv_or RN b1)).
      { apply (cut_rel (s * s) (fle RN (LARGE RN) (inv_or RN a1) || flt RN (inv_or RN a1) (fzero RN)) (fle RN (LARGE RN) (inv_or RN b1) || flt RN (inv_or RN b1) (fzero RN))); [exact S1|exact Z1]. }
      assert (V2 : rel (s * s) (large0 RN (inv_or RN a2)) (large0 RN (inv_or RN b2))) by (rewrite !large_cut in *; apply cut_rel; [exact S2|exact Z2]).
      split.
      + apply fit_units_eq; cbn [q_slope q_dq q_vp q_vr q_err]; [|reflexivity|exact V1|exact V2|apply rel_sqrt; [exact SP|apply rel_add; assumption]].
        rewrite (rel_nanb (/ s) _ _ S3). destruct (fisnan RN a3) eqn:E; [|eapply rel_eq; [apply rel_mul; [exact S3|exact V2]|field; split; lra]].
        destruct a3; [discriminate|]. rewrite S3. apply rel_nan.
      + clear - U ZI. revert ZI. induction U as [|u u' l l' R _ IH]; intro ZI; [reflexivity|]. cbn [map] in *. inversion ZI; subst. f_equal; [apply R; assumption|apply IH; assumption].
  Qed.
  (** the CHARGELOSS recomputation *)
  Lemma rnoise_rel i i' g : irel i i' -> rel (s * s) (rnoise RN m p i g) (rnoise RN m' p' i' g).
  Proof.
    intro I. unfold rnoise. cbv zeta. destruct (Nat.eqb 1 _); [apply noise_rel, timing_rel, I|]. destruct (Nat.eqb 2 _); [apply noise_rel, tg_rel|apply noise_default_rel].
  Qed.
  Lemma closs_rel orig n : rel (/ (s * s)) (chargeloss_inv RN m p orig n) (chargeloss_inv RN m' p' orig n).
  Proof.
    pose proof ss as SS. unfold chargeloss_inv. cbn [meta_units m_f m_ng]. cbv zeta. set (l := sl_nodes _). clearbody l.
    pose proof (prep_rel n) as I. set (i := prep RN m p n) in *. set (i' := prep RN m' p' n) in *. clearbody i i'.
    assert (A : forall x x', rel (/ (s * s)) x x' -> rel (/ (s * s))
      (fold_left (fun a g => let v := rnoise RN m p i g in if flt RN (fzero RN) v then fadd RN a (fdiv RN (fone RN) v) else a) l x)
      (fold_left (fun a g => let v := rnoise RN m' p' i' g in if flt RN (fzero RN) v then fadd RN a (fdiv RN (fone RN) v) else a) l x')); [|apply A, rel_0].
    induction l as [|g l IH]; intros x x' X; [exact X|]. cbn [fold_left]. apply IH. cbv zeta. pose proof (rnoise_rel _ _ g I) as R. rewrite (rel_lt (s * s) (fzero RN) (fzero RN) _ _ SS (rel_0 _) R).
    destruct (flt RN (fzero RN) (rnoise RN m p i g)); [|exact X]. apply rel_add; [exact X|apply rel_one; [lra|exact R]].
  Qed.
  Lemma closs_units (r r' : pfit RN * list (pfit RN)) : fst r' = fit_units s (fst r) -> snd r' = map (fit_units s) (snd r) ->
    let o := chargeloss RN m p r in let o' := chargeloss RN m' p' r' in
    same_zeros (fst o) (fst o') -> Forall2 same_zeros (snd o) (snd o') -> fst o' = fit_units s (fst o) /\ snd o' = map (fit_units s) (snd o).
  Proof.
    intros E1 E2. cbv zeta. pose proof ss as SS. pose proof S0 as SP. assert (IP : 0 < / (s * s)) by (apply Rinv_0_lt_compat, SS). unfold chargeloss. cbn [pix_units x_orig]. destruct (x_orig RN p) as [orig|]; [|intros; split; assumption].
    cbn [meta_units m_nints]. rewrite !existsb_map.
    rewrite (existsb_ext_in (fun n => i_chg RN (prep RN m' p' n)) (fun n => i_chg RN (prep RN m p n)) _ (fun n _ => ltac:(apply prep_rel))).
    destruct (negb _); [intros; split; assumption|]. cbn [fst snd].
    assert (NT : forall n, nth n (snd r') (fst r') = fit_units s (nth n (snd r) (fst r))) by (intro n; rewrite E1, E2; apply map_nth).
    assert (CH : forall n, i_chg RN (prep RN m' p' n) = i_chg RN (prep RN m p n)) by (intro n; apply prep_rel).
    assert (IV : forall x x', rel (/ (s * s)) x x' -> rel (s * s) (fdiv RN (fone RN) x) (fdiv RN (fone RN) x')) by (intros x x' H; eapply rel_eq; [apply rel_one; [|exact H]; lra|field; lra]).
    assert (FD : forall l x x', rel (/ (s * s)) x x' -> rel (/ (s * s))
      (fold_left (fun a n => if i_chg RN (prep RN m p n) then fadd RN a (chargeloss_inv RN m p orig n) else let v := q_vr RN (nth n (snd r) (fst r)) in if flt RN (fzero RN) v then fadd RN a (fdiv RN (fone RN) v) else a) l x)
      (fold_left (fun a n => if i_chg RN (prep RN m' p' n) then fadd RN a (chargeloss_inv RN m' p' orig n) else let v := q_vr RN (nth n (snd r') (fst r')) in if flt RN (fzero RN) v then fadd RN a (fdiv RN (fone RN) v) else a) l x')).
    { induction l as [|n l IH]; intros x x' X; [exact X|]. cbn [fold_left]. apply IH. rewrite CH. destruct (i_chg RN (prep RN m p n)); [apply rel_add; [exact X|apply closs_rel]|].
      cbv zeta. rewrite NT. assert (R : rel (s * s) (q_vr RN (nth n (snd r) (fst r))) (q_vr RN (fit_units s (nth n (snd r) (fst r))))) by reflexivity. rewrite (rel_lt (s * s) (fzero RN) (fzero RN) _ _ SS (rel_0 _) R).
      destruct (flt RN (fzero RN) (q_vr RN (nth n (snd r) (fst r)))); [apply rel_add; [exact X|apply rel_one; [lra|exact R]]|exact X]. }
    specialize (FD (seq 0 (m_nints RN m)) (fzero RN) (fzero RN) (rel_0 _)). cbv zeta in FD.
    match type of FD with rel _ ?x ?y => set (e := x) in *; set (e' := y) in * end. clearbody e e'. intros (_ & Z & _) ZI. cbn [set_vr q_vr] in Z. split.
    - rewrite E1. rewrite E1 in Z. apply fit_units_eq; try reflexivity. cbn [set_vr q_vr]. rewrite !large_cut in *. apply cut_rel; [|exact Z]. rewrite (rel_lt _ (fzero RN) (fzero RN) _ _ IP (rel_0 _) FD). destruct (flt RN (fzero RN) e); [apply IV, FD|reflexivity].
    - clear FD Z. induction (seq 0 (m_nints RN m)) as [|n l IH]; [reflexivity|]. cbn [map] in *. inversion ZI as [|? ? ? ? H1 H2]; subst. f_equal; [|apply IH, H2]. clear IH H2 ZI. rewrite CH, NT in *. destruct (i_chg RN (prep RN m p n)); [|reflexivity].
      destruct H1 as (_ & Z & _). cbn [set_vr q_vr] in Z. apply fit_units_eq; try reflexivity. cbn [set_vr q_vr]. rewrite !large_cut in *. apply cut_rel; [apply IV, closs_rel|exact Z].
  Qed.
End Units.

(** ** C120 *)
(** In units of counts 1/k as large and of time 1/t as large, every rate and uncertainty of a pixel is k/t times what it was, every variance the square of that,
    and every DQ word is the same, as long as the same variances and uncertainties come out as zero. *)
Theorem C120_units (pow : RN -> RN -> RN) k t m p : 0 < k -> 0 < t -> x_orig RN p = None ->
  let r := ols_pixel RN pow m p in let r' := ols_pixel RN pow (meta_units t m) (pix_units k t p) in
  same_zeros (fst r) (fst r') -> Forall2 same_zeros (snd r) (snd r') ->
  fst r' = fit_units (k / t) (fst r) /\ snd r' = map (fit_units (k / t)) (snd r).
Proof.
  intros K T O. cbv zeta. unfold ols_pixel, chargeloss. cbn [pix_units x_orig]. rewrite O. apply (pixel_rel pow k t K T m p).
Qed.
Print Assumptions C120_units.
(** the same with the CHARGELOSS recomputation of the read-noise variance *)
Theorem C120_chargeloss (pow : RN -> RN -> RN) k t m p : 0 < k -> 0 < t ->
  let f := fit_pixel RN pow m p in let f' := fit_pixel RN pow (meta_units t m) (pix_units k t p) in
  let r := ols_pixel RN pow m p in let r' := ols_pixel RN pow (meta_units t m) (pix_units k t p) in
  same_zeros (fst f) (fst f') -> Forall2 same_zeros (snd f) (snd f') -> same_zeros (fst r) (fst r') -> Forall2 same_zeros (snd r) (snd r') ->
  fst r' = fit_units (k / t) (fst r) /\ snd r' = map (fit_units (k / t)) (snd r).
Proof.
  intros K T. cbv zeta. intros F1 F2. destruct (pixel_rel pow k t K T m p F1 F2) as [E1 E2]. apply (closs_units k t K T m p _ _ E1 E2).
Qed.
Print Assumptions C120_chargeloss.

(** ** Example: a ramp of two groups *)
Definition un_meta (T U : R) : ometa RN := Build_ometa RN ex_f 1 2 (Some T) (Some U) 1 false.
Definition un_pix (d : nat -> R) (g : R) : opix RN := Build_opix RN (fun _ j => Some (d j)) (fun _ _ => 0%N) 0%N (Some g) (Some 1) (Some 0) None None.
(** a constant in place of the power function *)
Definition c1 : RN -> RN -> RN := fun _ _ => Some 1.
Section TwoGroups.
Variables (T U : R) (d : nat -> R) (g : R).
Local Notation a := (d 0%nat).
Local Notation b := (d 1%nat).
Hypotheses (HT : 0 < T) (HA : a < b) (HG : 0 < g).
Let V := (b - a) / T / (T * g).
Let W := 2 / (T * g * (T * g)).
Hypotheses (V0 : 0 < V) (W0 : 0 < W) (VN : V + W < 1000000).
Let m := un_meta T U.
Let p := un_pix d g.

Lemma nz x : x <> 0 -> Reqb x 0 = false.
Proof. intro Hn. apply not_true_iff_false. rewrite Reqb_spec. exact Hn. Qed.
Lemma pz x : 0 < x -> Rltb 0 x = true. Proof. apply Rltb_spec. Qed.
Lemma pz' x : 0 < x -> Rltb x 0 = false. Proof. intro. apply not_true_iff_false. rewrite Rltb_spec. lra. Qed.
Lemma sm x : x < 1000000 -> Rleb 1000000 x = false. Proof. intro. apply not_true_iff_false. rewrite Rleb_spec. lra. Qed.
Lemma sm' x : x < 1000000 -> Rltb 1000000 x = false. Proof. intro. apply not_true_iff_false. rewrite Rltb_spec. lra. Qed.
Lemma inv2 x : 0 < x -> 1 / (0 + 1 / x) = x. Proof. intro. field. lra. Qed.
Lemma inv1 x : 0 < x -> 0 < 0 + 1 / x. Proof. intro. assert (0 < 1 / x) by (apply Rdiv_lt_0_compat; lra). lra. Qed.
Lemma e_rate : median_rate RN m p = Some ((b - a) / T).
Proof.
  assert (E : median_rate_integration RN m (prep0 RN m p 0) = Some ((b - a) / T)).
  { unfold median_rate_integration. cbn -[Rltb Rleb Reqb IZR Rplus Rmult Rminus Rdiv Rinv sqrt]. rewrite !nz by lra. cbn -[Rltb Rleb Reqb IZR Rplus Rmult Rminus Rdiv Rinv sqrt]. unfold nan_median. cbn -[Rltb Rleb Reqb IZR Rplus Rmult Rminus Rdiv Rinv sqrt]. f_equal. field. lra. }
  cbn -[Rltb Rleb Reqb IZR Rplus Rmult Rminus Rdiv Rinv sqrt]. unfold integ_rate. cbn -[Rltb Rleb Reqb IZR Rplus Rmult Rminus Rdiv Rinv sqrt]. rewrite E. cbn -[Rltb Rleb Reqb IZR Rplus Rmult Rminus Rdiv Rinv sqrt]. rewrite !nz by lra. f_equal. field. lra.
Qed.
Lemma e_pois : var_poisson RN p (Some ((b - a) / T)) (fmul RN (Some T) (Some g)) = Some ((b - a) / T / (T * g)).
Proof.
  unfold var_poisson. cbn -[Rltb Rleb Reqb IZR Rplus Rmult Rminus Rdiv Rinv sqrt]. assert (0 < (b - a) / T) by (apply Rdiv_lt_0_compat; lra). rewrite (proj2 (Rltb_spec _ _) H). assert (0 < T * g) by (apply Rmult_lt_0_compat; assumption).
  rewrite !nz by lra. f_equal. field. split; lra.
Qed.
Lemma e_rn : rnoise_len2 RN m p = Some (2 / (T * g * (T * g))).
Proof.
  assert (0 < 6 * g * g) by (repeat apply Rmult_lt_0_compat; lra). unfold rnoise_len2. cbn -[Rltb Rleb Reqb IZR Rplus Rmult Rminus Rdiv Rinv sqrt]. rewrite !nz by lra. cbn -[Rltb Rleb Reqb IZR Rplus Rmult Rminus Rdiv Rinv sqrt]. f_equal. field. lra.
Qed.
Lemma e_dq i : i_jump RN i = false -> i_pers RN i = false -> int_dq0 RN m p i = 0%N.
Proof. intros J P. unfold int_dq0, pixel_dq. rewrite J, P. cbn -[Rltb Rleb Reqb IZR Rplus Rmult Rminus Rdiv Rinv sqrt]. assert (Rleb g 0 = false) by (apply not_true_iff_false; rewrite Rleb_spec; lra). rewrite H. reflexivity. Qed.
Definition e_q : pfit RN := Build_pfit RN (Some ((b - a) / T)) 0%N (Some V) (Some W) (Some (sqrt (V + W))).
Lemma e_fit : fit_integration RN c1 m p (Some ((b - a) / T)) 0 = (e_q, (Some (0 + 1 / V), Some (0 + 1 / W), Some (0 + (b - a) / T / W))).
Proof.
  unfold fit_integration. cbv zeta. rewrite e_dq by reflexivity. change (Z.eqb (Z.of_nat (m_ng RN m)) (i_dnusat RN (prep RN m p 0))) with false. cbv iota. cbn [has N.land N.eqb].
  change (scan_segments (m_f RN m) (i_gdq RN (prep RN m p 0)) (m_ng RN m)) with (scan_segments ex_f (fun _ => 0%N) 2).
  unfold fit_slope. change (sl_size (scan_segments ex_f (fun _ : nat => 0%N) 2)) with 1%nat. change (sl_nodes (scan_segments ex_f (fun _ : nat => 0%N) 2)) with [(0, 2)]%nat.
  cbn -[Rltb Rleb Reqb IZR Rplus Rmult Rminus Rdiv Rinv sqrt rnoise_len2 var_poisson large0]. pose proof e_rn as ER. pose proof e_pois as EP. fold V in EP. fold W in ER. change (fmul RN (Some T) (Some g)) with (Some (T * g)) in EP. rewrite EP, ER. cbn -[Rltb Rleb Reqb IZR Rplus Rmult Rminus Rdiv Rinv sqrt rnoise_len2 var_poisson large0].
  pose proof (inv1 V V0). pose proof (inv1 W W0). pose proof (inv1 (V + W) ltac:(lra)).
  rewrite !nz by lra. rewrite !(pz V V0). cbn -[Rltb Rleb Reqb IZR Rplus Rmult Rminus Rdiv Rinv sqrt rnoise_len2 var_poisson large0]. rewrite !nz by lra. rewrite !pz by lra. rewrite !inv2 by lra. unfold large0, LARGE. cbn -[Rltb Rleb Reqb IZR Rplus Rmult Rminus Rdiv Rinv sqrt V W]. rewrite !sm by lra. rewrite sm' by lra. rewrite pz' by lra. unfold e_q.
  f_equal. f_equal. f_equal. field. lra.
Qed.
Lemma e_pixel : ols_pixel RN c1 m p = (e_q, [e_q]).
Proof.
  unfold ols_pixel, chargeloss. cbn [x_orig p un_pix]. unfold fit_pixel. rewrite e_rate. cbn [m m_nints un_meta seq map]. fold m. unfold finish_integration. rewrite e_fit.

  assert (PD : pixel_dq RN m p = 0%N) by (generalize (e_dq (prep RN m p 0) eq_refl eq_refl); unfold int_dq0; change (i_jump RN (prep RN m p 0)) with false; change (i_pers RN (prep RN m p 0)) with false; cbn [flag_if]; rewrite !N.lor_0_r; trivial).
  assert (IV : forall x, 0 < x -> inv_or RN (Some (0 + (0 + 1 / x))) = Some x).
  { intros x X. pose proof (inv1 x X). unfold inv_or. cbn -[Rltb Rleb Reqb IZR Rplus Rmult Rminus Rdiv Rinv sqrt]. rewrite pz, nz by lra. f_equal. field. lra. }
  cbn -[Rltb Rleb Reqb IZR Rplus Rmult Rminus Rdiv Rinv sqrt rnoise_len2 var_poisson large0 inv_or pixel_dq prep e_q]. rewrite PD, !IV by assumption. cbn -[Rltb Rleb Reqb IZR Rplus Rmult Rminus Rdiv Rinv sqrt V W].
  unfold large0, LARGE. cbn -[Rltb Rleb Reqb IZR Rplus Rmult Rminus Rdiv Rinv sqrt V W]. rewrite !sm by lra. rewrite !pz' by lra. cbn -[Rltb Rleb Reqb IZR Rplus Rmult Rminus Rdiv Rinv sqrt V W]. rewrite !pz' by lra. unfold e_q. f_equal. f_equal. f_equal. field. split; lra.
Qed.
End TwoGroups.

Example C120_example : let m := un_meta 10 1 in let p := un_pix (fun j => match j with O => 5 | _ => 8 end) 1 in
  let r := ols_pixel RN c1 m p in let r' := ols_pixel RN c1 (meta_units 5 m) (pix_units 2 5 p) in
  x_orig RN p = None /\ same_zeros (fst r) (fst r') /\ Forall2 same_zeros (snd r) (snd r') /\ q_slope RN (fst r) = Some (3 / 10) /\ q_slope RN (fst r') = Some (6 / 50).
Proof.
  intros m p. set (d := fun j : nat => match j with O => 5 | _ => 8 end) in p.
  assert (R1 : ols_pixel RN c1 m p = (e_q 10 d 1, [e_q 10 d 1])) by (apply e_pixel; cbn; lra).
  assert (M : meta_units 5 m = un_meta (5 * 10) (5 * 1)) by reflexivity.
  assert (P : pix_units 2 5 p = un_pix (fun j => 2 * d j) (/ 2 * 1)) by (unfold pix_units, un_pix; f_equal; cbn; f_equal; lra).
  assert (R2 : ols_pixel RN c1 (meta_units 5 m) (pix_units 2 5 p) = (e_q (5 * 10) (fun j => 2 * d j) (/ 2 * 1), [e_q (5 * 10) (fun j => 2 * d j) (/ 2 * 1)])).
  { rewrite M, P. apply e_pixel; cbn; lra. }
  intros r r'. subst r r'. rewrite R1, R2. cbn [fst snd].
  assert (Z : same_zeros (e_q 10 d 1) (e_q (5 * 10) (fun j => 2 * d j) (/ 2 * 1))).
  { assert (ZZ : forall x y : R, 0 < x -> 0 < y -> zeros (Some x) (Some y)) by (intros x y X Y; split; intro E; injection E; lra).
    split; [|split]; cbn [e_q q_vp q_vr q_err]; apply ZZ; try apply sqrt_lt_R0; cbn [d]; lra. }
  split; [reflexivity|]. split; [exact Z|]. split; [constructor; [exact Z|constructor]|]. split; cbn; f_equal; lra.
Qed.
(** Without the condition the claim is false: the cut at 10^6 counts^2/s^2 does not know the unit. The same signal (400 electrons in two reads 10 s apart, read noise 10^4 electrons),
    given as counts of one electron and of two, has the rates 0 and 20. *)
Theorem C120_cut_refuted : exists d1 d2 rn, let f data g := q_slope B64 (fst (ols_pixel B64 one_pow (ex_meta B64 2 1 false) (ex_pix B64 [data] [[0; 0]%N] g rn None None))) in
  d1 = map (Z.mul 2) d2 /\ f d1 1%Z = fzero B64 /\ f d2 2%Z = fofZ B64 20.
Proof. exists [0; 400]%Z, [0; 200]%Z, 10000%Z. vm_compute. repeat split. Qed.
Print Assumptions C120_cut_refuted.
