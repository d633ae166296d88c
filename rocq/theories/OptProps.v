(** Theorems about the optional results product of the OLS fitter: layout, weights and cosmic rays (C91, C94). *)
From Verif Require Import Base BaseLemmas FLaws Cas22Model Cas22Spec Cas22Proofs OlsModel OlsSpec OlsProofs OptModel.
From Coq Require Import Reals Lra Sorting.Sorted SpecFloat.
From Verif Require Import RBase Cas22Fit OlsFit OlsErr OlsProps TwProps.

(** ** The arrays hold the lists *)
Lemma scan_size f g n : length (sl_nodes (scan_segments f g n)) <= sl_size (scan_segments f g n).
Proof.
  rewrite scan_runs. set (l := map _ _). assert (V : Forall valid l) by (apply (extend_valid f g n), init_ramps_runs).
  destruct (adds_inv l V) as (S0 & _). unfold prune. set (a := adds l) in *. destruct (Nat.ltb_spec (sl_size a) 2); [lia|].
  destruct (Nat.ltb (sl_max a) 2); cbn [sl_nodes sl_size]; [rewrite firstn_length; lia|]. pose proof (filter_len (fun g0 : nat * nat => negb (1 =? snd g0 - fst g0)) (sl_nodes a)). lia.
Qed.
Lemma max_over_ge h ni nr nc i r c : i < ni -> r < nr -> c < nc -> h i r c <= max_over h ni nr nc.
Proof.
  intros I R C. unfold max_over. apply (proj2 (fold_max_ge _ 0)). apply in_flat_map. exists r. split; [apply in_seq; lia|].
  apply in_flat_map. exists c. split; [apply in_seq; lia|]. apply in_map_iff. exists i. split; [reflexivity|apply in_seq; lia].
Qed.
Lemma max_over_in h ni nr nc : max_over h ni nr nc = 0 \/ exists i r c, i < ni /\ r < nr /\ c < nc /\ h i r c = max_over h ni nr nc.
Proof.
  unfold max_over. destruct (fold_max_in (flat_map (fun r => flat_map (fun c => map (fun i => h i r c) (seq 0 ni)) (seq 0 nc)) (seq 0 nr)) 0) as [E|I]; [left; exact E|right].
  apply in_flat_map in I. destruct I as (r & R & I). apply in_flat_map in I. destruct I as (c & C & I). apply in_map_iff in I. destruct I as (i & E & I).
  apply in_seq in R, C, I. exists i, r, c. repeat split; lia.
Qed.
Lemma all_ok_true {X} (h : nat -> nat -> nat -> option X) ni nr nc : (forall i r c, i < ni -> r < nr -> c < nc -> h i r c <> None) -> all_ok h ni nr nc = true.
Proof.
  intro H. unfold all_ok. apply forallb_forall. intros i I. apply forallb_forall. intros r R. apply forallb_forall. intros c C. apply in_seq in I, R, C.
  specialize (H i r c ltac:(lia) ltac:(lia) ltac:(lia)). destruct (h i r c); [reflexivity|congruence].
Qed.
Section Arrays.
  Variable fo : FOps.
  Lemma arrays_hold ni nr nc (px : nat -> nat -> nat -> optint fo) :
    (forall i r c, i < ni -> r < nr -> c < nc -> length (n_segs fo (px i r c)) <= n_size fo (px i r c)) ->
    exists a, opt_arrays fo ni nr nc px = Some a /\ r_nseg fo a = max_over (fun i r c => n_size fo (px i r c)) ni nr nc /\
      r_ncr fo a = max_over (fun i r c => length (n_crs fo (px i r c))) ni nr nc /\
      forall i r c, i < ni -> r < nr -> c < nc -> r_ped fo a i r c = n_ped fo (px i r c) /\
        (forall j, r_seg fo a i j r c = nth j (n_segs fo (px i r c)) (optseg0 fo)) /\ (forall j, r_cr fo a i j r c = nth j (n_crs fo (px i r c)) (fzero fo)).
  Proof.
    intro H. unfold opt_arrays. set (nseg := max_over (fun i r c => n_size fo (px i r c)) ni nr nc). set (ncr := max_over (fun i r c => length (n_crs fo (px i r c))) ni nr nc).
    assert (A : forall i r c, i < ni -> r < nr -> c < nc -> column nseg (optseg0 fo) (n_segs fo (px i r c)) = Some (fun j => nth j (n_segs fo (px i r c)) (optseg0 fo))).
    { intros i r c I R C. unfold column. pose proof (H i r c I R C). pose proof (max_over_ge (fun i r c => n_size fo (px i r c)) ni nr nc i r c I R C) as M. fold nseg in M. cbv beta in M.
      destruct (Nat.leb_spec (length (n_segs fo (px i r c))) nseg); [reflexivity|lia]. }
    assert (B : forall i r c, i < ni -> r < nr -> c < nc ->
      exists u, (if 0 <? ncr then column ncr (fzero fo) (n_crs fo (px i r c)) else Some (fun _ => fzero fo)) = Some u /\ forall j, u j = nth j (n_crs fo (px i r c)) (fzero fo)).
    { intros i r c I R C. pose proof (max_over_ge (fun i r c => length (n_crs fo (px i r c))) ni nr nc i r c I R C) as M. fold ncr in M. cbv beta in M.
      unfold column. destruct (Nat.ltb_spec 0 ncr).
      - destruct (Nat.leb_spec (length (n_crs fo (px i r c))) ncr); [|lia]. eexists. split; [reflexivity|]. reflexivity.
      - eexists. split; [reflexivity|]. intro j. destruct (n_crs fo (px i r c)); [destruct j; reflexivity|cbn [length] in M; lia]. }
    rewrite all_ok_true, all_ok_true; cbn [andb].
    - eexists. split; [reflexivity|]. cbn [r_nseg r_ncr r_ped r_seg r_cr]. split; [reflexivity|]. split; [reflexivity|]. intros i r c I R C. split; [reflexivity|].
      rewrite (A i r c I R C). destruct (B i r c I R C) as (u & -> & U). split; [reflexivity|exact U].
    - intros i r c I R C. destruct (B i r c I R C) as (u & -> & _). discriminate.
    - intros i r c I R C. rewrite (A i r c I R C). discriminate.
  Qed.
  Variable powf : fo -> fo -> fo.
  Lemma segs_size m gap drop p mr i : length (n_segs fo (opt_integration fo powf m gap drop p mr i)) <= n_size fo (opt_integration fo powf m gap drop p mr i).
  Proof. unfold opt_integration. cbn [n_segs n_size]. rewrite map_length. destruct (has _ _); [cbn; lia|apply scan_size]. Qed.
  Lemma product_holds m gap drop nr nc px :
    let q i r c := opt_integration fo powf m gap drop (px r c) (median_rate fo m (px r c)) i in
    exists a, opt_product fo powf m gap drop nr nc px = Some a /\ r_nseg fo a = max_over (fun i r c => n_size fo (q i r c)) (m_nints fo m) nr nc /\
      r_ncr fo a = max_over (fun i r c => length (n_crs fo (q i r c))) (m_nints fo m) nr nc /\
      forall i r c, i < m_nints fo m -> r < nr -> c < nc -> r_ped fo a i r c = n_ped fo (q i r c) /\
        (forall j, r_seg fo a i j r c = nth j (n_segs fo (q i r c)) (optseg0 fo)) /\ (forall j, r_cr fo a i j r c = nth j (n_crs fo (q i r c)) (fzero fo)).
  Proof. intro q. apply arrays_hold. intros. apply segs_size. Qed.
End Arrays.

(** * C91: one entry per fitted segment *)
(** what is stored for a segment is what the rates are computed from *)
Theorem C91_entries : forall (fo : FOps) powf m p i mr g,
  let e := opt_segment fo powf m p i mr g in let q := fit_segment fo powf m p i mr g in
  e_slope fo e = g_slope fo q /\ e_vp fo e = g_var_p fo q /\ e_vr fo e = g_var_r fo q /\ e_wt fo e = fdiv fo (fone fo) (g_var_r fo q).
Proof. intros. subst e q. unfold opt_segment, fit_segment. destruct (Nat.eqb 1 _); [repeat split|]. destruct (Nat.eqb 2 _); repeat split. Qed.
Print Assumptions C91_entries.
(** the group DQ the fit sees *)
Definition seen_dq (fo : FOps) (m : ometa fo) (p : opix fo) (i : nat) : nat -> N := if zf_used fo m p i then upd 0 0%N (x_gdq fo p i) else x_gdq fo p i.
(** Never writes outside its arrays; the j-th plane of a pixel holds its j-th segment, and zero beyond the last. *)
Theorem C91_planes : forall (fo : FOps) powf m gap drop nr nc px, 1 <= m_ng fo m -> exists a, opt_product fo powf m gap drop nr nc px = Some a /\
  forall i r c rr, i < m_nints fo m -> r < nr -> c < nc -> let p := px r c in let g := seen_dq fo m p i in
    is_runs (flags_of (m_f fo m) g) (m_ng fo m) rr ->
    let segs := if has (g 0) (o_sat (m_f fo m)) then [] else kept (map (extend (m_f fo m) g) rr) in
    length segs <= r_nseg fo a /\
    (zf_used fo m p i = true \/ all_bad fo m p i = false ->
     forall j, r_seg fo a i j r c = nth j (map (opt_segment fo powf m p (prep fo m p i) (median_rate fo m p)) segs) (optseg0 fo)) /\
    (zf_used fo m p i = false /\ all_bad fo m p i = true -> forall j, r_seg fo a i j r c = optseg0 fo).
Proof.
  intros fo powf m gap drop nr nc px N1. destruct (product_holds fo powf m gap drop nr nc px) as (a & E & Na & _ & H). exists a. split; [exact E|].
  intros i r c rr I R C p g IR segs. destruct (H i r c I R C) as (_ & Sg & _).
  set (q := opt_integration fo powf m gap drop (px r c) (median_rate fo m (px r c)) i) in *.
  destruct (prep_rest fo m p i) as (G & _ & _ & _ & D & _). fold (seen_dq fo m p i) in G. fold g in G.
  assert (SL : sl_nodes (if has (g 0) (o_sat (m_f fo m)) then sl_empty else scan_segments (m_f fo m) g (m_ng fo m)) = segs).
  { unfold segs. destruct (has (g 0) _); [reflexivity|]. apply (segments_kept _ _ _ _ IR). }
  assert (QL : n_segs fo q = map (fun x => if negb (Z.eqb (Z.of_nat (m_ng fo m)) (i_dnusat fo (prep fo m p i))) &&
      negb (Nat.eqb (sl_size (if has (g 0) (o_sat (m_f fo m)) then sl_empty else scan_segments (m_f fo m) g (m_ng fo m))) 0)
      then opt_segment fo powf m p (prep fo m p i) (median_rate fo m p) x else optseg0 fo) segs).
  { unfold q, opt_integration. cbn [n_segs]. fold p. rewrite G, SL. reflexivity. }
  split.
  { rewrite Na. etransitivity; [|exact (max_over_ge _ _ _ _ i r c I R C)]. cbv beta. etransitivity; [|apply segs_size]. fold q. rewrite QL, map_length. lia. }
  assert (AB : Z.eqb (Z.of_nat (m_ng fo m)) (i_dnusat fo (prep fo m p i)) = negb (zf_used fo m p i) && all_bad fo m p i).
  { rewrite D. destruct (zf_used fo m p i); cbn [negb andb].
    - apply Z.eqb_neq. pose proof (count_range (fun j => has (x_gdq fo p i j) (o_dnu (m_f fo m)) || has (x_gdq fo p i j) (o_sat (m_f fo m))) (m_ng fo m)). lia.
    - rewrite Z.sub_0_r, count_all. reflexivity. }
  split.
  - intros U j. rewrite (Sg j), QL, AB.
    assert (X : negb (zf_used fo m p i) && all_bad fo m p i = false) by (destruct U as [-> | ->]; [reflexivity|apply andb_false_r]). rewrite X. cbn [negb andb].
    destruct (Nat.eqb_spec (sl_size (if has (g 0) (o_sat (m_f fo m)) then sl_empty else scan_segments (m_f fo m) g (m_ng fo m))) 0) as [Z0|]; [|reflexivity].
    assert (Z1 : segs = []). { rewrite <- SL. destruct (has (g 0) _); [reflexivity|]. pose proof (scan_size (m_f fo m) g (m_ng fo m)) as L. rewrite Z0 in L. destruct (sl_nodes _); [reflexivity|cbn [length] in L; lia]. }
    rewrite Z1. reflexivity.
  - intros [U V] j. rewrite (Sg j), QL, AB, U, V. cbn [negb andb].
    destruct (Nat.lt_ge_cases j (length segs)) as [L|L]; [|apply nth_overflow; rewrite map_length; exact L].
    exact (map_nth (fun _ : nat * nat => optseg0 fo) segs (0, 0) j).
Qed.
Print Assumptions C91_planes.
(** the empty slots of all seven arrays hold zero *)
Theorem C91_empty_slots : forall (fo : FOps) powf m gap drop nr nc px, 1 <= m_ng fo m -> exists a, opt_product fo powf m gap drop nr nc px = Some a /\
  forall i r c rr j, i < m_nints fo m -> r < nr -> c < nc -> let p := px r c in let g := seen_dq fo m p i in
    is_runs (flags_of (m_f fo m) g) (m_ng fo m) rr ->
    length (if has (g 0) (o_sat (m_f fo m)) then [] else kept (map (extend (m_f fo m) g) rr)) <= j \/ zf_used fo m p i = false /\ all_bad fo m p i = true ->
    let e := r_seg fo a i j r c in
    e_slope fo e = fzero fo /\ e_sigslope fo e = fzero fo /\ e_vp fo e = fzero fo /\ e_vr fo e = fzero fo /\ e_yint fo e = fzero fo /\ e_sigyint fo e = fzero fo /\ e_wt fo e = fzero fo.
Proof.
  intros fo powf m gap drop nr nc px N1. destruct (C91_planes fo powf m gap drop nr nc px N1) as (a & E & H). exists a. split; [exact E|].
  intros i r c rr j I R C. cbv zeta. intros IR J. destruct (H i r c rr I R C IR) as (_ & H1 & H2). cbv zeta in H1, H2.
  assert (Z : r_seg fo a i j r c = optseg0 fo).
  { destruct (zf_used fo m (px r c) i) eqn:U; [rewrite H1 by (left; reflexivity)|destruct (all_bad fo m (px r c) i) eqn:V; [apply H2; split; reflexivity|rewrite H1 by (right; reflexivity)]];
      (destruct J as [J|[J1 J2]]; [apply nth_overflow; rewrite map_length; exact J|congruence]). }
  rewrite Z. repeat split.
Qed.
Print Assumptions C91_empty_slots.
(** The segment axis may be longer than any pixel's list: with only isolated good groups one segment is fitted, but the
    axis counts them all and carries planes of zeros. *)
Theorem C91_axis_refuted : exists dq : list N,
  let a := opt_product B64 one_pow (ex_meta B64 5 1 false) 0 0 1 1 (fun _ _ => ex_pix B64 [[7; 8; 9; 10; 11]%Z] [dq] 1 1 None None) in
  option_map (fun a => (r_nseg B64 a, map (fun j => (e_slope B64 (r_seg B64 a 0 j 0 0) : spec_float, flt B64 (fzero B64) (e_wt B64 (r_seg B64 a 0 j 0 0)))) [0; 1])) a =
    Some (2, [(SFdiv 53 1024 (Sz 8%Z) (Sz 10%Z), true); (Sz 0%Z, false)]) /\
  length (sl_nodes (scan_segments ex_f (fun k => nth k dq 0%N) 5)) = 1.
Proof. exists [1; 0; 1; 0; 1]%N. vm_compute. split; reflexivity. Qed.
Print Assumptions C91_axis_refuted.

(** ** The rates from the optional product *)
Lemma Rsum_pad {A} (h : A -> R) (z : A) l n : h z = 0%R -> length l <= n -> Rsum (map (fun j => h (nth j l z)) (seq 0 n)) = Rsum (map h l).
Proof.
  intros Hz. revert n. induction l as [|x l IH]; intros n L.
  - cbn [map]. rewrite (Rsum_ext _ (fun _ => 0%R)) by (intros j _; destruct j; exact Hz). rewrite Rsum_const, Rsum_nil. lra.
  - destruct n as [|n]; [cbn in L; lia|]. cbn [seq map nth]. rewrite !Rsum_cons, <- seq_shift, map_map. f_equal. apply IH. cbn in L. lia.
Qed.
(** An integration's rate is the mean of its segments' slopes weighted with the stored weights, its read-noise variance the
    reciprocal of their sum. *)
Theorem C91_weighted_mean : forall pow m gap drop nr nc px dnu jump sat pers ngval chg k r c dflt,
  m_f RF m = flags_at dnu jump sat pers ngval chg -> NoDup [dnu; jump; sat; pers; ngval] -> 1 <= m_ng RF m -> let p := px r c in
  (x_rn RF p <> 0)%R -> (0 < (m_tgroup RF m : R))%R -> (0 < (m_tframe RF m : R))%R -> (0 < (x_gain RF p : R))%R -> (0 <= (x_dark RF p : R))%R ->
  N.testbit (x_dq RF p) dnu = false -> N.testbit (x_dq RF p) sat = false -> x_orig RF p = None ->
  k < m_nints RF m -> r < nr -> c < nc -> plain m p k -> segs_of m p k <> [] ->
  exists a, opt_product RF pow m gap drop nr nc px = Some a /\
    let e j := r_seg RF a k j r c in
    let W := Rsum (map (fun j => e_wt RF (e j) : R) (seq 0 (r_nseg RF a))) in
    let WS := Rsum (map (fun j => e_wt RF (e j) * e_slope RF (e j))%R (seq 0 (r_nseg RF a))) in
    (0 < W)%R /\ ((1 / W < 1000000)%R -> let q := nth k (snd (ols_pixel RF pow m p)) dflt in q_slope RF q = (WS / W)%R /\ q_vr RF q = (1 / W)%R).
Proof.
  intros pow m gap drop nr nc px dnu jump sat pers ngval chg k r c dflt Hf Hd N1 p Hr Ht Htf Hg Hdk Q1 Q2 Ho K Rr C P NE.
  destruct (C91_planes RF pow m gap drop nr nc px N1) as (a & E & H). exists a. split; [exact E|]. intros e W WS.
  assert (AB : all_bad RF m p k = false).
  { apply not_true_iff_false. intro B. apply NE. unfold segs_of. destruct (has _ _); [reflexivity|]. rewrite (bad_no_runs m p dnu jump sat pers ngval chg Hf Hd N1 (conj Q1 Q2) k B). reflexivity. }
  specialize (H k r c (runs_of m p k) K Rr C). cbv zeta in H. fold p in H. unfold seen_dq in H. rewrite (plain_zf m p dnu sat N1 (conj Q1 Q2) k P) in H. specialize (H (init_ramps_runs _ _)).
  change (if has (x_gdq RF p k 0) (o_sat (m_f RF m)) then [] else kept (map (extend (m_f RF m) (x_gdq RF p k)) (runs_of m p k))) with (segs_of m p k) in H.
  destruct H as (L & H & _). specialize (H (or_intror AB)).
  set (es := map (opt_segment RF pow m p (prep RF m p k) (median_rate RF m p)) (segs_of m p k)) in H.
  assert (EW : W = sum_r pow m p k (median_rate RF m p)).
  { unfold W, e. rewrite (Rsum_ext _ (fun j => (fun s => e_wt RF s : R) (nth j es (optseg0 RF)))) by (intros j _; rewrite H; reflexivity).
    rewrite (Rsum_pad (fun s => e_wt RF s : R)); [|reflexivity|unfold es; rewrite map_length; exact L]. unfold es, sum_r. rewrite !map_map. apply Rsum_ext. intros g _.
    destruct (C91_entries RF pow m p (prep RF m p k) (median_rate RF m p) g) as (_ & _ & _ & ->). reflexivity. }
  assert (EN : WS = sum_n pow m p k (median_rate RF m p)).
  { unfold WS, e. rewrite (Rsum_ext _ (fun j => (fun s => (e_wt RF s * e_slope RF s)%R) (nth j es (optseg0 RF)))) by (intros j _; rewrite H; reflexivity).
    rewrite (Rsum_pad (fun s => (e_wt RF s * e_slope RF s)%R)); [|cbn; lra|unfold es; rewrite map_length; exact L]. unfold es, sum_n. rewrite !map_map. apply Rsum_ext. intros g _.
    destruct (C91_entries RF pow m p (prep RF m p k) (median_rate RF m p) g) as (-> & _ & _ & ->). cbn [fdiv fone RF]. unfold Rdiv. ring. }
  assert (Wp : (0 < W)%R).
  { rewrite EW. unfold sum_r. rewrite map_map. destruct (segs_of m p k) as [|g l] eqn:SG; [congruence|]. rewrite <- SG.
    assert (Q : forall g, In g (segs_of m p k) -> (0 < 1 / g_var_r RF (fit_segment RF pow m p (prep RF m p k) (median_rate RF m p) g))%R).
    { intros g0 I. apply Rdiv_lt_0_compat; [lra|]. eapply seg_vars; eauto. eapply seg_len; eassumption. }
    apply (Rsum_pos _ _ g); [intros; left; apply Q; assumption|rewrite SG; left; reflexivity|apply Q; rewrite SG; left; reflexivity]. }
  split; [exact Wp|]. intros LT q. unfold q. rewrite (nth_pixel pow m p Ho k dflt K). unfold finish_integration.
  destruct (contrib pow m p dnu jump sat pers ngval chg Hf Hd N1 Hg (conj Q1 Q2) k (median_rate RF m p) P) as (_ & _ & _ & CC). specialize (CC NE).
  destruct (fit_integration RF pow m p (median_rate RF m p) k) as [q0 c0]. cbn [fst] in CC. subst q0. cbn [q_dq q_slope q_vr u_fit].
  rewrite Hf. cbn [flags_at o_dnu o_sat]. rewrite !has_bit. destruct (int_clean m p dnu jump sat pers ngval chg Hf Hd Hg (conj Q1 Q2) k) as [-> ->]. cbn [orb].
  rewrite <- EW, <- EN, large_small by exact LT. split; [|reflexivity]. toR. field. lra.
Qed.
Print Assumptions C91_weighted_mean.
(** a ramp 5, 8, 60 (jump), 63, 66, 69: two segments, weights 50 and 250, and an empty third plane next to a pixel with three *)
Example C91_example : let m := ex_meta B64 8 1 false in
  let px (r c : nat) := ex_pix B64 [[5; 8; 60; 63; 66; 69; 0; 3]%Z] [if Nat.eqb c 0 then [0; 0; 4; 0; 0; 0; 1; 1]%N else [0; 0; 1; 0; 0; 1; 0; 0]%N] 1 1 None None in
  option_map (fun a => (r_nseg B64 a, map (fun j => (flt B64 (fzero B64) (e_wt B64 (r_seg B64 a 0 j 0 0)), flt B64 (fzero B64) (e_wt B64 (r_seg B64 a 0 j 0 1)))) [0; 1; 2]))
    (opt_product B64 one_pow m 0 0 1 2 px) = Some (3, [(true, true); (true, true); (false, true)]).
Proof. vm_compute. reflexivity. Qed.
Example C91_mean_example : let m := ex_meta RF 6 1 false in let p := ex_pix RF [[5; 8; 60; 63; 66; 69]%Z] [[0; 0; 4; 0; 0; 0]%N] 1 1 None None in
  segs_of m p 0 = [(0, 2); (2, 6)] /\ plain m p 0 /\ (x_rn RF p <> 0)%R /\ (0 < (m_tgroup RF m : R))%R /\ (0 < (x_gain RF p : R))%R.
Proof. intros m p. split; [vm_compute; reflexivity|]. split; [left; reflexivity|]. cbn. lra. Qed.

(** * C94: cosmic rays *)
(** group k as the fitter reads it: NaN when saturated *)
Definition read_group (fo : FOps) (m : ometa fo) (p : opix fo) (i k : nat) : fo := if has (x_gdq fo p i k) (o_sat (m_f fo m)) then fnan fo else x_data fo p i k.
Lemma filter_sorted_unique (q : nat -> bool) n ks : StronglySorted lt ks -> (forall k, In k ks <-> k < n /\ q k = true) -> ks = filter q (seq 0 n).
Proof.
  intros Sk Ik.
  assert (U : forall l l' : list nat, StronglySorted lt l -> StronglySorted lt l' -> (forall k, In k l <-> In k l') -> l = l').
  { clear. induction l as [|x l IH]; intros l' S1 S2 E; [destruct l' as [|y l']; [reflexivity|exfalso; apply (E y); left; reflexivity]|].
    destruct l' as [|y l']; [exfalso; apply (E x); left; reflexivity|]. inversion S1 as [|? ? S1' F1]; subst. inversion S2 as [|? ? S2' F2]; subst. rewrite Forall_forall in F1, F2.
    assert (x = y).
    { destruct (proj1 (E x) (or_introl eq_refl)) as [->|I]; [reflexivity|]. destruct (proj2 (E y) (or_introl eq_refl)) as [->|J]; [reflexivity|]. specialize (F1 y J). specialize (F2 x I). lia. }
    subst y. f_equal. apply IH; [assumption|assumption|]. intro k. split; intro I.
    - destruct (proj1 (E k) (or_intror I)) as [<-|]; [specialize (F1 x I); lia|assumption].
    - destruct (proj2 (E k) (or_intror I)) as [<-|]; [specialize (F2 x I); lia|assumption]. }
  apply U; [assumption| |].
  - apply sorted_filter. clear. generalize 0. induction n as [|n IH]; intro s; cbn [seq]; constructor; [apply IH|]. apply Forall_forall; intros x I; apply in_seq in I; lia.
  - intro k. rewrite Ik, filter_In, in_seq. intuition lia.
Qed.
(** The j-th entry of a pixel is the step into its j-th jump-flagged group after the first; entries beyond are zero; the axis
    is exactly as long as the longest list. *)
Theorem C94_crs : forall (fo : FOps) powf m gap drop nr nc px, exists a, opt_product fo powf m gap drop nr nc px = Some a /\
  (forall i r c ks, i < m_nints fo m -> r < nr -> c < nc -> let p := px r c in
    StronglySorted lt ks -> (forall k, In k ks <-> 1 <= k < m_ng fo m /\ has (x_gdq fo p i k) (o_jump (m_f fo m)) = true) ->
    length ks <= r_ncr fo a /\
    forall j, r_cr fo a i j r c = nth j (map (fun k => fsub fo (read_group fo m p i k) (read_group fo m p i (k - 1))) ks) (fzero fo)) /\
  (r_ncr fo a = 0 \/ exists i r c ks, i < m_nints fo m /\ r < nr /\ c < nc /\ NoDup ks /\ length ks = r_ncr fo a /\
    forall k, In k ks -> 1 <= k < m_ng fo m /\ has (x_gdq fo (px r c) i k) (o_jump (m_f fo m)) = true).
Proof.
  intros fo powf m gap drop nr nc px. destruct (product_holds fo powf m gap drop nr nc px) as (a & E & _ & Nc & H). exists a. split; [exact E|]. split.
  - intros i r c ks I R C p Sk Ik. destruct (H i r c I R C) as (_ & _ & Cr).
    assert (K : ks = filter (fun k => Nat.ltb 0 k && has (x_gdq fo p i k) (o_jump (m_f fo m))) (seq 0 (m_ng fo m))).
    { apply filter_sorted_unique; [exact Sk|]. intro k. rewrite Ik, andb_true_iff, Nat.ltb_lt. intuition lia. }
    split; [|intro j; rewrite (Cr j), K; reflexivity].
    rewrite Nc. etransitivity; [|exact (max_over_ge _ _ _ _ i r c I R C)]. unfold opt_integration, crs. cbn [n_crs prep0 i_gdq]. rewrite map_length, K. reflexivity.
  - rewrite Nc. destruct (max_over_in (fun i r c => length (n_crs fo (opt_integration fo powf m gap drop (px r c) (median_rate fo m (px r c)) i))) (m_nints fo m) nr nc) as [Z|(i & r & c & I & R & C & L)]; [left; exact Z|right].
    exists i, r, c, (filter (fun k => Nat.ltb 0 k && has (x_gdq fo (px r c) i k) (o_jump (m_f fo m))) (seq 0 (m_ng fo m))). repeat split; try assumption.
    + apply NoDup_filter, seq_NoDup.
    + rewrite <- L. unfold opt_integration, crs. cbn [n_crs prep0 i_gdq]. rewrite map_length. reflexivity.
    + apply filter_In in H0. destruct H0 as [_ J]. apply andb_true_iff in J. destruct J as [J _]. apply Nat.ltb_lt in J. lia.
    + apply filter_In in H0. destruct H0 as [J _]. apply in_seq in J. lia.
    + apply filter_In in H0. destruct H0 as [_ J]. apply andb_true_iff in J. apply J.
Qed.
Print Assumptions C94_crs.
Example C94_example : let m := ex_meta B64 6 1 false in
  option_map (fun a => (r_ncr B64 a, map (fun j => r_cr B64 a 0 j 0 0 : spec_float) [0; 1; 2], map (fun j => r_cr B64 a 0 j 0 1 : spec_float) [0; 1]))
    (opt_product B64 one_pow m 0 0 1 2 (fun r c => ex_pix B64 [[5; 8; 60; 63; 70; 69]%Z] [if Nat.eqb c 0 then [4; 0; 4; 0; 5; 0]%N else [0; 4; 0; 2; 0; 0]%N] 1 1 None None)) =
  Some (2, [Sz 52%Z; Sz 7%Z; Sz 0%Z], [Sz 3%Z; Sz 0%Z]).
Proof. vm_compute. reflexivity. Qed.
