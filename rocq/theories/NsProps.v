(** C116: an unflagged NaN sample inside a segment is fitted as a zero. *)
From Verif Require Import Base BaseLemmas FLaws Cas22Model OlsModel OlsSpec OlsProofs OlsProps OvProps.
From Coq Require Import Lia.

(** ** Specification *)
(** the same pixel with 0 in place of the NaN samples strictly between groups [a] and [b] of integration [k] *)
Definition zeroed (fo : FOps) (k a b : nat) (p : opix fo) : opix fo :=
  {| x_data := fun i j => if Nat.eqb i k && Nat.ltb a j && Nat.ltb j b && fisnan fo (x_data fo p i j) then fzero fo else x_data fo p i j;
     x_gdq := x_gdq fo p; x_dq := x_dq fo p; x_gain := x_gain fo p; x_rn := x_rn fo p; x_dark := x_dark fo p; x_zf := x_zf fo p; x_orig := x_orig fo p |}.

Theorem C116_nan_is_zero : forall (fo : FOps) pow (m : ometa fo) (p : opix fo) k a b r, ordinary fo m p k -> a + 2 < b -> let q := zeroed fo k a (b - 1) p in
  fit_segment fo pow m p (prep fo m p k) r (a, b) = fit_segment fo pow m q (prep fo m q k) r (a, b).
Proof.
  intros fo pow m p k a b r O L q. rewrite (prep_ordinary fo m p k O), (prep_ordinary fo m q k O). unfold fit_segment. cbn [fst snd].
  destruct (Nat.eqb_spec 1 (b - a)); [lia|]. destruct (Nat.eqb_spec 2 (b - a)); [lia|]. unfold fit_default. cbn [fst snd].
  assert (Y : forall j, j < b - a -> o_y fo (prep0 fo m q k) (a, b) j = o_y fo (prep0 fo m p k) (a, b) j).
  { intros j J. unfold o_y, prep0. cbn [i_data fst q zeroed x_gdq x_data]. destruct (has _ _); [reflexivity|]. rewrite Nat.eqb_refl. cbn [andb].
    destruct (_ && _ && fisnan fo (x_data fo p k (a + j))) eqn:E; [|reflexivity]. apply andb_prop in E. destruct E as [_ E]. rewrite E. destruct (fisnan fo (fzero fo)); reflexivity. }
  assert (D : forall j, j = a \/ j = b - 1 -> i_data fo (prep0 fo m q k) j = i_data fo (prep0 fo m p k) j).
  { intros j J. unfold prep0. cbn [i_data q zeroed x_gdq x_data]. destruct (has _ _); [reflexivity|]. destruct (Nat.ltb_spec a j), (Nat.ltb_spec j (b - 1)); rewrite ?andb_false_r; cbn [andb]; try reflexivity. destruct J; lia. }
  assert (S : segment_snr fo q (prep0 fo m q k) (a, b) = segment_snr fo p (prep0 fo m p k) (a, b)).
  { unfold segment_snr. cbn [fst snd]. rewrite !D by auto. reflexivity. }
  rewrite S. assert (M : forall (w : nat -> fo), map (fun j => fmul fo (o_y fo (prep0 fo m q k) (a, b) j) (w j)) (seq 0 (b - a)) = map (fun j => fmul fo (o_y fo (prep0 fo m p k) (a, b) j) (w j)) (seq 0 (b - a))).
  { intro w. apply map_ext_in. intros j J. apply in_seq in J. rewrite Y by lia. reflexivity. }
  assert (W : o_weight fo pow q = o_weight fo pow p) by reflexivity. rewrite W, !M. reflexivity.
Qed.
Print Assumptions C116_nan_is_zero.

(** a ramp 0, 5, NaN, 15 with 10 s between groups (low signal, so the weights have power 0 and [one_pow] is the true power) *)
Definition nan_ramp (w : N) : opix B64 :=
  let p := ex_pix B64 [[0; 5; 10; 15]%Z] [[0; 0; w; 0]%N] 1 1 None None in
  {| x_data := fun k j => if Nat.eqb j 2 then fnan B64 else x_data B64 p k j; x_gdq := x_gdq B64 p; x_dq := x_dq B64 p; x_gain := x_gain B64 p; x_rn := x_rn B64 p;
     x_dark := x_dark B64 p; x_zf := x_zf B64 p; x_orig := x_orig B64 p |}.
(** "a NaN sample is left out of the fit" is false: marked DO_NOT_USE the slope is 0.5; not marked it is 0.4, with no flag in the result *)
Theorem C116_nan_ignored_refuted : exists p q : opix B64, let m := ex_meta B64 4 1 false in
  (forall k j, x_data B64 p k j = x_data B64 q k j) /\ fisnan B64 (x_data B64 p 0 2) = true /\ (forall j, j < 4 -> x_gdq B64 p 0 j = 0%N) /\
  (forall j, j < 4 -> x_gdq B64 q 0 j = if Nat.eqb j 2 then 1%N else 0%N) /\ o_dnu (m_f B64 m) = 1%N /\
  flt B64 (segment_snr B64 p (prep B64 m p 0) (0, 4)) (fofZ B64 5) = true /\
  q_slope B64 (fst (ols_pixel B64 one_pow m q)) = fdiv B64 (fofZ B64 5) (fofZ B64 10) /\
  q_slope B64 (fst (ols_pixel B64 one_pow m p)) = fdiv B64 (fofZ B64 4) (fofZ B64 10) /\ q_dq B64 (fst (ols_pixel B64 one_pow m p)) = 0%N.
Proof.
  exists (nan_ramp 0), (nan_ramp 1). intro m. split; [reflexivity|]. split; [reflexivity|].
  split; [intros j J; destruct j as [|[|[|[|j]]]]; [reflexivity..|lia]|]. split; [intros j J; destruct j as [|[|[|[|j]]]]; [reflexivity..|lia]|].
  repeat split; vm_compute; reflexivity.
Qed.
Print Assumptions C116_nan_ignored_refuted.

(** ** Example *)
Example C116_example : let m := ex_meta B64 4 1 false in ordinary B64 m (nan_ramp 0) 0 /\ 0 + 2 < 4 /\ fisnan B64 (x_data B64 (nan_ramp 0) 0 2) = true /\
  x_data B64 (zeroed B64 0 0 3 (nan_ramp 0)) 0 2 = fzero B64 /\ sl_nodes (scan_segments (m_f B64 m) (x_gdq B64 (nan_ramp 0) 0) 4) = [(0, 4)].
Proof. intro m. split; [right; exists 0, 1; repeat split; cbn; lia|]. split; [lia|]. repeat split; vm_compute; reflexivity. Qed.
