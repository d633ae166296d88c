(** Theorems about the median computers (C15, C16). *)
From Verif Require Import Base BaseLemmas MedianModel MedianProofs.
From Coq Require Import ZifyBool ZifyNat.

(** ** Specification *)
(** an image of the shape and dtype the computer was created for *)
Definition fits {A} (R C dt : nat) (d : image A) : Prop := i_rows d = R /\ i_cols d = C /\ i_dtype d = dt.
(** the pixelwise median of a stack *)
Definition median_of {A} (med : list A -> A) (imgs : list (image A)) (r c : nat) : A :=
  med (map (fun d => i_px d r c) imgs).
(** rows per section and number of sections, as documented for the buffer size *)
Definition rows_per_section (n R C itemsize : nat) (buffer : Z) : Z :=
  let bytes := if Z.eqb buffer 0 then Z.of_nat (R * C * itemsize) else buffer in
  Z.max 1 (Z.min (Z.of_nat R) (bytes / Z.of_nat (n * (C * itemsize)))).
Definition ceil_div (a b : Z) : Z := ((a + b - 1) / b)%Z.

Lemma buffer_spec n R C it b nsec s : buffer_indices n R C it b = Some (nsec, s) ->
  Z.of_nat s = rows_per_section n R C it b /\ Z.of_nat nsec = ceil_div (Z.of_nat R) (rows_per_section n R C it b).
Proof.
  unfold buffer_indices, rows_per_section, ceil_div. destruct (_ || _); [discriminate|].
  set (k := Z.min _ _). intros [= <- Hs]. rewrite Hs.
  assert (E : Z.of_nat s = Z.max 1 k) by (subst s; destruct (Z.leb_spec k 0); lia).
  split; [exact E|]. rewrite <- E. rewrite Nat2Z.inj_div. f_equal. lia.
Qed.

(** ** C15 *)
Section C15.
  Variables (A : Type) (nanv : A) (med : list A -> A).

  (** Any images accepted by the disk-backed computer, in any number: the result is their median. *)
  Theorem C15_disk_median_of_appended : forall n R C itemsize dt buffer uninit imgs m0 m,
    computer_new A false uninit n R C itemsize dt buffer = Some m0 ->
    Forall (fits R C dt) imgs -> imgs <> [] ->
    append_all A m0 imgs = Some m ->
    exists o m', computer_evaluate A nanv med m = Some (o, m') /\
      i_rows o = R /\ i_cols o = C /\ i_dtype o = dt /\
      forall r c, r < R -> c < C -> i_px o r c = median_of med imgs r c.
  Proof.
    intros n R C it dt b un imgs m0 m HN HG HE HA. unfold computer_new in HN.
    destruct (disk_new A n R C it dt b) as [s0|] eqn:E; [|discriminate]. injection HN as <-.
    destruct (disk_new_state _ _ _ _ _ _ _ _ E) as (nsec & s & HB & ->).
    pose proof (buffer_tiles _ _ _ _ _ _ _ HB) as HT. unfold append_all in HA.
    rewrite (append_all_disk A n R C dt nsec s imgs [] 0 HT HG ltac:(cbn; lia)) in HA.
    cbn [length Nat.add app] in HA. destruct (Nat.leb_spec (length imgs) nsec) as [Hl|]; [|discriminate].
    injection HA as <-. cbn [computer_evaluate].
    destruct (compute_median_state A nanv med n R C dt nsec s imgs HT) as (o & Ho & H1 & H2 & H3 & H4).
    { destruct imgs; [congruence|cbn in Hl; lia]. }
    rewrite Ho. cbn [bind]. eexists _, _; split; [reflexivity|]. auto.
  Qed.

  (** A full stack given to both computers: same shape, same pixels, whatever the buffer size. *)
  Theorem C15_disk_equals_memory : forall n R C itemsize dt buffer uninit imgs m0 m,
    computer_new A false uninit n R C itemsize dt buffer = Some m0 ->
    Forall (fits R C dt) imgs -> length imgs = n ->
    append_all A m0 imgs = Some m ->
    exists o m' k0 k o2 k',
      computer_evaluate A nanv med m = Some (o, m') /\
      computer_new A true uninit n R C itemsize dt buffer = Some k0 /\
      append_all A k0 imgs = Some k /\
      computer_evaluate A nanv med k = Some (o2, k') /\
      i_rows o = i_rows o2 /\ i_cols o = i_cols o2 /\ i_dtype o = i_dtype o2 /\
      (forall r c, r < R -> c < C -> i_px o r c = i_px o2 r c) /\
      (forall r c, r < R -> c < C -> i_px o2 r c = median_of med imgs r c).
  Proof.
    intros n R C it dt b un imgs m0 m HN HG Hn HA.
    assert (HE : imgs <> []).
    { intros ->. cbn in Hn. subst n. unfold computer_new, disk_new, buffer_indices in HN. discriminate HN. }
    destruct (C15_disk_median_of_appended _ _ _ _ _ _ _ _ _ _ HN HG HE HA) as (o & m' & He & H1 & H2 & H3 & H4).
    destruct (append_all_memory A n R C dt imgs [] un 0 HG eq_refl ltac:(lia) ltac:(intros; lia)) as (arr & Hk & Harr).
    assert (K : forall r c, r < R -> c < C -> nanmedian3D A med n arr r c = median_of med imgs r c).
    { intros r c Hr Hc. unfold nanmedian3D, median_of. f_equal. subst n.
      destruct imgs as [|i0 imgs']; [congruence|]. apply map_seq_nth with (d0 := i0).
      intros k Hkk. apply (Harr k); assumption. }
    exists o, m'. eexists _, _, _, _. split; [exact He|]. split; [reflexivity|].
    split; [exact Hk|]. split; [reflexivity|]. cbn [i_rows i_cols i_dtype i_px].
    repeat split; try assumption. intros r c Hr Hc. rewrite K by assumption. apply H4; assumption.
  Qed.

  (** The sections are contiguous, non-empty and cover every row exactly once; the file of a
      section returns the images appended so far, in order, restricted to the section's rows. *)
  Theorem C15_sections : forall n R C itemsize dt buffer uninit imgs m0 s,
    computer_new A false uninit n R C itemsize dt buffer = Some m0 ->
    Forall (fits R C dt) imgs ->
    append_all A m0 imgs = Some (OnDisk s) ->
    length (d_files s) = d_nsec s /\
    (forall r, r < R -> exists! i, i < d_nsec s /\ i * d_secrows s <= r < Nat.min ((i + 1) * d_secrows s) R) /\
    (forall i f, nth_error (d_files s) i = Some f ->
       i * d_secrows s < Nat.min ((i + 1) * d_secrows s) R /\
       f_rows f = Nat.min ((i + 1) * d_secrows s) R - i * d_secrows s /\ f_count f = length imgs /\
       exists cb, dfile_read A nanv f = Some cb /\
         forall k d, nth_error imgs k = Some d -> forall r c, r < f_rows f -> c < C ->
           cb k r c = i_px d (i * d_secrows s + r) c).
  Proof.
    intros n R C it dt b un imgs m0 s HN HG HA. unfold computer_new in HN.
    destruct (disk_new A n R C it dt b) as [s0|] eqn:E; [|discriminate]. injection HN as <-.
    destruct (disk_new_state _ _ _ _ _ _ _ _ E) as (nsec & q & HB & ->).
    pose proof (buffer_tiles _ _ _ _ _ _ _ HB) as HT. unfold append_all in HA.
    rewrite (append_all_disk A n R C dt nsec q imgs [] 0 HT HG ltac:(cbn; lia)) in HA.
    cbn [length Nat.add app] in HA. destruct (Nat.leb_spec (length imgs) nsec) as [Hl|]; [|discriminate].
    injection HA as <-. cbn [state_of d_files d_nsec d_secrows].
    destruct HT as (Hq & HR & HI). split; [rewrite map_length, seq_length; reflexivity|]. split.
    - intros r Hr. exists (r / q). pose proof (Nat.div_mod r q ltac:(lia)). pose proof (Nat.mod_upper_bound r q ltac:(lia)).
      set (i := r / q) in *. set (w := r mod q) in *. split; [nia|]. intros j Hj. nia.
    - intros i f Hf. assert (Hi : i < nsec).
      { assert (K : nth_error (map (sec_file A R C dt nsec q imgs) (seq 0 nsec)) i <> None) by congruence.
        apply nth_error_Some in K. rewrite map_length, seq_length in K. exact K. }
      rewrite nth_error_map in Hf. rewrite (nth_error_nth' (seq 0 nsec) 0) in Hf by (rewrite seq_length; exact Hi).
      rewrite seq_nth in Hf by exact Hi. cbn [option_map Nat.add] in Hf. injection Hf as <-.
      pose proof (tiles_rows R nsec q i (conj Hq (conj HR HI)) Hi) as Er. pose proof (HI i Hi).
      cbn [sec_file f_rows f_count]. split; [nia|]. split; [nia|]. split; [reflexivity|].
      destruct (sec_file_read A nanv R C dt nsec q imgs i) as (cb & Hcb & Hv). exists cb. split; [exact Hcb|].
      intros k d Hk r c Hr Hc.
      assert (k < length imgs) by (apply nth_error_Some; congruence).
      rewrite (Hv k r c d) by assumption. f_equal. apply nth_error_nth with (d := d) in Hk. exact Hk.
  Qed.

  (** After [evaluate] the disk-backed computer is unusable: nothing can be appended or evaluated. *)
  Theorem C15_used_once : forall n R C itemsize dt buffer uninit imgs m0 m o m',
    computer_new A false uninit n R C itemsize dt buffer = Some m0 ->
    Forall (fits R C dt) imgs -> imgs <> [] -> append_all A m0 imgs = Some m ->
    computer_evaluate A nanv med m = Some (o, m') ->
    computer_evaluate A nanv med m' = None /\ (forall d i, computer_append A m' d i = None).
  Proof.
    intros n R C it dt b un imgs m0 m o m' HN HG HE HA HV. unfold computer_new in HN.
    destruct (disk_new A n R C it dt b) as [s0|] eqn:E; [|discriminate]. injection HN as <-.
    destruct (disk_new_state _ _ _ _ _ _ _ _ E) as (nsec & q & HB & ->).
    pose proof (buffer_tiles _ _ _ _ _ _ _ HB) as HT. unfold append_all in HA.
    rewrite (append_all_disk A n R C dt nsec q imgs [] 0 HT HG ltac:(cbn; lia)) in HA.
    cbn [length Nat.add app] in HA. destruct (Nat.leb_spec (length imgs) nsec) as [Hl|]; [|discriminate].
    injection HA as <-. cbn [computer_evaluate] in HV.
    destruct (compute_median A nanv med _) as [o'|]; [|discriminate]. injection HV as _ <-.
    destruct nsec as [|nsec]; [destruct imgs; [congruence|cbn in Hl; lia]|].
    split.
    - cbn. reflexivity.
    - intros d i. cbn [computer_append]. unfold add_image.
      match goal with |- context [if ?x then None else _] => destruct x; [reflexivity|] end.
      match goal with |- context [if ?x then None else _] => destruct x; [reflexivity|] end.
      match goal with |- context [if ?x then None else _] => destruct x; [reflexivity|] end.
      cbn. match goal with |- context [dfile_append A ?f ?d] => assert (K : dfile_append A f d = None) end.
      { unfold dfile_append. cbn [f_exists]. destruct (_ && _); [|reflexivity]. destruct (Nat.eqb _ _); reflexivity. }
      rewrite K. reflexivity.
  Qed.
End C15.

(** ** C16 *)
(** The exact acceptance limit of the disk-backed computer is its number of sections. *)
Theorem C16_acceptance_limit : forall A n R C itemsize dt buffer uninit imgs m0,
  computer_new A false uninit n R C itemsize dt buffer = Some m0 ->
  Forall (fits R C dt) imgs ->
  (append_all A m0 imgs <> None <->
   (Z.of_nat (length imgs) <= ceil_div (Z.of_nat R) (rows_per_section n R C itemsize buffer))%Z).
Proof.
  intros A n R C it dt b un imgs m0 HN HG. unfold computer_new in HN.
  destruct (disk_new A n R C it dt b) as [s0|] eqn:E; [|discriminate]. injection HN as <-.
  destruct (disk_new_state _ _ _ _ _ _ _ _ E) as (nsec & q & HB & ->).
  pose proof (buffer_tiles _ _ _ _ _ _ _ HB) as HT. unfold append_all.
  rewrite (append_all_disk A n R C dt nsec q imgs [] 0 HT HG ltac:(cbn; lia)). cbn [length Nat.add].
  destruct (buffer_spec _ _ _ _ _ _ _ HB) as [_ <-].
  destruct (Nat.leb_spec (length imgs) nsec); split; intro; try lia; try discriminate; congruence.
Qed.

(** With the default buffer the expected [n] images are accepted iff there are at least [n] rows. *)
Theorem C16_default_buffer : forall A n R C itemsize dt uninit imgs m0,
  computer_new A false uninit n R C itemsize dt 0 = Some m0 ->
  Forall (fits R C dt) imgs -> length imgs = n ->
  (append_all A m0 imgs <> None <-> n <= R).
Proof.
  intros A n R C it dt un imgs m0 HN HG Hn.
  rewrite (C16_acceptance_limit A n R C it dt 0%Z un imgs m0 HN HG), Hn.
  assert (H0 : 0 < n /\ 0 < C * it).
  { unfold computer_new, disk_new, buffer_indices in HN.
    destruct (Nat.eqb_spec n 0); [discriminate|]. destruct (Nat.eqb_spec (C * it) 0); [discriminate|]. lia. }
  destruct H0 as [H0 H1]. unfold rows_per_section, ceil_div. cbn [Z.eqb].
  replace (Z.of_nat (R * C * it) / Z.of_nat (n * (C * it)))%Z with (Z.of_nat R / Z.of_nat n)%Z.
  2:{ rewrite <- (Z.div_mul_cancel_r (Z.of_nat R) (Z.of_nat n) (Z.of_nat (C * it))) by lia. f_equal; lia. }
  set (r := Z.of_nat R) in *. set (z := Z.of_nat n) in *.
  assert (Hz : (0 < z)%Z) by lia. assert (Hr : (0 <= r)%Z) by lia.
  pose proof (Z.div_mod r z ltac:(lia)). pose proof (Z.mod_pos_bound r z Hz).
  set (q := (r / z)%Z) in *. set (w := (r mod z)%Z) in *.
  assert (Hqr : (q <= r)%Z) by nia. rewrite (Z.min_r r q Hqr).
  destruct (Z.le_gt_cases z r) as [L|L].
  - split; [intros _; lia|]. intros _. assert (1 <= q)%Z by nia. rewrite Z.max_r by lia.
    apply Z.div_le_lower_bound; nia.
  - assert (q = 0)%Z by nia. replace (Z.max 1 q) with 1%Z by lia. rewrite Z.div_1_r. lia.
Qed.

(** With a buffer large enough for the whole stack only a single image is accepted. *)
Theorem C16_large_buffer_accepts_one : forall A n R C itemsize dt buffer uninit imgs m0,
  computer_new A false uninit n R C itemsize dt buffer = Some m0 ->
  0 < R -> (Z.of_nat (n * R * (C * itemsize)) <= buffer)%Z ->
  Forall (fits R C dt) imgs ->
  (append_all A m0 imgs <> None <-> length imgs <= 1).
Proof.
  intros A n R C it dt b un imgs m0 HN HR Hb HG.
  rewrite (C16_acceptance_limit A n R C it dt b un imgs m0 HN HG).
  assert (H0 : 0 < n /\ 0 < C * it).
  { unfold computer_new, disk_new, buffer_indices in HN.
    destruct (Nat.eqb_spec n 0); [discriminate|]. destruct (Nat.eqb_spec (C * it) 0); [discriminate|]. lia. }
  destruct H0 as [H0 H1]. unfold rows_per_section, ceil_div.
  destruct (Z.eqb_spec b 0); [nia|].
  assert (Z.of_nat R <= b / Z.of_nat (n * (C * it)))%Z by (apply Z.div_le_lower_bound; nia).
  rewrite Z.min_l by assumption. rewrite Z.max_r by lia.
  replace ((Z.of_nat R + Z.of_nat R - 1) / Z.of_nat R)%Z with 1%Z
    by (apply Z.div_unique with (r := (Z.of_nat R - 1)%Z); lia).
  lia.
Qed.

(** ** Examples and refutations *)
Definition ex_img (k : nat) : image nat := {| i_rows := 5; i_cols := 2; i_dtype := 0; i_px := fun r c => 100 * k + 10 * r + c |}.
Definition ex_med (l : list nat) : nat := nth (length l / 2) l 0.
Example C15_ex : (* two images, five rows in sections of two rows: 40 bytes hold two rows of both *)
  match computer_new nat false (fun _ _ _ => 7) 2 5 2 4 0 40 with
  | Some m0 => match append_all nat m0 [ex_img 1; ex_img 2] with
               | Some (OnDisk s as m) => d_nsec s = 3 /\ d_secrows s = 2 /\
                   match computer_evaluate nat 0 ex_med m with
                   | Some (o, m') => i_px o 4 1 = 241 /\ computer_evaluate nat 0 ex_med m' = None
                   | None => False end
               | _ => False end
  | None => False end.
Proof. vm_compute. repeat split; reflexivity. Qed.
Example C16_ex_default : exists m, computer_new nat false (fun _ _ _ => 7) 5 5 2 4 0 0 = Some m /\
  append_all nat m (map ex_img [1;2;3;4;5]) <> None.
Proof. eexists; split; [reflexivity|]. vm_compute. discriminate. Qed.

(** "A computer created for N frames accepts N images" fails. *)
Theorem C16_accepts_n_refuted : exists n R C itemsize buffer imgs m0,
  computer_new nat false (fun _ _ _ => 0) n R C itemsize 0 buffer = Some m0 /\
  Forall (fits R C 0) imgs /\ length imgs = n /\ append_all nat m0 imgs = None.
Proof.
  exists 2, 5, 2, 4, 80%Z, [ex_img 1; ex_img 2]. eexists. split; [reflexivity|].
  split; [repeat constructor|]. split; [reflexivity|]. vm_compute. reflexivity.
Qed.
(** the same with the default buffer, when there are fewer rows than frames *)
Theorem C16_accepts_n_default_refuted : exists n R C itemsize imgs m0,
  computer_new nat false (fun _ _ _ => 0) n R C itemsize 0 0 = Some m0 /\
  Forall (fits R C 0) imgs /\ length imgs = n /\ append_all nat m0 imgs = None.
Proof.
  exists 6, 5, 2, 4, (map ex_img [1;2;3;4;5;6]). eexists. split; [reflexivity|].
  split; [repeat constructor|]. split; [reflexivity|]. vm_compute. reflexivity.
Qed.
(** "and rejects the (N+1)-th" fails. *)
Theorem C16_rejects_extra_refuted : exists n R C itemsize imgs m0,
  computer_new nat false (fun _ _ _ => 0) n R C itemsize 0 0 = Some m0 /\
  Forall (fits R C 0) imgs /\ length imgs = n + 1 /\ append_all nat m0 imgs <> None.
Proof.
  exists 2, 5, 2, 4, (map ex_img [1;2;3]). eexists. split; [reflexivity|].
  split; [repeat constructor|]. split; [reflexivity|]. vm_compute. discriminate.
Qed.

Print Assumptions C15_disk_median_of_appended.
Print Assumptions C15_disk_equals_memory.
Print Assumptions C15_sections.
Print Assumptions C15_used_once.
Print Assumptions C16_acceptance_limit.
Print Assumptions C16_default_buffer.
Print Assumptions C16_large_buffer_accepts_one.
Print Assumptions C16_accepts_n_refuted.
Print Assumptions C16_accepts_n_default_refuted.
Print Assumptions C16_rejects_extra_refuted.
