(** Theorems about the caller's side of the Casertano+22 fit (C110). *)
From Verif Require Import Base BaseLemmas FLaws Cas22Model Cas22Spec Cas22Proofs Cas22Props CwModel.
From Coq Require Import Reals SpecFloat.
Local Open Scope nat_scope.

(** the read noise pixel [p] is to be fitted with, from what the caller gave: a number for all, one number per column, or an image *)
Definition noise_of (fo : FOps) (rn : noise fo) (s : list nat) (p : nat) : fo :=
  match rn with
  | rn_num _ x => fmul fo x (fone fo)
  | rn_vec _ l => fmul fo (nth (p mod last s 1) l (fzero fo)) (fone fo)
  | rn_img _ a => nd_at a p
  end.
Definition fitting_noise (fo : FOps) (rn : noise fo) (s : list nat) : Prop :=
  match rn with rn_num _ _ => True | rn_vec _ l => length l = last s 1 | rn_img _ a => nd_shape a = s end.
(** the pixel as an image of its own *)
Definition ramp_of {A} (n np p : nat) (a : nat -> A) : nd A := {| nd_shape := [n; 1]; nd_at := fun k => a (k * np + p) |}.
Definition one_noise {fo : FOps} (x : fo) : noise fo := rn_img fo {| nd_shape := [1]; nd_at := fun _ => x |}.
Lemma last_rev {A} (s : list A) c d r : rev s = c :: r -> last s d = c.
Proof. intro E. apply (f_equal (@rev A)) in E. rewrite rev_involutive in E. subst s. cbn [rev]. apply last_last. Qed.
Lemma expand_fitting (fo : FOps) rn s : s <> [] -> fitting_noise fo rn s -> exists e, expand_noise fo rn s = Some (size s, e) /\ forall p, e p = noise_of fo rn s p.
Proof.
  intros S H. destruct rn as [x|l|a]; cbn [expand_noise noise_of fitting_noise] in *; [eexists; split; reflexivity| |].
  - destruct (rev s) as [|c r] eqn:E. { apply (f_equal (@rev nat)) in E. rewrite rev_involutive in E. contradiction. }
    rewrite (last_rev s c 1 r E) in H |- *. rewrite H, Nat.eqb_refl. eexists. split; reflexivity.
  - rewrite H. eexists. split; reflexivity.
Qed.
Section Pixelwise.
  Variables (fo : FOps) (L : FLaws fo) (HN : fisnan fo (fnan fo) = true) (pow : fo -> fo -> fo) (lg : fo -> fo).
  Notation cas := (casertano fo pow lg).
  (** An array of resultants of any number of axes: every pixel's rate, variances and DQ are those it gets as an image of its own. *)
  Theorem C110_pixelwise : forall unit res dq rn rt pattern use_jump ic cc b0 n s,
    nd_shape res = n :: s -> s <> [] -> fitting_noise fo rn s -> n = length pattern -> (use_jump = true -> n <> 0) ->
    exists o, cas unit res dq rn rt pattern use_jump ic cc b0 = Some o /\ nd_shape (o_params fo o) = s ++ [2] /\ nd_shape (o_vars fo o) = s ++ [3] /\ nd_shape (o_dq fo o) = nd_shape res /\
    forall p b, p < size s -> exists o1,
      cas unit (ramp_of n (size s) p (nd_at res)) (ramp_of n (size s) p (nd_at dq)) (one_noise (noise_of fo rn s p)) rt pattern use_jump ic cc b = Some o1 /\
      (forall j, j < 2 -> nd_at (o_params fo o) (2 * p + j) = nd_at (o_params fo o1) j) /\ (forall j, j < 3 -> nd_at (o_vars fo o) (3 * p + j) = nd_at (o_vars fo o1) j) /\
      (forall i, i < n -> nd_at (o_dq fo o) (i * size s + p) = nd_at (o_dq fo o1) i) /\ nd_at (o_params fo o) (2 * p) = fzero fo.
  Proof.
    intros unit res dq rn rt pattern use_jump ic cc b0 n s Sh Ne Fn Ln Uj. unfold casertano. rewrite Sh. destruct (expand_fitting fo rn s Ne Fn) as (e & E & En). rewrite E. cbn [bind fst snd].
    destruct s as [|c0 s0]; [contradiction|]. set (s := c0 :: s0) in *. rewrite Nat.ltb_irrefl. set (icv := match ic with Some x => x | None => _ end). set (ccv := match cc with Some x => x | None => _ end).
    match goal with |- context [fit_ramps fo pow lg use_jump icv ccv rt pattern n (size s) ?y ?d e b0] => destruct (C65_pixels_independent fo L HN pow lg use_jump icv ccv rt pattern n (size s) y d e b0 Ln Uj) as (outs & F & Len & P) end.
    rewrite F. cbn [bind]. eexists. split; [reflexivity|]. cbn [o_params o_vars o_dq nd_shape nd_at]. split; [reflexivity|]. split; [reflexivity|]. split; [reflexivity|].
    intros p b Hp. cbn [ramp_of nd_shape one_noise expand_noise bind fst snd size fold_right nd_at]. cbn [Nat.mul Nat.add Nat.ltb Nat.leb].
    match goal with |- context [fit_ramps fo pow lg use_jump icv ccv rt pattern n 1 ?y ?d ?e1 b] => destruct (C65_pixels_independent fo L HN pow lg use_jump icv ccv rt pattern n 1 y d e1 b Ln Uj) as (outs1 & F1 & Len1 & P1) end.
    rewrite F1. cbn [bind]. eexists. split; [reflexivity|]. cbn [o_params o_vars o_dq nd_at].
    destruct (P p b Hp) as (out & b' & A & B). destruct (P1 0 b ltac:(lia)) as (out1 & b1' & A1 & B1). cbv beta in A, A1.
    assert (X : out1 = out).
    { assert (Q : forall y y' d d' r r' , (forall i, y i = y' i) -> (forall i, d i = d' i) -> r = r' -> fit_jumps fo pow lg use_jump icv ccv (fun i => t_bar_of fo rt (nth i pattern [])) (fun i => tau_of fo rt (nth i pattern [])) (fun i => length (nth i pattern [])) n y d r b
        = fit_jumps fo pow lg use_jump icv ccv (fun i => t_bar_of fo rt (nth i pattern [])) (fun i => tau_of fo rt (nth i pattern [])) (fun i => length (nth i pattern [])) n y' d' r' b).
      { intros y y' d d' r r' Hy Hd ->. apply FunctionalExtensionality.functional_extensionality in Hy. apply FunctionalExtensionality.functional_extensionality in Hd. subst. reflexivity. }
      erewrite Q in A1; [rewrite A in A1; injection A1 as <- _; reflexivity| | |].
      - intro i. cbv beta. rewrite Nat.add_0_r, Nat.mul_1_r. reflexivity.
      - intro i. cbv beta. rewrite Nat.add_0_r, Nat.mul_1_r. reflexivity.
      - symmetry. apply En. }
    subst out1. apply (nth_error_nth _ _ (zrow fo)) in B. apply (nth_error_nth _ _ (zrow fo)) in B1.
    split; [|split; [|split]].
    - intros j J. unfold param_at. replace (p + (p + 0) + j) with (j + p * 2) by lia. rewrite Nat.mod_add, Nat.div_add, (Nat.div_small j 2) by lia. rewrite (Nat.mod_small j 2) by lia. cbn [Nat.add]. rewrite B, B1. reflexivity.
    - intros j J. unfold var_at. replace (p + (p + (p + 0)) + j) with (j + p * 3) by lia. rewrite Nat.mod_add, Nat.div_add, (Nat.div_small j 3) by lia. rewrite (Nat.mod_small j 3) by lia. cbn [Nat.add]. rewrite B, B1. reflexivity.
    - intros i I. unfold dq_at. assert (S0 : size s <> 0) by lia. rewrite (Nat.add_comm (i * size s) p), Nat.mod_add, Nat.div_add, (Nat.div_small p), (Nat.mod_small p) by lia. cbn [Nat.add]. rewrite B, Nat.mod_1_r, Nat.div_1_r, B1. reflexivity.
    - unfold param_at. replace (p + (p + 0)) with (p * 2) by lia. rewrite Nat.mod_mul by lia. reflexivity.
  Qed.
  (** a number or a number per column *)
  Theorem C110_noise : forall unit res dq rt pattern use_jump ic cc b0 n s l, nd_shape res = n :: s -> s <> [] -> length l = last s 1 ->
    cas unit res dq (rn_vec fo l) rt pattern use_jump ic cc b0 =
    cas unit res dq (rn_img fo {| nd_shape := s; nd_at := fun p => fmul fo (nth (p mod last s 1) l (fzero fo)) (fone fo) |}) rt pattern use_jump ic cc b0.
  Proof.
    intros unit res dq rt pattern use_jump ic cc b0 n s l Sh Ne Fn. unfold casertano. rewrite Sh. cbn [expand_noise nd_shape nd_at bind fst snd].
    destruct (rev s) as [|c r] eqn:E. { apply (f_equal (@rev nat)) in E. rewrite rev_involutive in E. contradiction. }
    rewrite (last_rev s c 1 r E) in Fn |- *. rewrite Fn, Nat.eqb_refl. reflexivity.
  Qed.
  (** the resultants are converted to electrons, the rate is not converted back: it comes with the resultants' unit *)
  Theorem C110_unit : forall k res dq rn rt pattern use_jump ic cc b0 o, cas (Some k) res dq rn rt pattern use_jump ic cc b0 = Some o ->
    o_unit fo o = Some k /\ exists o', cas None {| nd_shape := nd_shape res; nd_at := fun i => fmul fo (nd_at res i) k |} dq rn rt pattern use_jump ic cc b0 = Some o' /\ o_params fo o = o_params fo o' /\ o_vars fo o = o_vars fo o'.
  Proof.
    intros k res dq rn rt pattern use_jump ic cc b0 o H. unfold casertano in H |- *. cbn [nd_shape nd_at]. destruct (nd_shape res) as [|n s]; [discriminate|]. destruct (expand_noise fo rn s) as [e|]; [cbn [bind] in *|discriminate].
    match type of H with (if ?c then _ else _) = _ => destruct c; [discriminate|] end. match type of H with bind ?f _ = _ => destruct f as [outs|]; [cbn [bind] in *|discriminate] end.
    injection H as <-. split; [reflexivity|]. eexists. split; [reflexivity|]. split; reflexivity.
  Qed.
  (** a single ramp, shape (n,): what comes back is one number, the intercept, which is zero *)
  Theorem C110_single_ramp : forall unit res dq rn rt pattern use_jump ic cc b0 n o, nd_shape res = [n] -> cas unit res dq rn rt pattern use_jump ic cc b0 = Some o ->
    nd_shape (o_params fo o) = [] /\ nd_at (o_params fo o) 0 = fzero fo /\ nd_shape (o_vars fo o) = [].
  Proof.
    intros unit res dq rn rt pattern use_jump ic cc b0 n o Sh H. unfold casertano in H. rewrite Sh in H. destruct (expand_noise fo rn []) as [e|]; [cbn [bind] in H|discriminate].
    match type of H with (if ?c then _ else _) = _ => destruct c; [discriminate|] end. match type of H with bind ?f _ = _ => destruct f as [outs|]; [cbn [bind] in H|discriminate] end.
    injection H as <-. split; [reflexivity|]. split; reflexivity.
  Qed.
End Pixelwise.
Print Assumptions C110_pixelwise. Print Assumptions C110_noise. Print Assumptions C110_unit. Print Assumptions C110_single_ramp.
(** DQ words of 32 bits, signed or not, keep being zero or not *)
Theorem C110_dq_words : forall z, (- 2 ^ 31 <= z < 2 ^ 32)%Z -> (int32 z = 0%Z <-> z = 0%Z).
Proof.
  intros z H. unfold int32. change (2 ^ 31)%Z with 2147483648%Z in *. change (2 ^ 32)%Z with 4294967296%Z in *. split; [|intros ->; reflexivity]. intro E.
  pose proof (Z.div_mod (z + 2147483648) 4294967296 ltac:(lia)) as D. pose proof (Z.mod_pos_bound (z + 2147483648) 4294967296 ltac:(lia)). lia.
Qed.
Print Assumptions C110_dq_words.
(** witnesses: three resultants of one read each, ten electrons apart *)
Definition w_pat : list (list Z) := [[1]; [2]; [3]]%Z.
Definition w_res (shape : list nat) : nd B64 := {| nd_shape := shape; nd_at := fun k => fofZ B64 (nth k [10; 20; 30]%Z 0%Z) |}.
Definition w_dq : nd Z := {| nd_shape := [3]; nd_at := fun _ => 0%Z |}.
Definition w_fit (unit : option B64) (shape : list nat) := casertano B64 (fun _ _ => fone B64) (fun _ => fzero B64) unit (w_res shape) w_dq (rn_num B64 (fofZ B64 5)) (fofZ B64 1) w_pat false None None (fun _ _ => (fzero B64, fzero B64)).
Definition w_params (o : option (wout B64)) : option (list spec_float) := option_map (fun o => map (nd_at (o_params B64 o)) (seq 0 (size (nd_shape (o_params B64 o))))) o.
(** a ramp on its own loses its rate: shape (n, 1) gives [0; rate], shape (n,) gives the number 0 *)
Theorem C110_single_refuted : exists s, w_params (w_fit None [3]) = Some [fzero B64] /\ w_params (w_fit None [3; 1]) = Some [fzero B64; s] /\ feq B64 s (fofZ B64 10) = true.
Proof. exists (S754_finite false 5629499534213120 (-49)). split; [vm_compute; reflexivity|]. split; vm_compute; reflexivity. Qed.
(** resultants in thousands of electrons: the rate is 10 000 electrons, reported as 10 000 thousand electrons *)
Theorem C110_unit_refuted : exists s, option_map (o_unit B64) (w_fit (Some (fofZ B64 1000)) [3; 1]) = Some (Some (fofZ B64 1000)) /\ w_params (w_fit (Some (fofZ B64 1000)) [3; 1]) = Some [fzero B64; s] /\ feq B64 s (fofZ B64 10000) = true.
Proof. exists (S754_finite false 5497558138880000 (-39)). split; [vm_compute; reflexivity|]. split; vm_compute; reflexivity. Qed.
Print Assumptions C110_single_refuted. Print Assumptions C110_unit_refuted.
Example C110_example : let res := {| nd_shape := [3; 1; 2]; nd_at := fun k => fofZ B64 (nth k [10; 5; 20; 5; 30; 5]%Z 0%Z) |} in
  fitting_noise B64 (rn_vec B64 [fofZ B64 5; fofZ B64 7]) [1; 2] /\ size [1; 2] = 2 /\ noise_of B64 (rn_vec B64 [fofZ B64 5; fofZ B64 7]) [1; 2] 1 = fmul B64 (fofZ B64 7) (fone B64) /\
  w_params (casertano B64 (fun _ _ => fone B64) (fun _ => fzero B64) None res w_dq (rn_vec B64 [fofZ B64 5; fofZ B64 7]) (fofZ B64 1) w_pat false None None (fun _ _ => (fzero B64, fzero B64))) <> None.
Proof. cbv zeta. repeat split; vm_compute; discriminate. Qed.
