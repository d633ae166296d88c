(** What large-event flagging should do, stated without the loops of the code. *)
From Verif Require Import Base JumpModel SnowModel.

Section Spec.
  Variable fo : FOps.
  Variable P : snow fo.
  Variable rnd : fo -> Z.
  Variable disk : Z -> Z -> fo -> Z -> Z -> bool.
  Variable sat_regions jump_regions : img bool -> list (ellipse fo).
  Variable inside : fo * fo -> ellipse fo -> bool.
  Variables nints ng nr nc : nat.

  (** the ellipse drawn on the whole image, no subimage *)
  Definition covers (e : ellipse fo) (h : Z * Z) : img bool := fun r c =>
    negb (Z.eqb (fst h) 0) && negb (Z.eqb (snd h) 0)
    && disk (snd h) (fst h) (e_angle e) (Z.of_nat r - rnd (e_row e)) (Z.of_nat c - rnd (e_col e)).

  (** regions that become saturated at group [g], are saturated anew in the next group, or carry jumps *)
  Definition became_sat (gdq : arr4 N) (i g : nat) : list (ellipse fo) :=
    sat_regions (fun r c => has (gdq i g r c) (s_sat P) && negb (has (gdq i (g - 1) r c) (s_sat P))).
  Definition will_sat (gdq : arr4 N) (i g : nat) : list (ellipse fo) :=
    if Nat.ltb (g + 1) ng then became_sat gdq i (g + 1) else [].
  Definition jump_areas (gdq : arr4 N) (i g : nat) : list (ellipse fo) :=
    jump_regions (fun r c => has (gdq i g r c) (s_jump P)).
  (** a jump region is a snowball if nothing more is required, if it is near the edge, or if a region
      that saturates now or in the next group has its centre inside *)
  Definition snowball (gdq : arr4 N) (i g : nat) (e : ellipse fo) : bool :=
    negb (s_required P) || near_edge fo P nr e
    || existsb (fun s => inside (e_col s, e_row s) e) (became_sat gdq i g ++ will_sat gdq i g).
  (** pixels that are made saturated from group [g] on *)
  Definition grown (gdq : arr4 N) (i g r c : nat) : bool :=
    s_required P && existsb (fun e => big_core fo P e && covers e (sat_axes fo P rnd e) r c) (became_sat gdq i g).
  (** pixels inside an expanded snowball *)
  Definition hit (gdq : arr4 N) (i g r c : nat) : bool :=
    existsb (fun e => snowball gdq i g e && covers e (compute_axes fo P rnd e (s_expand P)) r c) (jump_areas gdq i g).
  (** pixels of the saturated cores *)
  Definition core (gdq : arr4 N) (i g r c : nat) : bool :=
    s_required P && existsb (fun e => big_core fo P e && covers e (half fo rnd (e_h e), half fo rnd (e_w e)) r c) (became_sat gdq i g).

  (** what examining group [g] of integration [i] does to one word *)
  Definition mark (gdq : arr4 N) (i g : nat) : arr4 N := fun i' k r c =>
    let w := if Nat.eqb i' i && Nat.leb g k && Nat.ltb k ng && grown gdq i g r c then s_sat P else gdq i' k r c in
    if Nat.eqb i' i && Nat.eqb k g && hit gdq i g r c && negb (has w (s_sat P)) then N.lor w (s_jump P) else w.
  (** groups 1..n of integration [i], then integrations 0..n-1 *)
  Fixpoint groups (n : nat) (gdq : arr4 N) (i : nat) : arr4 N :=
    match n with 0 => gdq | S m => mark (groups m gdq i) i n end.
  Fixpoint ints (n : nat) (gdq : arr4 N) : arr4 N :=
    match n with 0 => gdq | S m => groups (ng - 1) (ints m gdq) m end.
  (** the DQ array at the moment group [g] of integration [i] is examined *)
  Definition before (gdq : arr4 N) (i g : nat) : arr4 N := groups (g - 1) (ints i gdq) i.
  (** pixel in the core of some event of integration [i] *)
  Definition was_core (gdq : arr4 N) (i r c : nat) : bool :=
    existsb (fun g => core (before gdq i g) i g r c) (seq 1 (ng - 1)).
  (** groups 1 .. k-1 of every integration but the first *)
  Definition persisted (i g : nat) : bool :=
    s_mask_next P && Nat.ltb 0 i && Nat.ltb i nints && Nat.ltb 0 g && Nat.ltb g ng && Z.ltb (Z.of_nat g) (s_persist P).
End Spec.

(** The two region finders look at the pixels of the frame only; an ellipse lies within its larger
    radius; no two regions of an image give equal ellipses. *)
Definition looks_at_frame {fo} (nr nc : nat) (f : img bool -> list (ellipse fo)) : Prop :=
  forall p q, (forall r c, r < nr -> c < nc -> p r c = q r c) -> f p = f q.
Definition within_radius {fo : FOps} (disk : Z -> Z -> fo -> Z -> Z -> bool) : Prop :=
  forall a b t x y, disk a b t x y = true -> (Z.abs x <= Z.max a b /\ Z.abs y <= Z.max a b)%Z.
(** two ellipses with the same five numbers *)
Definition same_numbers {fo : FOps} (a b : ellipse fo) : Prop :=
  feq fo (e_col a) (e_col b) = true /\ feq fo (e_row a) (e_row b) = true /\ feq fo (e_h a) (e_h b) = true /\ feq fo (e_w a) (e_w b) = true /\ feq fo (e_angle a) (e_angle b) = true.
Definition no_twins (fo : FOps) (f : img bool -> list (ellipse fo)) : Prop :=
  forall p e e', In e (f p) -> In e' (f p) -> same_numbers e e' -> e = e'.
