(** What a user expects of dark subtraction, stated on the reference cube. *)
From Verif Require Import Base.
Section Spec.
Context (fo : FOps).
(** Group [g] of a dark integration with groups [arr], continued linearly from its last two
    groups beyond its end. *)
Definition dark_value (arr : list (img fo)) (g r c : nat) : fo :=
  let ng := length arr in
  let z : img fo := fun _ _ => fzero fo in
  if Nat.ltb g ng then nth g arr z r c
  else
    let l := nth (ng - 1) arr z r c in let p := nth (ng - 2) arr z r c in
    fadd fo (fmul fo (fofZ fo (Z.of_nat (g - (ng - 1)))) (fsub fo l p)) l.
Definition clean (x : fo) : fo := if fisnan fo x then fzero fo else x.
(** the dark integration for science integration i *)
Definition int_for (is4d : bool) (nints : nat) (int_start : option nat) (i : nat) : nat :=
  if is4d then
    match int_start with
    | None | Some 1 => Nat.min i (nints - 1)
    | Some _ => nints - 1
    end
  else 0.
(** frames spanned by [ng] groups of [nf] frames with [gap] dropped frames in between *)
Definition frames_spanned (ng nf gap : nat) : Z :=
  (Z.of_nat ng * Z.of_nat nf + (Z.of_nat ng - 1) * Z.of_nat gap)%Z.
(** Planes at hand in a dark of [dng] groups (nframes [dnf], groupgap [dgap]) for a science
    ramp spanning [st] frames: the dark is lengthened by the missing frames plus one gap,
    rounded up to whole dark groups. *)
Definition planes (st : Z) (dng dnf dgap : nat) : nat :=
  let missing := (st - frames_spanned dng dnf dgap)%Z in
  if Z.ltb 0 missing
  then dng + Z.to_nat (- ((- (missing + Z.of_nat dgap)) / (Z.of_nat dnf + Z.of_nat dgap)))
  else dng.
End Spec.
