(** Specifications for sky matching, exact arithmetic unless said otherwise. *)
From Verif Require Import Base RBase SkyModel.
From Coq Require Import Reals.
Local Open Scope R_scope.

(** the sky change of one image: sky and, when subtracting, every pixel; validity *)
Definition image_changed (sub valid : bool) (o : R) (m m' : simg RF) : Prop :=
  g_id m' = g_id m /\ g_mask m' = g_mask m /\ g_valid m' = valid /\ g_sky m' = g_sky m + o /\
  g_px m' = if sub then map (fun p : R => p - o) (g_px m) else g_px m.
Definition item_changed (sub : bool) (o : option R) (t t' : item RF) : Prop :=
  Forall2 (image_changed sub (match o with Some _ => true | None => false end) (match o with Some x => x | None => 0 end)) (members t) (members t').
(** two inputs with usable sky measurements in each other's area *)
Definition usable (r : option R * nat * R) : Prop := (exists s, fst (fst r) = Some s) /\ (0 < snd (fst r))%nat /\ snd r <> 0.
(** a statistic that shifts with the data *)
Definition shifts (stat : nat -> list R -> option (R * nat)) : Prop :=
  forall id l c, stat id (map (fun p => p - c) l) = match stat id l with Some (v, n) => Some (v - c, n) | None => None end.
Definition fresh (items : list (item RF)) : Prop := Forall (fun t : item RF => Forall (fun m : simg RF => g_sky m = 0) (members t)) items.
(** [xs] is a least-squares solution of the equations w x_i - w x_j = f *)
Definition residual2 (eqs : list (nat * nat * R * R)) (x : nat -> R) : R :=
  Rsum (map (fun e : nat * nat * R * R => let '(i, j, w, f) := e in (w * x i - w * x j - f) * (w * x i - w * x j - f)) eqs).
Definition least_squares (eqs : list (nat * nat * R * R)) (xs : list R) : Prop :=
  forall y, residual2 eqs (fun k => nth k xs 0) <= residual2 eqs y.
(** position [u] of a point along the boundary of the pixel rectangle nx by ny, measured counter-clockwise from its lower-left
    corner (-1/2, -1/2) *)
Definition along (nx ny : nat) (p : R * R) (u : R) : Prop :=
  let W := INR nx in let H := INR ny in let '(x, y) := p in
  (y = -1/2 /\ -1/2 <= x <= W - 1/2 /\ u = x + 1/2) \/
  (x = W - 1/2 /\ -1/2 <= y <= H - 1/2 /\ u = W + (y + 1/2)) \/
  (y = H - 1/2 /\ -1/2 <= x <= W - 1/2 /\ u = W + H + (W - 1/2 - x)) \/
  (x = -1/2 /\ -1/2 <= y <= H - 1/2 /\ u = W + H + W + (H - 1/2 - y)).
(** positions of the unmasked pixels inside at least one of the given regions *)
Definition inside (n : nat) (mask : list bool) (regions : list (list bool)) : list nat :=
  filter (fun k => nth k mask false && existsb (fun r => nth k r false) regions) (seq 0 n).
Definition unmasked (n : nat) (mask : list bool) : list nat := filter (fun k => nth k mask false) (seq 0 n).
Definition pick (px : list R) (ks : list nat) : list R := map (fun k => nth k px 0) ks.
