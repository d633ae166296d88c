(** Specifications for resampling bookkeeping and variances. *)
From Verif Require Import Base RBase RNBase ResModel.
From Coq Require Import Reals.
Local Open Scope R_scope.

(** the models that are the first of their group *)
Definition firsts {fo} (l : list (rmodel fo)) : list (rmodel fo) :=
  map snd (filter (fun im => negb (existsb (fun m => Nat.eqb (m_group _ m) (m_group _ (snd im))) (firstn (fst im) l))) (combine (seq 0 (length l)) l)).
(** a model add_model accepts: complete, 2-D and, when variances are combined, with what the weight needs *)
Definition accepted {fo} (c : rcfg fo) (m : rmodel fo) : Prop :=
  m_keys _ m = true /\ m_dim2 _ m = true /\
  (c_var _ c = true -> match c_wt _ c with Ivm => In 0%nat (c_names _ c) /\ m_var _ m 0 <> None | Exptime => m_meas _ m <> None \/ m_exp _ m <> None end).
Definition orz (o : option R) : R := match o with Some x => x | None => 0 end.
Definition least (x : R) (l : list R) : Prop := In x l /\ forall y, In y l -> x <= y.
Definition largest (x : R) (l : list R) : Prop := In x l /\ forall y, In y l -> y <= x.
(** all models of one group carry the same times *)
Definition consistent {fo} (l : list (rmodel fo)) : Prop := forall m m', In m l -> In m' l -> m_group _ m = m_group _ m' ->
  m_start _ m = m_start _ m' /\ m_end _ m = m_end _ m' /\ m_exp _ m = m_exp _ m' /\ m_meas _ m = m_meas _ m' /\ m_dur _ m = m_dur _ m'.

(** *** combined variances, exact numbers with a missing value *)
(** the weight of a model at an output pixel *)
Definition wgt (c : rcfg RN) (m : rmodel RN) (p : nat) : R :=
  match c_wt _ c with
  | Ivm => match m_var _ m 0 with Some a => match a p with Some x => if Rltb 0 x then / x else 0 | None => 0 end | None => 0 end
  | Exptime => match m_meas _ m with Some (Some t) => t | Some None => 0 | None => match m_exp _ m with Some (Some t) => t | _ => 0 end end
  end.
(** what a model contributes to variance [n] at a pixel: weight and variance, when the variance is a non-negative number and the weight positive *)
Definition contrib (c : rcfg RN) (n p : nat) (m : rmodel RN) : list (R * R) :=
  match m_var _ m n with
  | Some a => match a p with Some v => if Rle_dec 0 v then if Rlt_dec 0 (wgt c m p) then [(wgt c m p, v)] else [] else [] | None => [] end
  | None => []
  end.
Definition combined (sc : R) (l : list (R * R)) : option R :=
  match l with [] => None | _ => Some (sc * Rsum (map (fun wv => fst wv * fst wv * snd wv) l) / (Rsum (map fst l) * Rsum (map fst l))) end.
(** the scale of variances: imaging output 1/r^2, spectral output r, 1 when there is no ratio *)
Definition vscale (c : rcfg RN) (r : option R) : R := match r with None => 1 | Some r => if c_imaging _ c then / (r * r) else r end.
(** the ratio a run ends with: the one given, else the first one that could be determined *)
Fixpoint first_some {A B} (f : A -> option B) (l : list A) : option B := match l with [] => None | x :: l => match f x with Some y => Some y | None => first_some f l end end.
