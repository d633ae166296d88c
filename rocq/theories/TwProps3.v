(** C84 (alignment guards), C85 (reading a user's catalogue), C86 (bounding box filter) *)
From Verif Require Import Base TwModel RBase RNBase.
From Coq Require Import String Ascii Reals Lra.
Import ListNotations.

(** ** C84 *)
Section Guards.
  Variable fo : FOps.
  Variable sqrt2 : fo.
  Context {St : Type}.

  (** relative_align returns exactly when the separation is large enough, the aligner succeeds, and every vertex of every footprint
      moved by less than the limit (NaN counts as too much) *)
  Theorem C84_relative align seps use2dhist searchrad separation tolerance xoffset yoffset (s s' : St) :
    relative_align fo sqrt2 align seps use2dhist searchrad separation tolerance xoffset yoffset s = Ok s' <->
    fle fo separation (fmul fo sqrt2 tolerance) = false /\ align s = Ok s' /\
    forall fp x, In fp (seps s') -> In x fp -> flt fo x (max_corr fo use2dhist searchrad tolerance xoffset yoffset) = true.
  Proof.
    unfold relative_align. destruct (fle fo separation _) eqn:E; [split; [discriminate|intros [H _]; discriminate]|].
    destruct (align s) as [s1|e] eqn:Ea; [|split; [discriminate|intros (_ & H & _); discriminate]].
    set (lim := max_corr _ _ _ _ _ _). assert (Hs : small fo lim (seps s1) = true <-> forall fp x, In fp (seps s1) -> In x fp -> flt fo x lim = true).
    { unfold small. rewrite forallb_forall. split.
      - intros H fp x Hf Hx. specialize (H fp Hf). rewrite forallb_forall in H. now apply H.
      - intros H fp Hf. apply forallb_forall. intros x Hx. now apply (H fp). }
    destruct (small fo lim (seps s1)).
    - split; [intros H; injection H as <-; split; [reflexivity|split; [reflexivity|now apply Hs]]|]. intros (_ & H & _). exact H.
    - split; [discriminate|]. intros (_ & H & Hx). injection H as <-. apply Hs in Hx. discriminate.
  Qed.
  (** a failing guard stops before the aligner; of the aligner's exceptions only the two known ones are renamed *)
  Theorem C84_relative_errors align seps use2dhist searchrad separation tolerance xoffset yoffset (s : St) e :
    relative_align fo sqrt2 align seps use2dhist searchrad separation tolerance xoffset yoffset s = Err e -> e <> Tweakreg ->
    align s = Err e /\ fle fo separation (fmul fo sqrt2 tolerance) = false /\
    e <> Value too_few /\ forall m, e = Runtime m -> String.prefix overflow m = false.
  Proof.
    unfold relative_align. destruct (fle fo separation _) eqn:E; [intros H; injection H as <-; congruence|].
    destruct (align s) as [s1|e1]; [destruct small; [discriminate|intros H; injection H as <-; congruence]|].
    intros H Hne. injection H as <-.
    destruct e1 as [|m|m|]; cbn [translate] in *.
    - exfalso. apply Hne. reflexivity.
    - destruct (String.eqb m too_few) eqn:Em; [now destruct Hne|]. split; [reflexivity|]. split; [reflexivity|].
      split; [intros H; injection H as H; apply String.eqb_neq in Em; contradiction|intros m' Hm'; discriminate].
    - destruct (String.prefix overflow m) eqn:Ep; [now destruct Hne|]. split; [reflexivity|]. split; [reflexivity|].
      split; [discriminate|intros m' Hm'; injection Hm' as <-; assumption].
    - split; [reflexivity|]. split; [reflexivity|]. split; [discriminate|]. intros m Hm; discriminate.
  Qed.
  (** absolute_align: enough reference sources, and the aligner sees one group, without stale reference fits *)
  Theorem C84_absolute {Ref} (refcat : res (list Ref)) align minobj separation tolerance (cs cs' : list (meta * St)) :
    absolute_align fo sqrt2 refcat align minobj separation tolerance cs = Ok cs' ->
    fle fo separation (fmul fo sqrt2 tolerance) = false /\
    exists cat seen, refcat = Ok cat /\ (minobj <= Z.of_nat (List.length cat))%Z /\ align cat seen = Ok cs' /\
      map snd seen = map snd cs /\
      Forall2 (fun m m' => group m' = 987654%Z /\ (fit_status m' = fit_status m \/ fit_status m' = None) /\
                 (forall st, fit_status m' = Some st -> contains "REFERENCE" st = false) /\
                 (forall st, fit_status m = Some st -> contains "REFERENCE" st = false -> fit_status m' = Some st)) (map fst cs) (map fst seen).
  Proof.
    unfold absolute_align. destruct (fle fo separation _) eqn:E; [discriminate|]. destruct refcat as [cat|e]; [|discriminate].
    destruct (Z.ltb_spec (Z.of_nat (List.length cat)) minobj) as [|Hm]; [discriminate|].
    destruct (align cat _) as [x|e] eqn:Ea; [|discriminate]. intros H; injection H as <-. split; [reflexivity|].
    exists cat, (map (fun c => (regroup (fst c), snd c)) cs). split; [reflexivity|]. split; [assumption|]. split; [assumption|].
    split; [now rewrite map_map|]. clear. rewrite map_map. cbn [fst]. induction cs as [|[m s] cs IH]; cbn [map]; constructor; [|assumption].
    cbn [fst]. unfold regroup; cbn [group fit_status]. split; [reflexivity|]. destruct (fit_status m) as [st|].
    - destruct (contains "REFERENCE" st) eqn:Ec.
      + split; [now right|]. split; [discriminate|]. intros st' H; injection H as <-. congruence.
      + split; [now left|]. split; [intros st' H; injection H as <-; assumption|]. intros st' H; injection H as <-. reflexivity.
    - split; [now left|]. split; discriminate.
  Qed.
End Guards.
Print Assumptions C84_relative.
Print Assumptions C84_relative_errors.
Print Assumptions C84_absolute.
Local Open Scope R_scope.
(** the limit: twice the search radius plus tolerance, or twice the larger offset plus tolerance *)
Theorem C84_limit use2dhist searchrad tolerance xoffset yoffset :
  max_corr RF use2dhist searchrad tolerance xoffset yoffset =
  if use2dhist then 2 * (searchrad + tolerance) else 2 * (Rmax (Rabs xoffset) (Rabs yoffset) + tolerance).
Proof.
  unfold max_corr. destruct use2dhist; cbn [RF fmul fadd fofZ fabs flt]; [reflexivity|]. do 2 f_equal.
  destruct (Rltb (Rabs xoffset) (Rabs yoffset)) eqn:E.
  - apply Rltb_spec in E. rewrite Rmax_right; [reflexivity|lra].
  - rewrite Rmax_left; [reflexivity|]. apply Rnot_lt_le. intros H. apply Rltb_spec in H. congruence.
Qed.
Print Assumptions C84_limit.
Example C84_limit_ex : max_corr RF false 9 1 2 (-3) = 2 * (Rmax (Rabs 2) (Rabs (-3)) + 1). Proof. exact (C84_limit false 9 1 2 (-3)). Qed.
Example C84_relative_ex : relative_align RF (14142 / 10000) (fun s : R => Ok (s + 1)) (fun s => [[s; 1]; [2]]) true 2 1 (1/2) 0 0 3 = Ok (3 + 1).
Proof.
  apply C84_relative. cbn [RF fle fmul]. split; [apply Bool.not_true_iff_false; rewrite Rleb_spec; lra|]. split; [reflexivity|].
  intros fp x. cbn. intros Hf Hx. apply Rltb_spec. destruct Hf as [<-|[<-|[]]]; cbn in Hx; destruct Hx as [<-|Hx]; try lra; destruct Hx as [<-|[]]; lra.
Qed.
Example C84_errors_ex : relative_align RF (14142 / 10000) (fun s : R => Err (Value "x")) (fun s => []) true 2 1 (1/2) 0 0 3 = Err (Value "x").
Proof. unfold relative_align. replace (fle RF 1 _) with false; [reflexivity|]. symmetry. cbn. apply Bool.not_true_iff_false. rewrite Rleb_spec. lra. Qed.
Example C84_absolute_ex : absolute_align RF (14142 / 10000) (Ok [tt; tt]) (fun _ c => Ok c) 2 1 (1/2) [({| group := 3; fit_status := Some "REFERENCE"%string |}, tt)]
  = Ok [({| group := 987654; fit_status := None |}, tt)].
Proof. unfold absolute_align. replace (fle RF 1 _) with false; [reflexivity|]. symmetry. cbn. apply Bool.not_true_iff_false. rewrite Rleb_spec. lra. Qed.
(** absolute_align bounds the correction by nothing *)
Theorem C84_absolute_unbounded_refuted : forall lim : R, exists align (cs' : list (meta * R)),
  absolute_align RF (14142 / 10000) (Ok [tt]) align 1 1 (1/2) [({| group := 1; fit_status := None |}, 0)] = Ok cs' /\ Forall (fun c => lim < snd c) cs' /\ cs' <> [].
Proof.
  intros lim. exists (fun _ cs => Ok (map (fun c => (fst c, lim + 1)) cs)), [({| group := 987654; fit_status := None |}, lim + 1)].
  split; [|split; [constructor; [cbn; lra|constructor]|discriminate]]. unfold absolute_align. replace (fle RF 1 _) with false; [reflexivity|].
  symmetry. cbn. apply Bool.not_true_iff_false. rewrite Rleb_spec. lra.
Qed.
Print Assumptions C84_absolute_unbounded_refuted.
Local Close Scope R_scope.

(** ** C86 *)
Theorem C86_bbox (fo : FOps) {A} (xy : A -> fo * fo) cat xmin xmax ymin ymax :
  let out := in_bbox fo xy (Some ((xmin, xmax), (ymin, ymax))) cat in
  (forall r, In r out <-> In r cat /\ fgt fo (fst (xy r)) xmin = true /\ flt fo (fst (xy r)) xmax = true /\
                          fgt fo (snd (xy r)) ymin = true /\ flt fo (snd (xy r)) ymax = true) /\
  (forall p, (forall r, In r cat -> p r = true -> In r out) -> filter p out = filter p cat) /\ in_bbox fo xy None cat = cat.
Proof.
  cbn [in_bbox]. set (q := fun r : A => _). assert (Hq : forall r, q r = true <-> fgt fo (fst (xy r)) xmin = true /\ flt fo (fst (xy r)) xmax = true /\
                          fgt fo (snd (xy r)) ymin = true /\ flt fo (snd (xy r)) ymax = true).
  { intros r. unfold q. destruct (xy r) as [x y]; cbn [fst snd]. rewrite !Bool.andb_true_iff. tauto. }
  split; [intros r; rewrite filter_In, Hq; reflexivity|]. split; [|reflexivity].
  intros p Hp. clearbody q. induction cat as [|r cat IH]; [reflexivity|]. cbn [filter].
  assert (IH' : filter p (filter q cat) = filter p cat).
  { apply IH. intros r' Hr' Hpr. apply filter_In. split; [assumption|]. specialize (Hp r' (or_intror Hr') Hpr). now apply filter_In in Hp. }
  destruct (q r) eqn:E; cbn [filter]; [now rewrite IH'|]. destruct (p r) eqn:Ep; [|assumption].
  specialize (Hp r (or_introl eq_refl) Ep). apply filter_In in Hp. destruct Hp; congruence.
Qed.
Print Assumptions C86_bbox.
Example C86_bbox_ex : in_bbox RN (fun r : option R * option R => r) (Some ((Some 0, Some 2), (Some 0, Some 2)))%R [(None, Some 1%R); (Some 1%R, Some 1%R)]
  = [(Some 1%R, Some 1%R)].
Proof.
  cbn [in_bbox filter]. unfold fgt. cbn. assert (H1 : Rltb 0 1 = true) by (apply Rltb_spec; lra). assert (H2 : Rltb 1 2 = true) by (apply Rltb_spec; lra).
  now rewrite H1, H2.
Qed.

(** ** C85 *)
Inductive kind := KRa | KDec | KSky.
Definition class (n : string) : option kind :=
  if String.eqb (upper n) "RA" then Some KRa else if String.eqb (upper n) "DEC" then Some KDec
  else if String.eqb (lower n) "sky_centroid" then Some KSky else None.
Definition kname (k : kind) : string := match k with KRa => "RA" | KDec => "DEC" | KSky => "sky_centroid" end.
Definition kind_eqb (a b : option kind) : bool :=
  match a, b with Some KRa, Some KRa | Some KDec, Some KDec | Some KSky, Some KSky | None, None => true | _, _ => false end.
Lemma kind_eqb_eq a b : kind_eqb a b = true <-> a = b.
Proof. destruct a as [[]|], b as [[]|]; cbn; split; congruence. Qed.

Section Parse.
  Context {C : Type} (ra_of dec_of : C -> C).
  Notation tab := (list (string * C)).
  (** the columns of a kind, whatever the case of their names; the other columns *)
  Definition cols (k : option kind) (t : tab) : tab := filter (fun c => kind_eqb (class (fst c)) k) t.
  Definition vals (k : kind) (t : tab) : list C := map snd (cols (Some k) t).

  Definition norm (n : string) : string := match class n with Some k => kname k | None => n end.
  Definition nrm (c : string * C) := (norm (fst c), snd c).
  Lemma class_kname k : class (kname k) = Some k. Proof. destruct k; reflexivity. Qed.
  Lemma class_norm n : class (norm n) = class n.
  Proof. unfold norm. destruct (class n) eqn:E; [apply class_kname|assumption]. Qed.
  Lemma norm_norm n : norm (norm n) = norm n.
  Proof. unfold norm at 1. rewrite class_norm. unfold norm. now destruct (class n). Qed.
  Lemma rename_norm (t : tab) n : rename_step t n = rename t n (norm n).
  Proof.
    unfold rename_step, norm, class. destruct (String.eqb_spec (upper n) "RA") as [E|_]; cbn [orb]; [cbn [kname]; now rewrite E|].
    destruct (String.eqb_spec (upper n) "DEC") as [E|_]; [cbn [kname]; now rewrite E|].
    destruct (String.eqb (lower n) "sky_centroid"); [reflexivity|]. unfold rename. now rewrite String.eqb_refl.
  Qed.
  Lemma has_name (t : tab) n : existsb (fun c => String.eqb (fst c) n) t = true <-> In n (map fst t).
  Proof.
    rewrite existsb_exists, in_map_iff. split; intros (c & H1 & H2); exists c.
    - apply String.eqb_eq in H2. now split.
    - split; [assumption|now apply String.eqb_eq].
  Qed.
  Lemma rename_other (t : tab) old new : ~ In old (map fst t) -> map (fun c => if String.eqb (fst c) old then (new, snd c) else c) t = t.
  Proof.
    induction t as [|c t IH]; cbn; [reflexivity|]. intros H. destruct (String.eqb_spec (fst c) old) as [E|_]; [exfalso; apply H; now left|]. rewrite IH; tauto.
  Qed.
  Lemma foldM_rename (rest done : tab) : NoDup (map fst (map nrm done ++ rest)) ->
    match foldM rename_step (map fst rest) (map nrm done ++ rest) with
    | Some t' => t' = map nrm (done ++ rest) /\ NoDup (map fst t')
    | None => ~ NoDup (map norm (map fst (done ++ rest)))
    end.
  Proof.
    revert done. induction rest as [|[n v] rest IH]; intros done Hn; cbn [map foldM].
    - rewrite !app_nil_r in *. now split.
    - rewrite rename_norm. unfold rename. cbn [fst].
      assert (Hstep : forall (E : NoDup (map fst (map nrm (done ++ [(n, v)]) ++ rest))),
        match foldM rename_step (map fst rest) (map nrm (done ++ [(n, v)]) ++ rest) with
        | Some t' => t' = map nrm (done ++ (n, v) :: rest) /\ NoDup (map fst t')
        | None => ~ NoDup (map norm (map fst (done ++ (n, v) :: rest))) end).
      { intros E. specialize (IH (done ++ [(n, v)]) E). now rewrite <- app_assoc in IH. }
      assert (Hshape : forall m, map nrm done ++ (m, v) :: rest = (map nrm done ++ [(m, v)]) ++ rest) by (intros; now rewrite <- app_assoc).
      destruct (String.eqb_spec n (norm n)) as [En|En].
      + assert (Eq : map nrm done ++ (n, v) :: rest = map nrm (done ++ [(n, v)]) ++ rest).
        { rewrite map_app. change (map nrm [(n, v)]) with [(norm n, v)]. rewrite <- En. apply Hshape. }
        rewrite Eq in *. now apply Hstep.
      + destruct (existsb _ _) eqn:Ex.
        * apply has_name in Ex. rewrite !map_app in *. cbn [map fst] in *. intros Hnd.
          apply NoDup_remove_2 in Hnd. apply Hnd. apply in_app_iff in Ex as [Ex|[Ex|Ex]]; [|congruence|].
          -- apply in_app_iff. left. rewrite map_map in Ex. cbn [nrm fst] in Ex. now rewrite map_map.
          -- apply in_app_iff. right. apply in_map_iff. exists (norm n). split; [apply norm_norm|assumption].
        * assert (Hno : ~ In (norm n) (map fst (map nrm done ++ (n, v) :: rest))).
          { intros H. apply has_name in H. congruence. }
          rewrite map_app. cbn [map fst]. rewrite String.eqb_refl. cbn [snd].
          rewrite map_app in Hn, Hno. cbn [map fst] in Hn, Hno. pose proof (NoDup_remove_2 _ _ _ Hn) as Hn2. pose proof (NoDup_remove_1 _ _ _ Hn) as Hn1.
          rewrite in_app_iff in Hn2.
          rewrite (rename_other (map nrm done)), (rename_other rest) by tauto.
          assert (Eq : map nrm done ++ (norm n, v) :: rest = map nrm (done ++ [(n, v)]) ++ rest).
          { rewrite map_app. change (map nrm [(n, v)]) with [(norm n, v)]. apply Hshape. }
          rewrite Eq. apply Hstep. rewrite <- Eq, map_app. cbn [map fst]. apply NoDup_Add with (l := map fst (map nrm done) ++ map fst rest) (a := norm n).
          -- apply Add_app.
          -- split; [assumption|]. intros H. apply Hno. apply in_app_iff in H. apply in_app_iff. cbn. tauto.
  Qed.

  (** canonical tables: names as in [kname] *)
  Lemma cols_nrm k t : map snd (cols k (map nrm t)) = map snd (cols k t).
  Proof.
    unfold cols. induction t as [|c t IH]; cbn [map filter]; [reflexivity|]. cbn [nrm fst]. rewrite class_norm.
    destruct (kind_eqb (class (fst c)) k); cbn [map]; rewrite IH; reflexivity.
  Qed.
  Lemma cols_none_nrm t : cols None (map nrm t) = cols None t.
  Proof.
    unfold cols. induction t as [|[n v] t IH]; cbn [map filter]; [reflexivity|]. cbn [nrm fst snd]. rewrite class_norm.
    destruct (class n) as [[]|] eqn:E; cbn [kind_eqb]; rewrite IH; try reflexivity. unfold nrm; cbn [fst snd]. unfold norm. rewrite E. reflexivity.
  Qed.
  Definition canon (t : tab) : Prop := forall c k, In c t -> class (fst c) = Some k -> fst c = kname k.
  Lemma canon_nrm t : canon (map nrm t).
  Proof.
    intros c k Hc. apply in_map_iff in Hc as (d & <- & _). cbn [nrm fst]. rewrite class_norm. unfold norm. intros ->. reflexivity.
  Qed.
  Lemma canon_name t c k : canon t -> In c t -> String.eqb (fst c) (kname k) = kind_eqb (class (fst c)) (Some k).
  Proof.
    intros Ht Hc. destruct (String.eqb_spec (fst c) (kname k)) as [E|E].
    - rewrite E, class_kname. symmetry. now apply kind_eqb_eq.
    - symmetry. apply Bool.not_true_iff_false. rewrite kind_eqb_eq. intros E'. now apply E, Ht.
  Qed.
  Lemma occ_cols t k : canon t -> occurrences t (kname k) = List.length (vals k t).
  Proof.
    intros Ht. unfold occurrences, vals. rewrite map_length. unfold cols. f_equal. apply filter_ext_in. intros c Hc. now apply (canon_name t).
  Qed.
  Lemma nodup_filter (t : tab) n : NoDup (map fst t) -> (List.length (filter (fun c => String.eqb (fst c) n) t) <= 1)%nat.
  Proof.
    induction t as [|c t IH]; cbn; [lia|]. intros H. inversion H as [|? ? H1 H2]; subst. destruct (String.eqb_spec (fst c) n) as [E|E]; [|auto].
    cbn [List.length]. replace (filter _ t) with (@nil (string * C)); [cbn; lia|]. symmetry. clear IH H H2. induction t as [|d t IH]; [reflexivity|].
    cbn in *. destruct (String.eqb_spec (fst d) n) as [E'|_]; [exfalso; apply H1; left; congruence|]. apply IH. tauto.
  Qed.
  Lemma lookup_vals t k : canon t -> lookup (kname k) t = hd_error (vals k t).
  Proof.
    intros Ht. unfold lookup, vals, cols. induction t as [|c t IH]; [reflexivity|]. cbn [find filter].
    rewrite <- (canon_name _ c k Ht (or_introl eq_refl)).
    destruct (String.eqb (fst c) (kname k)); [reflexivity|]. apply IH. intros d j Hd. apply Ht. now right.
  Qed.
  Lemma canon_sub t t' : incl t' t -> canon t -> canon t'.
  Proof. intros H Ht c k Hc. apply Ht. now apply H. Qed.
  Lemma remove_cols t k k' : canon t -> cols k' (remove t (kname k)) = if kind_eqb k' (Some k) then [] else cols k' t.
  Proof.
    intros Ht. unfold cols, remove. induction t as [|c t IH]; [now destruct (kind_eqb k' _)|]. cbn [filter].
    rewrite (canon_name _ c k Ht (or_introl eq_refl)). assert (Ht' : canon t) by (intros d j Hd; apply Ht; now right). specialize (IH Ht').
    destruct (kind_eqb (class (fst c)) (Some k)) eqn:E; cbn [negb filter].
    - rewrite IH. destruct (kind_eqb k' (Some k)) eqn:E'; [reflexivity|]. apply kind_eqb_eq in E. rewrite E.
      destruct (kind_eqb (Some k) k') eqn:E2; [|reflexivity]. apply kind_eqb_eq in E2. subst k'.
      assert (kind_eqb (Some k) (Some k) = true) by now apply kind_eqb_eq. congruence.
    - rewrite IH. destruct (kind_eqb k' (Some k)) eqn:E'.
      + apply kind_eqb_eq in E'. subst k'. now rewrite E.
      + reflexivity.
  Qed.
  Lemma remove_canon t n : canon t -> canon (remove t n).
  Proof. apply canon_sub. intros c Hc. now apply filter_In in Hc. Qed.
  Lemma set_canon t k v : canon t -> canon (set_col t (kname k) v).
  Proof.
    intros Ht. unfold set_col. destruct existsb.
    - intros c j Hc. apply in_map_iff in Hc as (d & <- & Hd). destruct (String.eqb (fst d) (kname k)); cbn [fst].
      + rewrite class_kname. now intros [= ->].
      + now apply Ht.
    - intros c j Hc. apply in_app_iff in Hc as [Hc|[<-|[]]]; [now apply Ht|]. cbn [fst]. rewrite class_kname. now intros [= ->].
  Qed.
  Lemma set_cols_other t k v k' : canon t -> k' <> Some k -> cols k' (set_col t (kname k) v) = cols k' t.
  Proof.
    intros Ht Hk. assert (Hkk : kind_eqb (Some k) k' = false) by (apply Bool.not_true_iff_false; rewrite kind_eqb_eq; congruence).
    unfold set_col. destruct existsb; unfold cols.
    - induction t as [|c t IH]; [reflexivity|]. cbn [map filter]. assert (Ht' : canon t) by (intros d j Hd; apply Ht; now right). rewrite (IH Ht').
      destruct (String.eqb_spec (fst c) (kname k)) as [E|E]; cbn [fst]; [|reflexivity]. rewrite E, class_kname, Hkk. reflexivity.
    - rewrite filter_app. cbn [filter fst]. rewrite class_kname, Hkk. apply app_nil_r.
  Qed.
  Lemma set_vals t k v : canon t -> (List.length (vals k t) <= 1)%nat -> vals k (set_col t (kname k) v) = [v].
  Proof.
    intros Ht Hl. unfold set_col. destruct existsb eqn:E; unfold vals in *; unfold cols in *.
    - assert (Hone : exists c, filter (fun c => kind_eqb (class (fst c)) (Some k)) t = [c]).
      { apply existsb_exists in E as (c & Hc & E). rewrite (canon_name t c k Ht Hc) in E.
        assert (Hin : In c (filter (fun c => kind_eqb (class (fst c)) (Some k)) t)) by (apply filter_In; now split).
        rewrite map_length in Hl. destruct (filter _ t) as [|x [|y r]]; [destruct Hin|now exists x|cbn in Hl; lia]. }
      destruct Hone as [c0 Hone].
      assert (G : forall t, canon t -> map snd (filter (fun c => kind_eqb (class (fst c)) (Some k)) (map (fun c => if String.eqb (fst c) (kname k) then (kname k, v) else c) t))
        = map (fun _ => v) (filter (fun c => kind_eqb (class (fst c)) (Some k)) t)).
      { clear. induction t as [|c t IH]; intros Ht; [reflexivity|]. cbn [map filter]. assert (Ht' : canon t) by (intros d j Hd; apply Ht; now right). specialize (IH Ht').
        rewrite (canon_name _ c k Ht (or_introl eq_refl)). destruct (kind_eqb (class (fst c)) (Some k)) eqn:E; cbn [fst].
        - rewrite class_kname. replace (kind_eqb (Some k) (Some k)) with true by (symmetry; now apply kind_eqb_eq). cbn [map snd]. now rewrite IH.
        - rewrite E. assumption. }
      rewrite (G t Ht), Hone. reflexivity.
    - rewrite filter_app, map_app. cbn [filter fst]. rewrite class_kname. replace (kind_eqb (Some k) (Some k)) with true by (symmetry; now apply kind_eqb_eq).
      cbn [map snd]. replace (filter _ t) with (@nil (string * C)); [reflexivity|]. symmetry.
      assert (N0 : forall c, In c t -> kind_eqb (class (fst c)) (Some k) = false).
      { intros c Hc. rewrite <- (canon_name t c k Ht Hc). destruct (String.eqb (fst c) (kname k)) eqn:E'; [|reflexivity].
        assert (existsb (fun c => String.eqb (fst c) (kname k)) t = true) by (apply existsb_exists; now exists c). congruence. }
      clear - N0. induction t as [|c t IH]; [reflexivity|]. cbn [filter]. rewrite (N0 c (or_introl eq_refl)). apply IH. intros d Hd. apply N0. now right.
  Qed.
  Lemma set_vals_len t k v k' : canon t -> (List.length (vals k t) <= 1)%nat -> (List.length (vals k' t) <= 1)%nat -> (List.length (vals k' (set_col t (kname k) v)) <= 1)%nat.
  Proof.
    intros Ht H H'. destruct (kind_eqb (Some k') (Some k)) eqn:E.
    - apply kind_eqb_eq in E. injection E as ->. rewrite set_vals by assumption. cbn; lia.
    - unfold vals. rewrite set_cols_other; [assumption|assumption|]. intros E'. apply kind_eqb_eq in E'. congruence.
  Qed.
  Lemma not_nodup (t : tab) : NoDup (map fst t) -> ~ NoDup (map norm (map fst t)) -> exists k, (1 < List.length (vals k t))%nat.
  Proof.
    intros Hn H. assert (HD : exists k, (1 < List.length (cols (Some k) t))%nat \/ False).
    { assert (Hdec : (forall k, (List.length (cols (Some k) t) <= 1)%nat) \/ exists k, (1 < List.length (cols (Some k) t))%nat).
      { destruct (Nat.le_gt_cases (List.length (cols (Some KRa) t)) 1); [|right; now exists KRa].
        destruct (Nat.le_gt_cases (List.length (cols (Some KDec) t)) 1); [|right; now exists KDec].
        destruct (Nat.le_gt_cases (List.length (cols (Some KSky) t)) 1); [|right; now exists KSky]. left. intros []; assumption. }
      destruct Hdec as [Hle|[k Hk]]; [|exists k; now left]. exfalso. apply H. clear H.
      induction t as [|c t IH]; cbn [map]; [constructor|]. inversion Hn as [|? ? H1 H2]; subst. constructor.
      - intros Hin. rewrite map_map in Hin. apply in_map_iff in Hin as (d & Ed & Hd).
        assert (Ecl : class (fst d) = class (fst c)) by (rewrite <- (class_norm (fst d)), <- (class_norm (fst c)); congruence).
        destruct (class (fst c)) as [k|] eqn:Ec.
        + specialize (Hle k). unfold cols in Hle. cbn [filter] in Hle. rewrite Ec in Hle.
          replace (kind_eqb (Some k) (Some k)) with true in Hle by (symmetry; now apply kind_eqb_eq).
          assert (Hin : In d (filter (fun c => kind_eqb (class (fst c)) (Some k)) t)) by (apply filter_In; split; [assumption|]; rewrite Ecl; now apply kind_eqb_eq).
          destruct (filter _ t); [destruct Hin|cbn in Hle; lia].
        + unfold norm in Ed. rewrite Ec, Ecl in Ed. apply H1. rewrite <- Ed. now apply in_map.
      - apply IH; [assumption|]. intros k. specialize (Hle k). unfold cols in *. cbn [filter] in Hle. destruct kind_eqb; cbn [List.length] in Hle; lia. }
    destruct HD as [k [Hk|[]]]. exists k. unfold vals. now rewrite map_length.
  Qed.
  Lemma hd_len1 (l : list C) : (List.length l <= 1)%nat -> match hd_error l with Some x => l = [x] | None => l = [] end.
  Proof. destruct l as [|x [|y l]]; cbn; [reflexivity|reflexivity|lia]. Qed.

  (** Column names are read without regard to case.  The catalogue is refused exactly when a kind occurs twice or there is neither an
      RA/DEC pair nor a sky_centroid; otherwise there is one RA and one DEC column, taken from the pair if it is complete and from
      sky_centroid if not, no sky_centroid, and every other column as before in the same order *)
  Theorem C85_parse (t : tab) : NoDup (map fst t) ->
    match parse_centroid ra_of dec_of t with
    | None => (exists k, (1 < List.length (vals k t))%nat) \/ ((vals KRa t = [] \/ vals KDec t = []) /\ vals KSky t = [])
    | Some t' =>
        (forall k, (List.length (vals k t) <= 1)%nat) /\
        (forall c k, In c t' -> class (fst c) = Some k -> fst c = kname k) /\
        cols None t' = cols None t /\ vals KSky t' = [] /\
        (exists r d, vals KRa t' = [r] /\ vals KDec t' = [d] /\
           ((vals KRa t = [r] /\ vals KDec t = [d]) \/
            ((vals KRa t = [] \/ vals KDec t = []) /\ exists s, vals KSky t = [s] /\ r = ra_of s /\ d = dec_of s)))
    end.
  Proof.
    intros Hn. unfold parse_centroid. pose proof (foldM_rename t [] Hn) as HF. cbn [map app] in HF.
    destruct (foldM rename_step (map fst t) t) as [u|]; cbn [bind].
    2: { left. now apply not_nodup. }
    destruct HF as [Eu Hu].
    assert (Hc : canon u) by (rewrite Eu; apply canon_nrm).
    assert (Hv : forall k, vals k u = vals k t) by (intros k; rewrite Eu; apply cols_nrm).
    assert (Ho : cols None u = cols None t) by (rewrite Eu; apply cols_none_nrm).
    assert (Hle : forall k, (List.length (vals k u) <= 1)%nat) by (intros k; rewrite <- (occ_cols u k Hc); now apply nodup_filter).
    change "RA"%string with (kname KRa). change "DEC"%string with (kname KDec). change "sky_centroid"%string with (kname KSky).
    rewrite !occ_cols, lookup_vals by assumption.
    replace (1 <? List.length (vals KRa u))%nat with false by (symmetry; apply Nat.ltb_ge, Hle).
    replace (1 <? List.length (vals KDec u))%nat with false by (symmetry; apply Nat.ltb_ge, Hle).
    replace (1 <? List.length (vals KSky u))%nat with false by (symmetry; apply Nat.ltb_ge, Hle). cbn [orb].
    pose proof (hd_len1 _ (Hle KRa)) as Hra. pose proof (hd_len1 _ (Hle KDec)) as Hde. pose proof (hd_len1 _ (Hle KSky)) as Hsk.
    assert (Hle' : forall k, (List.length (vals k t) <= 1)%nat) by (intros k; rewrite <- Hv; apply Hle).
    destruct (Nat.eqb (List.length (vals KRa u)) 1 && Nat.eqb (List.length (vals KDec u)) 1) eqn:Eb.
    - apply Bool.andb_true_iff in Eb as [E1 E2]. apply Nat.eqb_eq in E1, E2.
      destruct (vals KRa u) as [|r [|]] eqn:Er; try discriminate. destruct (vals KDec u) as [|d [|]] eqn:Ed; try discriminate.
      set (t' := if (0 <? List.length (vals KSky u))%nat then remove u (kname KSky) else u).
      assert (Ht' : canon t' /\ forall k', cols k' t' = if kind_eqb k' (Some KSky) then [] else cols k' u).
      { unfold t'. destruct (0 <? List.length (vals KSky u))%nat eqn:E0.
        - split; [now apply remove_canon|]. intros k'. now apply remove_cols.
        - split; [assumption|]. intros k'. destruct (kind_eqb k' (Some KSky)) eqn:Ek; [|reflexivity]. apply kind_eqb_eq in Ek as ->.
          apply Nat.ltb_ge in E0. unfold vals in E0. rewrite map_length in E0. destruct (cols (Some KSky) u); [reflexivity|cbn in E0; lia]. }
      destruct Ht' as [Hct Hcols]. split; [assumption|]. split; [assumption|]. split; [rewrite Hcols; exact Ho|].
      split; [unfold vals; now rewrite Hcols|]. exists r, d. unfold vals in *. rewrite !Hcols. cbn [kind_eqb]. rewrite Er, Ed. split; [reflexivity|].
      split; [reflexivity|]. left. rewrite <- !Hv. now split.
    - assert (Hmiss : vals KRa t = [] \/ vals KDec t = []).
      { rewrite <- !Hv. destruct (vals KRa u) as [|r lr]; [now left|]. destruct (vals KDec u) as [|d ld]; [now right|]. exfalso.
        pose proof (Hle KRa) as L1. pose proof (Hle KDec) as L2. destruct lr; cbn in *; [|destruct (hd_error _); discriminate].
        destruct ld; cbn in *; [discriminate|congruence]. }
      destruct (hd_error (vals KSky u)) as [s|].
      2: { right. split; [assumption|]. now rewrite <- Hv. }
      set (u1 := set_col u (kname KRa) (ra_of s)). assert (H1 : canon u1) by now apply set_canon.
      assert (L1 : forall k, (List.length (vals k u1) <= 1)%nat) by (intros k; apply set_vals_len; auto).
      set (u2 := set_col u1 (kname KDec) (dec_of s)). assert (H2 : canon u2) by now apply set_canon.
      split; [assumption|]. split; [now apply remove_canon|].
      split; [rewrite remove_cols by assumption; cbn [kind_eqb]; unfold u2, u1; rewrite !set_cols_other by (assumption || discriminate); exact Ho|].
      split; [unfold vals; now rewrite remove_cols|]. exists (ra_of s), (dec_of s). unfold vals at 1 2. rewrite !remove_cols by assumption. cbn [kind_eqb].
      split; [unfold u2; rewrite set_cols_other by (assumption || discriminate); now apply set_vals|].
      split; [now apply set_vals|]. right. split; [assumption|]. exists s. rewrite <- Hv. split; [assumption|now split].
  Qed.
End Parse.
Print Assumptions C85_parse.
Example C85_parse_ex : parse_centroid (fun n => 10 * n) (fun n => 100 * n) [("Sky_Centroid"%string, 3); ("flux"%string, 4); ("ra"%string, 5)]
  = Some [("flux"%string, 4); ("RA"%string, 30); ("DEC"%string, 300)].
Proof. reflexivity. Qed.
Example C85_parse_ex2 : parse_centroid (fun n => 10 * n) (fun n => 100 * n) [("Ra"%string, 3); ("flux"%string, 4); ("RA"%string, 5)] = None.
Proof. reflexivity. Qed.

(** where the reference catalogue comes from: blanks around the name and its case do not matter; a known name wins over a file *)
Definition clean (l : list ascii) : Prop := match l with [] => True | c :: r => is_space c = false /\ is_space (last r c) = false end.
Lemma lstrip_spaces sp l : forallb is_space sp = true -> lstrip (sp ++ l) = lstrip l.
Proof. induction sp as [|c sp IH]; cbn; [reflexivity|]. intros H. apply Bool.andb_true_iff in H as [-> H]. now apply IH. Qed.
Lemma lstrip_clean c l : is_space c = false -> lstrip (c :: l) = c :: l. Proof. cbn. now intros ->. Qed.
Lemma forallb_rev {A} (f : A -> bool) (l : list A) : forallb f l = true -> forallb f (rev l) = true.
Proof. rewrite !forallb_forall. intros H x Hx. apply H. now apply in_rev. Qed.
Lemma strip_blanks sp1 sp2 l : forallb is_space sp1 = true -> forallb is_space sp2 = true -> clean l -> strip (sp1 ++ l ++ sp2) = l.
Proof.
  intros H1 H2 Hl. unfold strip. rewrite lstrip_spaces by assumption. destruct l as [|c l]; cbn [app].
  - rewrite <- (app_nil_r sp2), lstrip_spaces by assumption. reflexivity.
  - destruct Hl as [Hc Hlast]. rewrite lstrip_clean by assumption. change (c :: l ++ sp2) with ((c :: l) ++ sp2). rewrite rev_app_distr, lstrip_spaces by now apply forallb_rev.
    assert (E : exists l', rev (c :: l) = last l c :: l').
    { clear. revert c. induction l as [|x l IH] using rev_ind; intros c; [now exists []|]. rewrite last_last. exists (rev (c :: l)). change (c :: l ++ [x]) with ((c :: l) ++ [x]). now rewrite rev_app_distr. }
    destruct E as [l' E]. rewrite E, lstrip_clean by assumption. rewrite <- E. apply rev_involutive.
Qed.
Lemma known_iff up : existsb (fun k => if list_eq_dec ascii_dec up (list_ascii_of_string k) then true else false) known_catalogs = true
  <-> In up (map list_ascii_of_string known_catalogs).
Proof.
  rewrite existsb_exists, in_map_iff. split; intros (k & H1 & H2); exists k.
  - destruct list_eq_dec as [E|]; [now split|discriminate].
  - split; [assumption|]. destruct list_eq_dec; congruence.
Qed.
Theorem C85_source is_file sp1 sp2 name : forallb is_space sp1 = true -> forallb is_space sp2 = true -> clean name ->
  let up := map up_char name in
  match parse_refcat is_file (sp1 ++ name ++ sp2) with
  | Web n => n = up /\ In up (map list_ascii_of_string known_catalogs)
  | Disk n => n = name /\ is_file name = true /\ ~ In up (map list_ascii_of_string known_catalogs)
  | Unknown => is_file name = false /\ ~ In up (map list_ascii_of_string known_catalogs)
  end.
Proof.
  intros H1 H2 Hc up. unfold parse_refcat. rewrite strip_blanks by assumption. fold up.
  destruct (existsb _ known_catalogs) eqn:E; [apply known_iff in E; now split|].
  assert (Hn : ~ In up (map list_ascii_of_string known_catalogs)) by (rewrite <- known_iff; congruence).
  destruct (is_file name) eqn:Ef; (split; [reflexivity|]); [split; [reflexivity|assumption]|assumption].
Qed.
Print Assumptions C85_source.
Example C85_source_ex : parse_refcat (fun _ => true) (list_ascii_of_string " gaiaDR3 ") = Web (list_ascii_of_string "GAIADR3")
  /\ parse_refcat (fun _ => true) (list_ascii_of_string "cat.ecsv ") = Disk (list_ascii_of_string "cat.ecsv").
Proof. split; vm_compute; reflexivity. Qed.

