(** C53: S_REGION strings round-trip *)
From Coq Require Import Ascii Lia Reals Lra.
From Verif Require Import Base BaseLemmas AlModel.
Import ListNotations.
Local Open Scope N_scope.

Lemma dval_digit d : d < 10 -> dval (digit d) = Some d.
Proof.
  intros H. unfold dval, digit. rewrite N_ascii_embedding by lia.
  destruct (N.leb_spec 48 (48 + d)); [|lia]. destruct (N.leb_spec (48 + d) 57); [|lia]. cbn [andb]. f_equal. lia.
Qed.
(** what a printed number is made of *)
Definition isdig (c : ascii) : Prop := exists d, d < 10 /\ c = digit d.
Lemma fixed_dig w : forall k, Forall isdig (fixed w k) /\ length (fixed w k) = w.
Proof.
  induction w as [|w IH]; intros k; cbn [fixed]; [now split|]. destruct (IH (k / 10)) as [H1 H2]. rewrite app_length, H2. split; [|cbn; lia].
  apply Forall_app. split; [assumption|]. constructor; [|constructor]. exists (k mod 10). split; [apply N.mod_lt; lia|reflexivity].
Qed.
Lemma foldM_app {A B} (f : B -> A -> option B) l1 : forall l2 b, foldM f (l1 ++ l2) b = do x <- foldM f l1 b; foldM f l2 x.
Proof. induction l1 as [|a l1 IH]; intros l2 b; cbn; [reflexivity|]. destruct (f b a); cbn; [apply IH|reflexivity]. Qed.
Lemma digits_fixed w : forall k, digits (fixed w k) = Some (k mod 10 ^ N.of_nat w).
Proof.
  unfold digits. induction w as [|w IH]; intros k; [cbn; now rewrite N.mod_1_r|].
  cbn [fixed]. rewrite foldM_app, IH. cbn [bind foldM]. rewrite dval_digit by (apply N.mod_lt; lia). cbn [bind]. f_equal.
  replace (N.of_nat (S w)) with (1 + N.of_nat w) by lia. rewrite N.pow_add_r, N.pow_1_r. rewrite N.mod_mul_r by (try apply N.pow_nonzero; lia). lia.
Qed.
Lemma digits_zero l : forall a, foldM (fun a c => do d <- dval c; Some (10 * a + d)) ("0"%char :: l) a = foldM (fun a c => do d <- dval c; Some (10 * a + d)) l (10 * a).
Proof. intros a. cbn [foldM]. change (dval "0") with (Some 0). cbn [bind]. now rewrite N.add_0_r. Qed.
Lemma digits_unpad l : digits (unpad l) = digits l.
Proof.
  induction l as [|c r IH]; [reflexivity|]. cbn [unpad]. destruct r as [|c' r]; [reflexivity|]. destruct (Ascii.eqb_spec c "0") as [->|]; [|reflexivity].
  rewrite IH. unfold digits at 2. rewrite digits_zero. reflexivity.
Qed.
Lemma unpad_dig l : Forall isdig l -> Forall isdig (unpad l).
Proof.
  induction l as [|c r IH]; intros H; [constructor|]. cbn [unpad]. destruct r as [|c' r]; [assumption|]. destruct (Ascii.eqb c "0"); [|assumption]. apply IH. now inversion H.
Qed.
Lemma unpad_ne l : l <> [] -> unpad l <> [].
Proof.
  induction l as [|c r IH]; intros H; [assumption|]. cbn [unpad]. destruct r as [|c' r]; [assumption|]. destruct (Ascii.eqb c "0"); [|discriminate]. apply IH. discriminate.
Qed.
Lemma size_pow k : k < 10 ^ N.of_nat (N.size_nat k).
Proof.
  destruct (N.eq_dec k 0) as [->|H]; [cbn; lia|]. apply N.lt_le_trans with (2 ^ N.size k); [apply N.size_gt|].
  replace (N.of_nat (N.size_nat k)) with (N.size k). { apply N.pow_le_mono_l. lia. }
  destruct k as [|p]; [lia|]. cbn. clear H. induction p as [p IH|p IH|]; cbn; try lia.
Qed.
Lemma integer_spec k : digits (integer k) = Some k /\ Forall isdig (integer k) /\ integer k <> [].
Proof.
  unfold integer. split; [rewrite digits_unpad, digits_fixed|split; [apply unpad_dig, fixed_dig|apply unpad_ne]].
  - f_equal. apply N.mod_small. apply N.lt_le_trans with (10 ^ N.of_nat (N.size_nat k)); [apply size_pow|]. apply N.pow_le_mono_r; lia.
  - destruct (fixed_dig (S (N.size_nat k)) k) as [_ H]. intros E. rewrite E in H. discriminate.
Qed.
Lemma dig_facts c : isdig c -> c <> "."%char /\ c <> "-"%char /\ blank c = false /\ letter c = false.
Proof.
  intros (d & Hd & ->). assert (HN : N_of_ascii (digit d) = 48 + d) by (unfold digit; rewrite N_ascii_embedding by lia; reflexivity).
  split; [|split; [|split]].
  - intros E. rewrite E in HN. assert (HX : 46 = 48 + d) by exact HN. lia.
  - intros E. rewrite E in HN. assert (HX : 45 = 48 + d) by exact HN. lia.
  - unfold blank. rewrite HN. destruct (N.eqb_spec (48 + d) 32); [lia|]. destruct (N.leb_spec (48 + d) 13); [lia|]. destruct (N.leb_spec (48 + d) 31); [lia|]. rewrite !Bool.andb_false_r. reflexivity.
  - unfold letter. rewrite HN. destruct (N.leb_spec 65 (48 + d)); [lia|]. destruct (N.leb_spec 97 (48 + d)); [lia|]. reflexivity.
Qed.
Lemma upto_dot a b : Forall isdig a -> upto (a ++ "."%char :: b) = Some (a, b).
Proof.
  induction a as [|c a IH]; intros H; cbn [app upto]; [reflexivity|]. inversion H as [|? ? Hc Ha]; subst. destruct (Ascii.eqb_spec c ".") as [->|_]; [now apply dig_facts in Hc|].
  rewrite IH by assumption. reflexivity.
Qed.
(** one number *)
Lemma parse_fmt s k : parse_num (fmt (NFin s k)) = Some (s, k, 9%nat).
Proof.
  unfold fmt. destruct (integer_spec (k / 10 ^ 9)) as (Hd & Hf & Hn). destruct (fixed_dig 9 (k mod 10 ^ 9)) as [Hff Hfl].
  pose proof (digits_fixed 9 (k mod 10 ^ 9)) as Hfd. change (10 ^ N.of_nat 9) with (10 ^ 9) in Hfd. rewrite N.mod_mod in Hfd by discriminate.
  set (I := integer _) in *. set (D := fixed 9 _) in *.
  assert (G : (do (a, b) <- upto (I ++ "."%char :: D); match a, b with _ :: _, _ :: _ => do i <- digits a; do f <- digits b; Some (s, i * 10 ^ N.of_nat (length b) + f, length b) | _, _ => None end) = Some (s, k, 9%nat)).
  { rewrite upto_dot by assumption. cbn [bind]. destruct I as [|i0 I]; [congruence|]. destruct D as [|d0 D]; [discriminate|]. rewrite Hd, Hfd. cbn [bind]. rewrite Hfl.
    do 3 f_equal. change (10 ^ N.of_nat 9) with (10 ^ 9). rewrite (N.div_mod k (10 ^ 9)) at 3 by discriminate. lia. }
  unfold parse_num. destruct s; cbn [app]; [exact G|].
  destruct I as [|i0 I]; [congruence|]. cbn [app]. destruct (Ascii.eqb_spec i0 "-") as [->|_]; [inversion Hf as [|? ? Hc]; subst; now apply dig_facts in Hc|]. exact G.
Qed.
(** a token holds no blanks and no letters and is not empty *)
Definition token (t : list ascii) : Prop := t <> [] /\ Forall (fun c => blank c = false /\ letter c = false) t.
Lemma fmt_token s k : token (fmt (NFin s k)).
Proof.
  unfold fmt. destruct (integer_spec (k / 10 ^ 9)) as (_ & Hf & Hn). destruct (fixed_dig 9 (k mod 10 ^ 9)) as [Hff _].
  set (I := integer _) in *. set (D := fixed 9 _) in *. assert (G : forall l, Forall isdig l -> Forall (fun c => blank c = false /\ letter c = false) l).
  { intros l. apply Forall_impl. intros c Hc. now apply dig_facts in Hc. }
  split; [destruct s, I; try discriminate; congruence|]. apply Forall_app. split; [destruct s; [constructor; [now split|constructor]|constructor]|].
  apply Forall_app. split; [now apply G|]. constructor; [now split|now apply G].
Qed.
Lemma no_letters_token t : token t -> no_letters t = t.
Proof.
  intros [_ H]. unfold no_letters. induction H as [|c t [_ Hc] H IH]; [reflexivity|]. cbn [filter]. rewrite Hc. cbn [negb]. now rewrite IH.
Qed.
Lemma no_letters_app a b : no_letters (a ++ b) = no_letters a ++ no_letters b.
Proof. apply filter_app. Qed.
Lemma split_token t : forall cur rest, Forall (fun c => blank c = false /\ letter c = false) t -> split_from cur (t ++ rest) = split_from (cur ++ t) rest.
Proof.
  induction t as [|c t IH]; intros cur rest H; cbn [app]; [now rewrite app_nil_r|]. inversion H as [|? ? [Hc _] Ht]; subst. cbn [split_from]. rewrite Hc, IH by assumption.
  now rewrite <- app_assoc.
Qed.
Lemma split_blank t c rest : t <> [] -> blank c = true -> split_from t (c :: rest) = t :: split_from [] rest.
Proof. intros H Hc. cbn [split_from]. rewrite Hc. destruct t; [congruence|reflexivity]. Qed.
Lemma split_joined ts : forall rest, Forall token ts -> split (no_letters (joined ts) ++ " "%char :: " "%char :: rest) = ts ++ split rest.
Proof.
  unfold split. induction ts as [|t ts IH]; intros rest H; [reflexivity|]. inversion H as [|? ? Ht Hts]; subst. destruct ts as [|t' ts].
  - cbn [joined]. rewrite no_letters_token by assumption. destruct Ht as [Hn Hf]. rewrite split_token by assumption. rewrite split_blank; [reflexivity|assumption|reflexivity].
  - change (joined (t :: t' :: ts)) with (t ++ " "%char :: joined (t' :: ts)). rewrite no_letters_app, no_letters_token by assumption.
    change (no_letters (" "%char :: joined (t' :: ts))) with (" "%char :: no_letters (joined (t' :: ts))). rewrite <- app_assoc, split_token by apply Ht.
    cbn [app]. rewrite split_blank; [|apply Ht|reflexivity]. cbn [app]. f_equal. now apply IH.
Qed.
Lemma split_end s c : forall cur, blank c = true -> split_from cur (s ++ [c]) = split_from cur s.
Proof.
  induction s as [|a s IH]; intros cur H; cbn [app split_from].
  - rewrite H. destruct cur; reflexivity.
  - destruct (blank a); [destruct cur; [now apply IH|f_equal; now apply IH]|now apply IH].
Qed.
Lemma blank_letter c : blank c = true -> letter c = false.
Proof. revert c. assert (G : forall c, (negb (blank c) || negb (letter c))%bool = true) by (intros [[] [] [] [] [] [] [] []]; vm_compute; reflexivity). intros c H. specialize (G c). rewrite H in G. now destruct (letter c). Qed.
Lemma split_lstrip s : split (no_letters (lstrip s)) = split (no_letters s).
Proof.
  induction s as [|c s IH]; [reflexivity|]. cbn [lstrip]. destruct (blank c) eqn:E; [|reflexivity]. unfold no_letters at 2. cbn [filter].
  rewrite (blank_letter c E). cbn [negb]. unfold split at 2. cbn [split_from]. rewrite E. exact IH.
Qed.
Lemma split_rstrip s : split (no_letters (rev (lstrip (rev s)))) = split (no_letters s).
Proof.
  rewrite <- (rev_involutive s) at 2. induction (rev s) as [|c r IH]; [reflexivity|]. cbn [lstrip]. destruct (blank c) eqn:E; [|reflexivity]. rewrite IH.
  cbn [rev]. rewrite no_letters_app. unfold no_letters at 3. cbn [filter]. rewrite (blank_letter c E). cbn [negb]. symmetry. unfold split. now apply split_end.
Qed.
Lemma split_strip s : split (no_letters (strip s)) = split (no_letters s).
Proof. unfold strip. now rewrite split_rstrip, split_lstrip. Qed.

(** what a finite number reads back as: sign, 1e-9 units, nine decimals *)
Definition back (x : num) : option (bool * N * nat) := match x with NFin s k => Some (s, k, 9%nat) | _ => None end.
Definition finite (x : num) : Prop := exists s k, x = NFin s k.
Definition readback (fp : list (num * num)) (out : list ((bool * N * nat) * (bool * N * nat))) : Prop :=
  Forall2 (fun p q => back (fst p) = Some (fst q) /\ back (snd p) = Some (snd q)) fp out.
Lemma back_ex x : finite x -> exists y, back x = Some y /\ parse_num (fmt x) = Some y.
Proof. intros (s & k & ->). eexists. split; [reflexivity|apply parse_fmt]. Qed.
Lemma parse_all fp : Forall (fun p => finite (fst p) /\ finite (snd p)) fp ->
  exists out, (do v <- all_some (map parse_num (map fmt (flatten fp))); pairs v) = Some out /\ readback fp out.
Proof.
  intros H. assert (G : exists v out, all_some (map parse_num (map fmt (flatten fp))) = Some v /\ pairs v = Some out /\ readback fp out).
  { induction H as [|[a b] fp [Ha Hb] H (v & out & H1 & H2 & H3)]; [exists [], []; repeat split; constructor|].
    cbn [fst snd] in Ha, Hb. destruct (back_ex a Ha) as (ya & Ea & Pa). destruct (back_ex b Hb) as (yb & Eb & Pb).
    exists (ya :: yb :: v), ((ya, yb) :: out). cbn [flatten flat_map fst snd app map all_some]. fold (flatten fp). rewrite Pa, Pb, H1. cbn [bind pairs]. rewrite H2. cbn [bind].
    split; [reflexivity|]. split; [reflexivity|]. constructor; [now split|assumption]. }
  destruct G as (v & out & -> & H2 & H3). exists out. now split.
Qed.
Lemma flatten_tokens fp : Forall (fun p => finite (fst p) /\ finite (snd p)) fp -> Forall token (map fmt (flatten fp)).
Proof.
  intros H. induction H as [|[a b] fp [Ha Hb] H IH]; [constructor|]. cbn [fst snd] in Ha, Hb. destruct Ha as (s & k & ->). destruct Hb as (s' & k' & ->). cbn [flatten flat_map fst snd app map] in *. fold (flatten fp).
  constructor; [apply fmt_token|]. constructor; [apply fmt_token|exact IH].
Qed.
(** the string made of any number of polygons reads back as all their vertices, in order, to every printed digit *)
Theorem C53_polygons polys : Forall (Forall (fun p => finite (fst p) /\ finite (snd p))) polys ->
  exists out, sregion_to_footprint (polygons_to_sregion polys) = Some out /\ readback (concat polys) out.
Proof.
  intros H. unfold sregion_to_footprint, polygons_to_sregion. rewrite split_strip.
  assert (E : split (no_letters (flat_map (fun p => prefix ++ joined (map fmt (flatten p)) ++ [" "; " "]%char) polys)) = map fmt (flatten (concat polys))).
  { induction H as [|p polys Hp H IH]; [reflexivity|]. cbn [flat_map concat]. unfold flatten. rewrite flat_map_app, map_app. rewrite no_letters_app. unfold prefix at 1.
    rewrite no_letters_app. rewrite no_letters_app. change (no_letters ["P"; "O"; "L"; "Y"; "G"; "O"; "N"; " "; "I"; "C"; "R"; "S"; " "; " "]%char) with [" "; " "; " "]%char.
    change (no_letters [" "; " "]%char) with [" "; " "]%char. rewrite <- !app_assoc. unfold split. cbn [app split_from blank]. change (blank " ") with true. cbn match.
    fold (split (no_letters (joined (map fmt (flatten p))) ++ " "%char :: " "%char :: no_letters (flat_map (fun p0 => prefix ++ joined (map fmt (flatten p0)) ++ [" "; " "]%char) polys))).
    rewrite split_joined by (now apply flatten_tokens). fold (flatten p). fold (flatten (concat polys)). f_equal. exact IH. }
  rewrite E. apply parse_all. apply Forall_concat. exact H.
Qed.
Print Assumptions C53_polygons.
(** the header keyword of a four-vertex footprint reads back the same way *)
Theorem C53_keyword fp : length fp = 4%nat -> Forall (fun p => finite (fst p) /\ finite (snd p)) fp ->
  exists s out, s_region_keyword fp = Some (Some s) /\ sregion_to_footprint s = Some out /\ readback fp out.
Proof.
  intros Hl H. assert (Hfl : length (flatten fp) = 8%nat). { do 5 (destruct fp as [|? fp]; try discriminate). reflexivity. }
  unfold s_region_keyword. rewrite Hfl. cbn [Nat.ltb Nat.leb]. rewrite <- Hfl, firstn_all.
  replace (existsb is_nan (flatten fp)) with false.
  2:{ clear Hl Hfl. induction H as [|[a b] fp [(s & k & Ha) (s' & k' & Hb)] H IH]; [reflexivity|]. cbn [fst snd] in *. subst. cbn. exact IH. }
  exists (prefix ++ joined (map fmt (flatten fp))). destruct (C53_polygons [fp] (Forall_cons _ H (Forall_nil _))) as (out & Ho & Hr). exists out.
  split; [reflexivity|]. cbn [concat] in Hr. rewrite app_nil_r in Hr. split; [|assumption]. rewrite <- Ho. unfold sregion_to_footprint, polygons_to_sregion. rewrite split_strip.
  do 2 f_equal. cbn [flat_map]. rewrite app_nil_r. rewrite !no_letters_app. rewrite app_assoc. unfold split.
  change (no_letters [" "; " "]%char) with ([" "%char] ++ [" "%char])%list. rewrite app_assoc, !split_end by reflexivity. reflexivity.
Qed.
Print Assumptions C53_keyword.

(** to the printed precision: a number prints as the nearest count of 1e-9 units *)
Local Open Scope R_scope.
Definition prints (x : R) (n : num) : Prop := exists (s : bool) k, n = NFin s k /\ Rabs ((if s then - IZR (Z.of_N k) else IZR (Z.of_N k)) - x * 1000000000) <= 1 / 2.
Definition value (q : bool * N * nat) : R := let '(s, k, e) := q in (if s then - IZR (Z.of_N k) else IZR (Z.of_N k)) / 10 ^ e.
Theorem C53_precision (xs : list (list (R * R))) polys : Forall2 (Forall2 (fun x p => prints (fst x) (fst p) /\ prints (snd x) (snd p))) xs polys ->
  exists out, sregion_to_footprint (polygons_to_sregion polys) = Some out /\
    Forall2 (fun x q => Rabs (value (fst q) - fst x) <= 5 / 10 ^ 10 /\ Rabs (value (snd q) - snd x) <= 5 / 10 ^ 10) (concat xs) out.
Proof.
  intros H. destruct (C53_polygons polys) as (out & Ho & Hr).
  { clear - H. induction H as [|x p xs polys Hp H IH]; constructor; [|assumption]. clear - Hp. induction Hp as [|a b x p [Ha Hb] Hp IH]; constructor; [|assumption].
    destruct Ha as (s & k & Ha & _). destruct Hb as (s' & k' & Hb & _). split; eexists _, _; eassumption. }
  exists out. split; [assumption|]. clear Ho. assert (Hc : Forall2 (fun x p => prints (fst x) (fst p) /\ prints (snd x) (snd p)) (concat xs) (concat polys)).
  { clear - H. induction H; [constructor|]. cbn. now apply Forall2_app. }
  clear H. revert out Hr. induction Hc as [|x p cx cp [Ha Hb] Hc IH]; intros out Hr; inversion Hr as [|? q ? qs [Hq1 Hq2] Hr']; subst; constructor; [|now apply IH].
  assert (G : forall x n y, prints x n -> back n = Some y -> Rabs (value y - x) <= 5 / 10 ^ 10).
  { clear. intros x n y (s & k & -> & Hk) Hy. cbn in Hy. injection Hy as <-. unfold value.
    set (z := if s then _ else _) in *. clearbody z. cbn [pow]. replace (z / _ - x) with ((z - x * 1000000000) / 1000000000) by field.
    unfold Rdiv at 1. rewrite Rabs_mult. rewrite (Rabs_right (/ 1000000000)) by lra. lra. }
  split; eapply G; eassumption.
Qed.
Print Assumptions C53_precision.
Local Open Scope N_scope.

Example C53_ex : Forall (fun p => finite (fst p) /\ finite (snd p)) [(NFin false 12345678901, NFin true 5); (NFin false 0, NFin true 0)].
Proof. repeat constructor; do 2 eexists; reflexivity. Qed.
Example C53_ex2 : sregion_to_footprint (polygons_to_sregion [[(NFin false 12345678901, NFin true 5)]]) = Some [((false, 12345678901, 9%nat), (true, 5, 9%nat))].
Proof. vm_compute. reflexivity. Qed.
Example C53_precision_ex : prints (1 / 3)%R (NFin false 333333333).
Proof. exists false, 333333333. split; [reflexivity|]. cbn [Z.of_N]. rewrite Rabs_left1; lra. Qed.

(** which polygon a vertex came from is lost *)
Theorem C53_flat_refuted : exists p q, p <> q /\ polygons_to_sregion p <> polygons_to_sregion q /\ sregion_to_footprint (polygons_to_sregion p) = sregion_to_footprint (polygons_to_sregion q).
Proof.
  exists [[(NFin false 1, NFin false 2); (NFin false 3, NFin false 4)]], [[(NFin false 1, NFin false 2)]; [(NFin false 3, NFin false 4)]].
  split; [discriminate|]. split; [vm_compute; discriminate|vm_compute; reflexivity].
Qed.
Print Assumptions C53_flat_refuted.
(** a keyword of five vertices silently loses the fifth *)
Theorem C53_keyword_truncates_refuted : exists fp s, length fp = 5%nat /\ s_region_keyword fp = Some (Some s) /\
  exists out, sregion_to_footprint s = Some out /\ length out = 4%nat.
Proof.
  exists (repeat (NFin false 1, NFin true 2) 5). eexists. split; [reflexivity|]. split; [vm_compute; reflexivity|]. eexists. split; [vm_compute; reflexivity|reflexivity].
Qed.
Print Assumptions C53_keyword_truncates_refuted.
(** two infinite coordinates are written and disappear on reading *)
Theorem C53_infinite_refuted : exists fp s, length fp = 4%nat /\ s_region_keyword fp = Some (Some s) /\
  exists out, sregion_to_footprint s = Some out /\ length out = 3%nat.
Proof.
  exists [(NFin false 1, NFin false 2); (NInf false, NInf false); (NFin false 1, NFin false 2); (NFin false 1, NFin false 2)]. eexists.
  split; [reflexivity|]. split; [vm_compute; reflexivity|]. eexists. split; [vm_compute; reflexivity|reflexivity].
Qed.
Print Assumptions C53_infinite_refuted.
(** a NaN anywhere in the first four vertices: no keyword; too few values: an exception *)
Theorem C53_nan fp : s_region_keyword fp = None <-> (length fp < 4)%nat.
Proof.
  unfold s_region_keyword. assert (E : length (flatten fp) = (2 * length fp)%nat) by (unfold flatten; clear; induction fp as [|a fp IH]; cbn [flat_map app length]; [reflexivity|rewrite IH; lia]). rewrite E.
  destruct (Nat.ltb_spec (2 * length fp) 8); [split; [intros; lia|reflexivity]|]. split; [destruct (existsb _ _); discriminate|intros; lia].
Qed.
Print Assumptions C53_nan.
Lemma flatten_firstn n : forall fp, firstn (2 * n) (flatten fp) = flatten (firstn n fp).
Proof.
  induction n as [|n IH]; intros fp; [reflexivity|]. destruct fp as [|p fp]; [reflexivity|]. replace (2 * S n)%nat with (S (S (2 * n))) by lia.
  cbn [flatten flat_map app firstn]. f_equal. f_equal. apply IH.
Qed.
Theorem C53_nan2 fp : s_region_keyword fp = Some None <-> (4 <= length fp)%nat /\ exists p, In p (firstn 4 fp) /\ (fst p = NNan \/ snd p = NNan).
Proof.
  unfold s_region_keyword. assert (E : length (flatten fp) = (2 * length fp)%nat) by (unfold flatten; clear; induction fp as [|a fp IH]; cbn [flat_map app length]; [reflexivity|rewrite IH; lia]). rewrite E.
  destruct (Nat.ltb_spec (2 * length fp) 8); [split; [discriminate|intros [H1 _]; lia]|].
  assert (Hex : existsb is_nan (firstn 8 (flatten fp)) = true <-> exists p, In p (firstn 4 fp) /\ (fst p = NNan \/ snd p = NNan)).
  { change 8%nat with (2 * 4)%nat. rewrite flatten_firstn. generalize (firstn 4 fp). clear. intros l. rewrite existsb_exists. unfold flatten. split.
    - intros (x & Hx & Hn). destruct x; try discriminate. apply in_flat_map in Hx. destruct Hx as (p & Hp & Hx). exists p. split; [assumption|]. destruct Hx as [Hx|[Hx|[]]]; auto.
    - intros (p & Hp & Hn). exists NNan. split; [|reflexivity]. apply in_flat_map. exists p. split; [assumption|]. destruct Hn as [->| ->]; cbn; auto. }
  destruct (existsb is_nan _) eqn:Ee; [split; [intros _; split; [lia|now apply Hex]|reflexivity]|]. split; [discriminate|]. intros [_ Hp]. apply Hex in Hp. discriminate.
Qed.
Print Assumptions C53_nan2.
Example C53_nan_ex : s_region_keyword (repeat (NFin false 1, NNan) 4) = Some None. Proof. reflexivity. Qed.
