From Verif Require Import Base BaseLemmas MedianModel.
From Coq Require Import ZifyBool ZifyNat.

Lemma nth_flat_map_const {A B} (f : A -> list B) n l k j dA dB :
  (forall x, In x l -> length (f x) = n) -> k < length l -> j < n ->
  nth (k * n + j) (flat_map f l) dB = nth j (f (nth k l dA)) dB.
Proof.
  revert k; induction l as [|x l IH]; intros k Hn Hk Hj; [cbn in Hk; lia|].
  cbn [flat_map]. assert (Hx : length (f x) = n) by (apply Hn; left; reflexivity).
  destruct k as [|k].
  - rewrite app_nth1 by (rewrite Hx; lia). reflexivity.
  - rewrite app_nth2 by (rewrite Hx; lia). rewrite Hx.
    replace (S k * n + j - n) with (k * n + j) by lia. cbn [nth].
    apply IH; [intros y Hy; apply Hn; right; exact Hy|cbn in Hk; lia|exact Hj].
Qed.
Lemma flat_map_length_const {A B} (f : A -> list B) n l :
  (forall x, In x l -> length (f x) = n) -> length (flat_map f l) = length l * n.
Proof. induction l as [|x l IH]; intro H; [reflexivity|]. cbn [flat_map length].
  rewrite app_length, (H x) by (left; reflexivity). rewrite IH; [lia|]. intros y Hy; apply H; right; exact Hy. Qed.
Lemma foldM_map {A B S} (h : A -> B) (body : S -> B -> option S) l s :
  foldM body (map h l) s = foldM (fun s x => body s (h x)) l s.
Proof. revert s; induction l as [|x l IH]; intro s; cbn; [reflexivity|].
  destruct (body s (h x)); [apply IH|reflexivity]. Qed.
Lemma combine_seq_map {A} (g : nat -> A) a n :
  combine (seq a n) (map g (seq a n)) = map (fun i => (i, g i)) (seq a n).
Proof. revert a; induction n as [|n IH]; intro a; cbn; [reflexivity|rewrite IH; reflexivity]. Qed.

Section Proofs.
  Variable A : Type.
  Variable nanv : A.
  Variable med : list A -> A.
  Notation flat := (flat A). Notation dfile := (dfile A). Notation disk := (disk A).

  Lemma flat_length R C px : length (flat R C px) = R * C.
  Proof. unfold MedianModel.flat. rewrite flat_map_length_const with (n := C).
    - rewrite seq_length; reflexivity. - intros; rewrite map_length, seq_length; reflexivity. Qed.
  Lemma flat_nth R C px r c d : r < R -> c < C -> nth (r * C + c) (flat R C px) d = px r c.
  Proof. intros Hr Hc. unfold MedianModel.flat.
    rewrite (nth_flat_map_const _ C (seq 0 R) r c 0 d);
      [|intros; rewrite map_length, seq_length; reflexivity|rewrite seq_length; exact Hr|exact Hc].
    rewrite seq_nth by exact Hr. rewrite nth_indep with (d' := px (0 + r) 0)
      by (rewrite map_length, seq_length; exact Hc).
    rewrite (map_nth (px (0 + r))). rewrite seq_nth by exact Hc. reflexivity. Qed.

  (** the content of section file [i] after the images [imgs] were accepted *)
  Definition sec_rows (R nsec s i : nat) := if Nat.eqb (i + 1) nsec then R - (nsec - 1) * s else s.
  Definition sec_file (R C dt nsec s : nat) (imgs : list (image A)) (i : nat) : dfile :=
    {| f_rows := sec_rows R nsec s i; f_cols := C; f_dtype := dt;
       f_items := flat_map (fun d => flat (sec_rows R nsec s i) C (fun r c => i_px d (i * s + r) c)) imgs;
       f_count := length imgs; f_exists := true |}.
  Definition good (R C dt : nat) (d : image A) := i_rows d = R /\ i_cols d = C /\ i_dtype d = dt.

  (** [nsec] sections of [s] rows tile [R] rows *)
  Definition tiles (R nsec s : nat) := 0 < s /\ R <= nsec * s /\ (forall i, i < nsec -> i * s < R).

  Lemma tiles_rows R nsec s i : tiles R nsec s -> i < nsec ->
    sec_rows R nsec s i = Nat.min (i * s + s) R - Nat.min (i * s) R.
  Proof. intros (Hs & HR & H) Hi. unfold sec_rows. pose proof (H i Hi).
    destruct (Nat.eqb_spec (i + 1) nsec) as [E|E].
    - subst nsec. replace (i + 1 - 1) with i by lia. lia.
    - pose proof (H (i + 1) ltac:(lia)). lia. Qed.
  Lemma buffer_tiles n R C it b nsec s : buffer_indices n R C it b = Some (nsec, s) -> tiles R nsec s.
  Proof.
    unfold buffer_indices. destruct (_ || _); [discriminate|].
    set (k := Z.min _ _). intros [= <- Hs]. rewrite Hs.
    assert (H0 : 0 < s) by (subst s; destruct (Z.leb_spec k 0); lia).
    clear Hs. set (q := (R + s - 1) / s).
    pose proof (Nat.div_mod (R + s - 1) s ltac:(lia)). pose proof (Nat.mod_upper_bound (R + s - 1) s ltac:(lia)).
    fold q in H. set (m := (R + s - 1) mod s) in *. repeat split; [exact H0|nia|].
    intros i Hi. nia.
  Qed.

  Lemma set_nth_app g' (l1 : list dfile) x l2 n : length l1 = n ->
    set_nth A n g' (l1 ++ x :: l2) = l1 ++ g' :: l2.
  Proof. intros <-. induction l1 as [|z l1 IH]; cbn; [reflexivity|rewrite IH; reflexivity]. Qed.

  Lemma add_sections_ok nsec s R d g g' :
    (forall i, i < nsec ->
       dfile_append A (g i) (row_block A d (i * s) (Nat.min (i * s + s) R)) = Some (g' i)) ->
    add_sections A nsec s R d (map g (seq 0 nsec)) = Some (map g' (seq 0 nsec)).
  Proof.
    intro H. unfold add_sections.
    assert (K : forall k a, a + k <= nsec ->
      foldM (fun fs i =>
        let row1 := i * s in let row2 := Nat.min (row1 + s) R in
        do f <- nth_error fs i;
        do f' <- dfile_append A f (row_block A d row1 row2);
        Some (set_nth A i f' fs)) (seq a k) (map g' (seq 0 a) ++ map g (seq a k))
      = Some (map g' (seq 0 (a + k)))).
    { induction k as [|k IH]; intros a Hak.
      - cbn. rewrite app_nil_r, Nat.add_0_r. reflexivity.
      - cbn [seq map foldM]. cbn zeta.
        rewrite nth_error_app2 by (rewrite map_length, seq_length; lia).
        rewrite map_length, seq_length, Nat.sub_diag. cbn [nth_error bind].
        rewrite (H a) by lia. cbn [bind].
        rewrite set_nth_app by (rewrite map_length, seq_length; reflexivity).
        replace (map g' (seq 0 a) ++ g' a :: map g (seq (S a) k))
          with (map g' (seq 0 (S a)) ++ map g (seq (S a) k)).
        + rewrite IH by lia. do 3 f_equal. lia.
        + rewrite seq_S, map_app. rewrite <- app_assoc. reflexivity. }
    apply (K nsec 0). lia.
  Qed.

  Definition state_of (n R C dt nsec s : nat) (imgs : list (image A)) : disk :=
    {| d_nframes := n; d_rows := R; d_cols := C; d_dtype := dt; d_nsec := nsec; d_secrows := s;
       d_nadds := length imgs; d_files := map (sec_file R C dt nsec s imgs) (seq 0 nsec) |}.

  Lemma disk_new_state n R C it dt b s0 : disk_new A n R C it dt b = Some s0 ->
    exists nsec s, buffer_indices n R C it b = Some (nsec, s) /\ s0 = state_of n R C dt nsec s [].
  Proof. unfold disk_new. destruct (buffer_indices n R C it b) as [[nsec s]|]; cbn; [|discriminate].
    intros [= <-]. exists nsec, s. split; reflexivity. Qed.

  Lemma add_image_state n R C dt nsec s imgs d : tiles R nsec s -> good R C dt d ->
    add_image A (state_of n R C dt nsec s imgs) d =
    if Nat.ltb (length imgs) nsec then Some (state_of n R C dt nsec s (imgs ++ [d])) else None.
  Proof.
    intros HT (HR & HC & HD). unfold add_image.
    cbn [d_nsec d_nadds d_rows d_cols d_dtype d_files d_secrows d_nframes state_of].
    destruct (Nat.leb_spec nsec (length imgs)) as [L|L];
      destruct (Nat.ltb_spec (length imgs) nsec); try lia; [reflexivity|].
    rewrite HR, HC, HD, !Nat.eqb_refl. cbn [negb andb].
    rewrite (add_sections_ok nsec s R d _ (sec_file R C dt nsec s (imgs ++ [d]))).
    - cbn [bind]. unfold state_of. rewrite app_length. reflexivity.
    - intros i Hi. unfold dfile_append. cbn [row_block i_rows i_cols i_dtype i_px sec_file f_rows f_cols f_dtype f_items f_count f_exists].
      rewrite HR, HC, HD. pose proof (tiles_rows R nsec s i HT Hi) as E.
      replace (Nat.min (Nat.min (i * s + s) R) R - Nat.min (i * s) R) with (sec_rows R nsec s i) by lia.
      rewrite !Nat.eqb_refl. cbn [andb]. unfold sec_file. rewrite flat_map_app, app_length. cbn [flat_map length].
      rewrite app_nil_r. reflexivity.
  Qed.

  Lemma append_all_disk n R C dt nsec s imgs pre m :
    tiles R nsec s -> Forall (good R C dt) imgs -> length pre <= nsec ->
    foldM (fun m (p : nat * image A) => computer_append A m (snd p) (Some (Z.of_nat (fst p))))
          (combine (seq m (length imgs)) imgs) (OnDisk (state_of n R C dt nsec s pre)) =
    if Nat.leb (length pre + length imgs) nsec then Some (OnDisk (state_of n R C dt nsec s (pre ++ imgs))) else None.
  Proof.
    intros HT. revert pre m. induction imgs as [|d imgs IH]; intros pre m HG Hp.
    - cbn. rewrite app_nil_r, Nat.add_0_r. destruct (Nat.leb_spec (length pre) nsec); [reflexivity|lia].
    - cbn [length seq combine foldM fst snd computer_append].
      inversion HG as [|? ? Hd HG']; subst.
      rewrite (add_image_state n R C dt nsec s pre d HT Hd).
      destruct (Nat.ltb_spec (length pre) nsec) as [L|L]; cbn [bind].
      + rewrite IH by (try assumption; rewrite app_length; cbn; lia).
        rewrite app_length, <- app_assoc. cbn [length app].
        replace (length pre + 1 + length imgs) with (length pre + S (length imgs)) by lia. reflexivity.
      + destruct (Nat.leb_spec (length pre + S (length imgs)) nsec); [lia|reflexivity].
  Qed.

  Lemma sec_file_read R C dt nsec s imgs i : exists cb,
    dfile_read A nanv (sec_file R C dt nsec s imgs i) = Some cb /\
    forall k r c d0, k < length imgs -> r < sec_rows R nsec s i -> c < C ->
      cb k r c = i_px (nth k imgs d0) (i * s + r) c.
  Proof.
    unfold dfile_read. cbn [sec_file f_exists f_items f_count f_rows f_cols].
    rewrite flat_map_length_const with (n := sec_rows R nsec s i * C)
      by (intros; apply flat_length).
    rewrite Nat.eqb_refl. eexists; split; [reflexivity|].
    intros k r c d0 Hk Hr Hc. cbn beta.
    replace ((k * sec_rows R nsec s i + r) * C + c) with (k * (sec_rows R nsec s i * C) + (r * C + c)) by lia.
    rewrite nth_flat_map_const with (n := sec_rows R nsec s i * C) (dA := d0);
      [|intros; apply flat_length|exact Hk|nia].
    apply (flat_nth (sec_rows R nsec s i) C (fun r c => i_px (nth k imgs d0) (i * s + r) c)); assumption.
  Qed.

  Lemma map_seq_nth {B} (f : image A -> B) (g : nat -> B) imgs d0 :
    (forall k, k < length imgs -> g k = f (nth k imgs d0)) -> map g (seq 0 (length imgs)) = map f imgs.
  Proof.
    intro H. apply nth_ext with (d := g 0) (d' := f d0); [rewrite !map_length, seq_length; reflexivity|].
    intros k Hk. rewrite map_length, seq_length in Hk.
    rewrite !map_nth, seq_nth by exact Hk. apply H; exact Hk. Qed.

  Lemma compute_median_state n R C dt nsec s imgs : tiles R nsec s -> 0 < nsec ->
    exists o, compute_median A nanv med (state_of n R C dt nsec s imgs) = Some o /\
      i_rows o = R /\ i_cols o = C /\ i_dtype o = dt /\
      forall r c, r < R -> c < C -> i_px o r c = med (map (fun d => i_px d r c) imgs).
  Proof.
    intros HT Hn. pose proof HT as (Hs & HR & HI).
    unfold compute_median. cbn [d_files state_of d_nsec d_secrows d_rows d_dtype].
    destruct nsec as [|nsec']; [lia|]. set (nsec := S nsec') in *.
    destruct (map (sec_file R C dt nsec s imgs) (seq 0 nsec)) as [|f0 fs] eqn:E; [discriminate E|].
    assert (Hf0 : f_cols f0 = C) by (cbn in E; injection E as <- _; reflexivity).
    rewrite <- E. rewrite map_length, seq_length, combine_seq_map, foldM_map. cbn [fst snd].
    set (body := fun (px : img A) (x : nat) => _).
    assert (B : forall i px, i < nsec -> exists px', body px i = Some px' /\
       forall r c, c < C -> px' r c = if Nat.leb (i * s) r && Nat.ltb r (Nat.min ((i + 1) * s) R)
                             then med (map (fun d => i_px d r c) imgs) else px r c).
    { intros i px Hi. unfold body.
      destruct (sec_file_read R C dt nsec s imgs i) as (cb & -> & Hcb). cbn [bind].
      cbn [sec_file f_rows f_count].
      pose proof (tiles_rows R nsec s i HT Hi) as Er. pose proof (HI i Hi).
      replace (Nat.min ((i + 1) * s) R - i * s) with (sec_rows R nsec s i) by lia.
      rewrite Nat.eqb_refl. cbn [orb]. eexists; split; [reflexivity|].
      intros r c Hc. cbn beta.
      destruct (Nat.leb_spec (i * s) r) as [L1|L1]; cbn [andb]; [|reflexivity].
      destruct (Nat.ltb_spec r (Nat.min ((i + 1) * s) R)) as [L2|L2]; [|reflexivity].
      unfold nanmedian3D. f_equal.
      destruct imgs as [|i0 imgs']; [reflexivity|].
      apply map_seq_nth with (d0 := i0). intros k Hk.
      rewrite (Hcb k _ c i0 Hk); [|destruct (Nat.eqb_spec (sec_rows R nsec s i) 1); lia|exact Hc].
      f_equal. destruct (Nat.eqb_spec (sec_rows R nsec s i) 1); lia. }
    destruct (foldM_total body (seq 0 nsec) (fun _ _ => nanv)) as [px Hpx].
    { intros i t Hi. apply in_seq in Hi. destruct (B i t ltac:(lia)) as (t' & Ht & _). exists t'; exact Ht. }
    rewrite Hpx. cbn [bind]. eexists; split; [reflexivity|]. cbn [i_rows i_cols i_dtype i_px].
    split; [lia|]. split; [exact Hf0|]. split; [reflexivity|].
    assert (P : forall r c, r < Nat.min ((0 + nsec) * s) R -> c < C -> px r c = med (map (fun d => i_px d r c) imgs)).
    { apply (foldM_seq_inv (fun j px => forall r c, r < Nat.min (j * s) R -> c < C ->
          px r c = med (map (fun d => i_px d r c) imgs)) body 0 nsec (fun _ _ => nanv) px);
        [intros r c Hr; lia| |exact Hpx].
      intros j t t' Hj IH Hb r c Hr Hc. destruct (B j t ltac:(lia)) as (t'' & Ht & Hval).
      rewrite Ht in Hb. injection Hb as <-. rewrite (Hval r c Hc).
      destruct (Nat.leb_spec (j * s) r), (Nat.ltb_spec r (Nat.min ((j + 1) * s) R)); cbn [andb]; try reflexivity; try lia.
      apply IH; [lia|exact Hc]. }
    intros r c Hr Hc. apply P; [lia|exact Hc].
  Qed.

  Lemma append_all_memory n R C dt imgs : forall pre (arr : cube A) m,
    Forall (good R C dt) imgs -> length pre = m -> m + length imgs <= n ->
    (forall k, k < m -> forall d0 r c, r < R -> c < C -> arr k r c = i_px (nth k pre d0) r c) ->
    exists arr', foldM (fun m (p : nat * image A) => computer_append A m (snd p) (Some (Z.of_nat (fst p))))
          (combine (seq m (length imgs)) imgs) (InMemory n R C dt arr) = Some (InMemory n R C dt arr') /\
      forall k, k < m + length imgs -> forall d0 r c, r < R -> c < C ->
         arr' k r c = i_px (nth k (pre ++ imgs) d0) r c.
  Proof.
    induction imgs as [|d imgs IH]; intros pre arr m HG Hp Hn Harr.
    - cbn. exists arr. split; [reflexivity|]. intros k Hk. rewrite app_nil_r. apply Harr; lia.
    - cbn [length seq combine foldM fst snd computer_append] in *.
      inversion HG as [|? ? Hd HG']; subst. destruct Hd as (HR & HC & HD).
      assert (Ei : py_index n (Z.of_nat (length pre)) = Some (length pre)).
      { unfold py_index. replace (0 <=? Z.of_nat (length pre))%Z with true by lia.
        replace (Z.of_nat (length pre) <? Z.of_nat n)%Z with true by lia. cbn [andb]. rewrite Nat2Z.id. reflexivity. }
      cbn [bind]. rewrite Ei. cbn [bind]. rewrite HR, HC, !Nat.eqb_refl. cbn [andb orb].
      match goal with |- context [upd ?k ?v arr] => set (arr1 := upd k v arr) end.
      destruct (IH (pre ++ [d]) arr1 (S (length pre)) HG') as (arr' & Hrun & Hval).
      + rewrite app_length; cbn; lia.
      + lia.
      + intros k Hk d0 r c Hr Hc. unfold arr1, upd.
        destruct (Nat.eqb_spec k (length pre)) as [->|Ne].
        * rewrite app_nth2, Nat.sub_diag by lia. cbn [nth].
          f_equal; [destruct (Nat.eqb_spec R 1)|destruct (Nat.eqb_spec C 1)]; lia.
        * rewrite app_nth1 by lia. apply Harr; [lia|assumption..].
      + exists arr'. split; [exact Hrun|]. intros k Hk. rewrite <- app_assoc in Hval. apply Hval. lia.
  Qed.
End Proofs.
