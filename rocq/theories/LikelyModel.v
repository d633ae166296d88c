(** Model of the likelihood ramp fitter: src/stcal/ramp_fitting/likely_fit.py (line numbers without a file name)
    and likely_algo_classes.py (cited as "classes").  Every array of the fit has the pixels of a row as its last
    axis and every operation is elementwise in it, so one pixel is modelled; the row reappears in [mask_jumps].
    Arrays along the ramp are functions of the index with the length kept apart; np.sum is a left-to-right sum. *)
From Verif Require Import Base.

Section Numbers.
  Variable fo : FOps.
  Declare Scope l_scope.
  Notation "x + y" := (fadd fo x y) : l_scope. Notation "x * y" := (fmul fo x y) : l_scope.
  Notation "x - y" := (fsub fo x y) : l_scope. Notation "x / y" := (fdiv fo x y) : l_scope.
  Local Open Scope l_scope.
  Notation z := (fofZ fo).
  (** numpy's conversion of a boolean (or 0/1 byte) operand *)
  Definition b2f (b : bool) : fo := if b then fone fo else fzero fo.
  Definition lneg (x : fo) : fo := fzero fo - x.
  Definition lnat (k : nat) : fo := fofZ fo (Z.of_nat k).
  (** np.sum(a[0:n]) *)
  Definition lsum (a : nat -> fo) (n : nat) : fo := fold_left (fadd fo) (map a (seq 0 n)) (fzero fo).
  Definition suml (l : list fo) : fo := fold_left (fadd fo) l (fzero fo).

  (** ** The read-time table: class Covar (classes lines 185-246) *)
  (** [readtimes] is a list of lists of times (a bare number counts as a list of one).
      np.mean, lines 201-212 *)
  Definition mean_t (ts : list fo) : fo := suml ts / lnat (length ts).
  Definition tau (ts : list fo) : fo :=
    suml (map (fun kt => z (2 * Z.of_nat (length ts) + 1 - 2 * (Z.of_nat (fst kt) + 1)) * snd kt) (combine (seq 0 (length ts)) ts))
    / lnat (length ts * length ts).
  Record covar := { c_dt : nat -> fo; c_n : nat -> nat; c_ar : nat -> fo; c_br : nat -> fo; c_ap : nat -> fo; c_bp : nat -> fo }.
  (** lines 220, 242-246 *)
  Definition mk_covar (readtimes : list (list fo)) : covar :=
    let g i := nth i readtimes [] in
    let mt i := mean_t (g i) in let ta i := tau (g i) in let nn i := length (g i) in
    let dt i := mt (S i) - mt i in
    {| c_dt := dt; c_n := nn;
       c_ar := fun i => (fone fo / lnat (nn i) + fone fo / lnat (nn (S i))) / (dt i * dt i);
       c_br := fun i => z (-1) / (lnat (nn (S i)) * dt (S i) * dt i);
       c_ap := fun i => (ta i + ta (S i) - z 2 * mt i) / (dt i * dt i);
       c_bp := fun i => (mt (S i) - ta (S i)) / (dt (S i) * dt i) |}.

  (** ** The recursions over the tridiagonal covariance; [n] is ndiffs *)
  Section Tri.
    Variable n : nat.
    Variables alpha beta : nat -> fo.
    (** compute_thetas (lines 900-904): (theta[i], theta[i+1]) *)
    Fixpoint thetas (i : nat) : fo * fo :=
      match i with
      | 0 => (fone fo, alpha 0)
      | S k => let '(a, b) := thetas k in (b, alpha (S k) * b - beta k * beta k * a)
      end.
    Definition theta (i : nat) : fo := fst (thetas i).
    (** compute_phis (lines 931-935): (phi[n-r], phi[n-r-1]) *)
    Fixpoint phis (r : nat) : fo * fo :=
      match r with
      | 0 => (fone fo, alpha (n - 1))
      | S k => let '(a, b) := phis k in (b, alpha (n - 2 - k)%nat * b - beta (n - 2 - k)%nat * beta (n - 2 - k)%nat * a)
      end.
    Definition phi (i : nat) : fo := fst (phis (n - i)).
    (** lines 595-596 *)
    Definition sgn (i : nat) : fo := if Nat.even i then z (-1) else fone fo.
    (** compute_Phis (lines 965-968): Phi[n-1-r] *)
    Fixpoint Phir (r : nat) : fo :=
      match r with 0 => fzero fo | S k => Phir k * beta (n - 2 - k)%nat + sgn (n - 1 - k) * beta (n - 2 - k)%nat * phi (n - k) end.
    Definition Phi (i : nat) : fo := Phir (n - 1 - i).
    (** compute_PhiDs (lines 1002-1005): PhiD[n-1-r] *)
    Fixpoint PhiDr (dm : nat -> fo) (r : nat) : fo :=
      match r with 0 => fzero fo | S k => (PhiDr dm k + sgn (n - 1 - k) * dm (n - 1 - k)%nat * phi (n - k)) * beta (n - 2 - k)%nat end.
    Definition PhiD (dm : nat -> fo) (i : nat) : fo := PhiDr dm (n - 1 - i).
    (** compute_Thetas (lines 1033-1037) *)
    Fixpoint Theta (i : nat) : fo :=
      match i with 0 => lneg (theta 0) | S k => Theta k * beta k + sgn (S k) * theta (S k) end.
    (** compute_ThetaDs (lines 1068-1072) *)
    Fixpoint ThetaD (dm : nat -> fo) (i : nat) : fo :=
      match i with
      | 0 => fzero fo
      | S k => match k with
               | 0 => lneg (dm 0) * theta 0
               | S j => beta j * ThetaD dm k + sgn k * dm k * theta k
               end
      end.
    (** matrix_computations (lines 1136-1155) *)
    Record mats := { k_dB : nat -> fo; k_dC : nat -> fo; k_A : fo; k_B : fo; k_C : fo }.
    Definition matrices (dm : nat -> fo) (use : nat -> bool) : mats :=
      let ext i := match i with 0 => fone fo | S k => beta k end in
      let dC i := sgn i / theta n * (phi (S i) * Theta i + theta i * Phi i) * b2f (use i) in
      let dB i := sgn i / theta n * (phi (S i) * ThetaD dm (S i) + theta i * PhiD dm i) in
      {| k_dC := dC; k_dB := dB;
         k_A := z 2 * lsum (fun i => dm i * sgn i / theta n * ext i * phi (S i) * ThetaD dm i) n
                + lsum (fun i => dm i * dm i * theta i * phi (S i) / theta n) n;
         k_B := lsum (fun i => dm i * dC i) n;
         k_C := lsum dC n |}.
  End Tri.

  (** ** The covariance of one pixel: compute_alphas_betas (lines 815-873) *)
  Record pixcov := { p_ap : nat -> fo; p_ar : nat -> fo; p_bp : nat -> fo; p_br : nat -> fo }.
  Definition pixel_cov (c : covar) (rate gain rn : fo) : pixcov :=
    {| p_ap := fun i => rate / gain * c_ap c i; p_ar := fun i => rn * rn * c_ar c i;
       p_bp := fun i => rate / gain * c_bp c i; p_br := fun i => rn * rn * c_br c i |}.
  Definition p_alpha (c : pixcov) (i : nat) : fo := p_ap c i + p_ar c i.
  Definition p_beta (c : pixcov) (i : nat) : fo := p_bp c i + p_br c i.
  (** the scale (lines 840-863); [root x i] is x ** (1 / i), dn_scale is 10; the state is (theta[i-1], theta[i-2], scale) *)
  Definition scale_step (root : fo -> nat -> fo) (n : nat) (alpha beta : nat -> fo) (st : fo * fo * fo) (i : nat) : fo * fo * fo :=
    let '(t1, t0, s) := st in
    let t := alpha (i - 1)%nat / s * t1 - beta (i - 2)%nat * beta (i - 2)%nat / (s * s) * t0 in
    if Nat.eqb (Nat.modulo i 10) 0 || Nat.eqb i n then
      let f := root t i in (fone fo, t1 / (t / f), s * f)
    else (t, t1, s).
  Definition scale_of (root : fo -> nat -> fo) (n : nat) (alpha beta : nat -> fo) : fo :=
    snd (fold_left (scale_step root n alpha beta) (seq 2 (n - 1)) (alpha 0, fone fo, fone fo)).

  (** ** fit_ramps (lines 511-638) and get_ramp_result (lines 1208-1230) *)
  (** class RampResult (classes lines 66-84) *)
  Record lfit := { f_rate : fo; f_chisq : fo; f_uncert : fo; f_w : nat -> fo; f_vp : fo; f_vr : fo }.
  Definition ramp_result (n : nat) (k : mats) (scale : fo) (c : pixcov) : lfit :=
    let w i := k_dC k i / k_C k in
    {| f_rate := k_B k * (fone fo / k_C k);
       f_chisq := (k_A k - k_B k * k_B k / k_C k) / scale;
       f_uncert := fsqrt fo (scale / k_C k);
       f_w := w;
       f_vp := lsum (fun i => w i * w i * p_ap c i) n + z 2 * lsum (fun i => w (S i) * w i * p_bp c i) (n - 1);
       f_vr := lsum (fun i => w i * w i * p_ar c i) n + z 2 * lsum (fun i => w (S i) * w i * p_br c i) (n - 1) |}.
  (** lines 587-588 *)
  Definition masked_diff (d : nat -> fo) (use : nat -> bool) (i : nat) : fo := d i * b2f (use i).
  Definition masked_beta (beta : nat -> fo) (use : nat -> bool) (i : nat) : fo := beta i * b2f (use (S i)) * b2f (use i).
  Definition fit_mats (n : nat) (c : pixcov) (scale : fo) (d : nat -> fo) (use : nat -> bool) : mats :=
    matrices n (fun i => p_alpha c i / scale) (masked_beta (fun i => p_beta c i / scale) use) (masked_diff d use) use.
  Definition fit_ramp (n : nat) (c : pixcov) (scale : fo) (d : nat -> fo) (use : nat -> bool) : lfit :=
    ramp_result n (fit_mats n c scale d use) scale c.
  (** the guess: without one, initial_count_rate_guess is called with three arguments although it takes two
      (lines 574, 482), which raises *)
  Definition fit_ramps (n : nat) (cv : covar) (root : fo -> nat -> fo) (gain rn : fo) (guess : option fo) (d : nat -> fo) (use : nat -> bool) : option lfit :=
    do g <- guess;
    let c := pixel_cov cv g gain rn in
    Some (fit_ramp n c (scale_of root n (p_alpha c) (p_beta c)) d use).

  (** ** compute_jump_detects (lines 705-771) with fill_masked_reads (classes lines 131-148) *)
  Record omits := { o_r1 : nat -> fo; o_x1 : nat -> fo; o_r2 : nat -> fo; o_x2 : nat -> fo }.
  Definition cinv_diag (n : nat) (alpha beta : nat -> fo) (use : nat -> bool) (i : nat) : fo :=
    theta alpha beta i * phi n alpha beta (S i) / theta alpha beta n * b2f (use i).
  Definition cinv_off (n : nat) (alpha beta : nat -> fo) (i : nat) : fo :=
    lneg (beta i) * theta alpha beta i * phi n alpha beta (S (S i)) / theta alpha beta n.
  Definition rate_one (k : mats) (ci : nat -> fo) (i : nat) : fo :=
    (ci i * k_B k - k_dB k i * k_dC k i) / (k_C k * ci i - k_dC k i * k_dC k i).
  Definition chisq_one (k : mats) (ci : nat -> fo) (scale : fo) (i : nat) : fo :=
    let a := rate_one k ci i in let b := (k_dB k i - a * k_dC k i) / ci i in
    (k_A k + a * a * k_C k - z 2 * a * k_B k + b * b * ci i - z 2 * b * k_dB k i + z 2 * a * b * k_dC k i) / scale.
  (** best-fit (a, b, c) with differences i and i+1 omitted (lines 742-752) *)
  Definition abc_two (k : mats) (ci co : nat -> fo) (i : nat) : fo * fo * fo :=
    let x := k_dC k i in let y := k_dC k (S i) in
    let cpj := x * x - k_C k * ci i in
    let cjck := x * y - k_C k * co i in
    let bcpj := k_B k * x - k_dB k i * k_C k in
    let c0 := bcpj / cpj - (k_B k * y - k_dB k (S i) * k_C k) / cjck in
    let c := c0 / (cjck / cpj - (y * y - k_C k * ci (S i)) / cjck) in
    let b := (bcpj - c * cjck) / cpj in
    let a := (k_B k - b * x - c * y) / k_C k in (a, b, c).
  Definition chisq_two (k : mats) (ci co : nat -> fo) (scale : fo) (i : nat) : fo :=
    let '(a, b, c) := abc_two k ci co i in
    (k_A k + a * a * k_C k + b * b * ci i + c * c * ci (S i)
     - (z 2 * a * k_B k + z 2 * b * k_dB k i + z 2 * c * k_dB k (S i))
     + (z 2 * a * b * k_dC k i + z 2 * a * c * k_dC k (S i) + z 2 * b * c * co i)) / scale.
  Definition omissions (n : nat) (c : pixcov) (scale : fo) (d : nat -> fo) (use : nat -> bool) : omits :=
    let al i := p_alpha c i / scale in let be := masked_beta (fun i => p_beta c i / scale) use in
    let k := fit_mats n c scale d use in let r := fit_ramp n c scale d use in
    let ci := cinv_diag n al be use in let co := cinv_off n al be in
    let r1 i := if use i then rate_one k ci i else f_rate r in
    let x1 i := if use i then chisq_one k ci scale i else f_chisq r in
    {| o_r1 := r1; o_x1 := x1;
       o_r2 := fun i => if negb (use i) then r1 (S i) else if negb (use (S i)) then r1 i else fst (fst (abc_two k ci co i));
       o_x2 := fun i => if negb (use i) then x1 (S i) else if negb (use (S i)) then x1 i else chisq_two k ci co scale i |}.

  (** ** Jump masking *)
  (** determine_diffs2use (lines 470-479) at one pixel; the words are converted to bytes *)
  Definition diffs2use (gdq : nat -> N) (i : nat) : bool := N.eqb (N.modulo (gdq (S i)) 256) 0 && N.eqb (N.modulo (gdq i) 256) 0.
  (** np.amax over the first [n] entries (NaN wins), n >= 1 *)
  Definition lmax (a b : fo) : fo := if fisnan fo a then a else if fisnan fo b then b else if flt fo a b then b else a.
  Definition amax (a : nat -> fo) (n : nat) : fo := fold_left lmax (map a (seq 1 (n - 1))) (a 0%nat).
  (** what mask_jumps needs of a fit with [detect_jumps=True] *)
  Record jfit := { j_rate : fo; j_chisq : fo; j_om : omits }.
  Record thresholds := { h_one : fo; h_two : fo }.
  (** lines 284-312 for one pixel: which single differences and which pairs are dropped *)
  Definition drops (n : nat) (nreads : nat -> nat) (h : thresholds) (r : jfit) : (nat -> bool) * (nat -> bool) :=
    let d1 i := j_chisq r - o_x1 (j_om r) i in let d2 i := j_chisq r - o_x2 (j_om r) i in
    let ok1 i := Nat.leb 1 (nreads (S i) * nreads i) || Nat.eqb i 0 || Nat.eqb i (n - 1)%nat in
    let ok2 i := Nat.ltb 1 (nreads (S i)) in
    let best1 := amax (fun i => d1 i * b2f (ok1 i)) n in let best2 := amax (fun i => d2 i * b2f (ok2 i)) (n - 1) in
    let better := flt fo (best2 - h_two h) (best1 - h_one h) in
    let best := best1 * b2f (flt fo (h_one h) best1) * b2f better + best2 * b2f (flt fo (h_two h) best2) * b2f (negb better) in
    let best := if feq fo best (fzero fo) then fnan fo else best in
    (fun i => feq fo (d1 i) best && better, fun i => feq fo (d2 i) best && negb better).
  Definition anyb (p : nat -> bool) (n : nat) : bool := existsb p (seq 0 n).
  Definition count_used (use : nat -> bool) (n : nat) : nat := length (filter use (seq 0 n)).
  (** state of one pixel: the differences in use, the count rate, and whether it is searched again *)
  Record mstate := { m_use : nat -> bool; m_rate : fo; m_re : bool }.
  (** one round for one pixel that is searched (lines 312-346) *)
  Definition drop_any (n : nat) (dr : (nat -> bool) * (nat -> bool)) : bool := anyb (fst dr) n || anyb (snd dr) (n - 1).
  Definition mask_use (n : nat) (dr : (nat -> bool) * (nat -> bool)) (use : nat -> bool) (i : nat) : bool :=
    use i && negb (fst dr i) && negb (Nat.ltb i (n - 1) && snd dr i) && negb (Nat.leb 1 i && snd dr (i - 1)%nat).
  Definition new_rate (n : nat) (dr : (nat -> bool) * (nat -> bool)) (om : omits) : fo :=
    if anyb (snd dr) (n - 1) then lsum (fun i => o_r2 om i * b2f (snd dr i)) (n - 1)
    else if anyb (fst dr) n then lsum (fun i => o_r1 om i * b2f (fst dr i)) n else fzero fo.
  Definition round_pixel (n : nat) (nreads : nat -> nat) (h : thresholds) (fit : (nat -> bool) -> jfit) (s : mstate) : mstate :=
    if m_re s then
      let r := fit (m_use s) in let dr := drops n nreads h r in
      let use := mask_use n dr (m_use s) in
      {| m_use := use; m_rate := m_rate s * b2f (negb (drop_any n dr)) + new_rate n dr (j_om r);
         m_re := drop_any n dr && negb (Nat.leb (count_used use n) 3) |}
    else s.
  Definition dropping (n : nat) (nreads : nat -> nat) (h : thresholds) (fit : (nat -> bool) -> jfit) (s : mstate) : bool :=
    m_re s && drop_any n (drops n nreads h (fit (m_use s))).
  (** mask_jumps over a row of [nc] pixels (lines 257-348): [fit c] is the fit of pixel c; the loop leaves early when
      no pixel drops anything, without updating anything *)
  Fixpoint mask_loop (n nc : nat) (nreads : nat -> nat) (h : thresholds) (fit : nat -> (nat -> bool) -> jfit) (rounds : nat) (s : nat -> mstate) : nat -> mstate :=
    match rounds with
    | 0 => s
    | S k => if anyb (fun c => dropping n nreads h (fit c) (s c)) nc then mask_loop n nc nreads h fit k (fun c => round_pixel n nreads h (fit c) (s c)) else s
    end.
  Definition mask_jumps (n nc : nat) (nreads : nat -> nat) (h : thresholds) (fit : nat -> (nat -> bool) -> jfit) (use : nat -> nat -> bool) : nat -> mstate :=
    mask_loop n nc nreads h fit n (fun c => {| m_use := use c; m_rate := j_rate (fit c (use c)); m_re := true |}).
  (** lines 125-127 and 143-148 for one pixel without ZEROFRAME: the group DQ after the fit *)
  Definition jump_dq (jump : N) (gdq : nat -> N) (before after : nat -> bool) (n : nat) (g : nat) : N :=
    match g with 0 => gdq 0 | S i => N.lor (gdq (S i)) (flag_if (Nat.ltb i n && xorb (before i) (after i)) jump) end.
  (** line 141, after the snowball search *)
  Definition after_snowballs (jump : N) (gdq : nat -> N) (use : nat -> bool) (i : nat) : bool := use i && N.eqb (N.land (gdq (S i)) jump) 0.

  (** ** Several integrations: compute_image_info (lines 401-447) for one pixel *)
  Record lint := { n_rate : fo; n_dq : N; n_vp : fo; n_vr : fo; n_err : fo; n_chisq : fo }.
  Definition nansum (l : list fo) : fo := suml (map (fun x => if fisnan fo x then fzero fo else x) l).
  Definition nansum_or_nan (l : list fo) : fo := if forallb (fisnan fo) l then fnan fo else nansum l.
  (** one of the two passes (lines 423-431): the integrations' scaled Poisson variances, weights and the new slope *)
  Definition image_pass (ints : list lint) (slope : fo) : list fo * list fo * fo :=
    let rs i := let r := slope / n_rate i in if negb (fisfinite fo r) || flt fo r (fzero fo) then fzero fo else r in
    let vp := map (fun i => n_vp i * rs i) ints in
    let w := map (fun iv => fone fo / (snd iv + n_vr (fst iv))) (combine ints vp) in
    let tot := nansum w in let w := map (fun x => x / tot) w in
    (vp, w, nansum_or_nan (map (fun iw => n_rate (fst iw) * snd iw) (combine ints w))).
  (** [median] is np.nanmedian of the rates; [dq] is utils.dq_compress_final (OlsPyModel) *)
  Definition image_info (median : list fo -> fo) (final_dq : list N -> option N) (ints : list lint) : option lint :=
    match ints with
    | [] => None
    | [i] => Some i
    | _ =>
        do dq <- final_dq (map n_dq ints);
        let '(_, _, s1) := image_pass ints (median (map n_rate ints)) in
        let '(vp, w, s2) := image_pass ints s1 in
        let var v := nansum_or_nan (map (fun vw => fst vw * (snd vw * snd vw)) (combine v w)) in
        let var_p := var vp in let var_r := var (map n_vr ints) in
        Some {| n_rate := s2; n_dq := dq; n_vp := var_p; n_vr := var_r; n_err := fsqrt fo (var_p + var_r); n_chisq := suml (map n_chisq ints) |}
    end.
End Numbers.

(** ** The read pattern (lines 351-381, 46-71): the caller's list, which get_readtimes returns itself; None: not given *)
Definition read_pattern_after {T} (pattern : option (list (list T))) (zeroframe : bool) : option (list (list T)) :=
  match pattern with
  | Some ((t0 :: t1 :: ts) :: gs) => if zeroframe then Some ([t0] :: (t1 :: ts) :: gs) else pattern
  | _ => pattern
  end.
(** does the first integration get through the subtraction and division of line 97?  [ng] is the number of groups;
    diff has one row fewer than the (possibly extended) data and is divided by delta_t, one shorter than the read-time
    table (numpy broadcasting also allows a single entry) *)
Definition shapes_agree {T} (pattern : list (list T)) (zeroframe : bool) (ng : nat) : bool :=
  let used := zeroframe && match pattern with (_ :: _ :: _) :: _ => true | _ => false end in
  let rows := if used then S ng else ng in
  let table := if used then S (length pattern) else length pattern in
  Nat.eqb (rows - 1) (table - 1) || Nat.eqb (table - 1) 1 || Nat.eqb (rows - 1) 1.
(** likely_ramp_fit's guard and the above: does a call succeed up to the fits, and what does the caller's pattern become *)
Definition likely_call {T} (pattern : list (list T)) (zeroframe : bool) (ng : nat) : bool * list (list T) :=
  if Nat.ltb ng 4 then (false, pattern)
  else match read_pattern_after (Some pattern) zeroframe with Some q => (shapes_agree pattern zeroframe ng, q) | None => (false, pattern) end.
