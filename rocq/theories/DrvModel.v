(** The entry points of ramp fitting: ramp_fit.py (create_ramp_fit_class, ramp_fit, ramp_fit_data),
    ramp_fit_class.py (set_dqflags), ols_fit.py (ols_ramp_fit_multi) and the start of likely_fit.py (likely_ramp_fit).
    Not modelled here: units (ramp_fit_class.py 87-90 takes a Quantity's value), logging, byte order and slices
    (OlsPyModel, MpModel), the optional results (OptModel). *)
From Verif Require Import Base OlsModel OlsPyModel LikelyModel.
From Coq Require Import String Ascii.
Local Open Scope nat_scope.

(** str.upper on ASCII strings (other characters are left as they are) *)
Definition upper1 (c : ascii) : ascii := let n := nat_of_ascii c in if Nat.leb 97 n && Nat.leb n 122 then ascii_of_nat (n - 32) else c.
Fixpoint upper (s : string) : string := match s with EmptyString => EmptyString | String c s' => String (upper1 c) (upper s') end.
Definition ALG_OLS : string := "OLS_C".
Definition ALG_LIKELY : string := "LIKELY".
(** a python dict from names to flag values; None: KeyError *)
Definition flagdict := string -> option N.

Section Driver.
  Variable fo : FOps.
  Variable powf : fo -> fo -> fo.
  (** the attributes of the data model that are read (ramp_fit.py lines 58-103) *)
  Record rmodel := { w_ni : nat; w_ng : nat; w_nr : nat; w_nc : nat;
    w_data : nat -> nat -> img fo; w_gdq : nat -> nat -> img N; w_pdq : img N; w_dark : option (img fo); w_zf : option (nat -> img fo);
    w_name : string; w_frame : fo; w_group : fo; w_gap : nat; w_nframes : nat; w_drop : option nat; w_times : list (list fo) }.
  (** class RampData (ramp_fit_class.py lines 6-57): the model's attributes, the flags (CHARGELOSS may stay None), the copy of the
      group DQ, the read pattern, the suppression switch *)
  Record rdata := { d_in : rmodel; d_gdq : nat -> nat -> img N; d_dark : img fo; d_orig : option (nat -> nat -> img N);
    d_dnu : N; d_jump : N; d_sat : N; d_pers : N; d_ngval : N; d_uslope : N; d_chg : option N; d_pattern : option (list (list fo)); d_sup : bool }.
  (** np.any(groupdq & flag > 0) (lines 72-73) *)
  Definition any_flag (w : rmodel) (flag : N) : bool :=
    existsb (fun i => existsb (fun g => existsb (fun rc => has (w_gdq w i g (fst rc) (snd rc)) flag) (pixels (w_nr w) (w_nc w))) (seq 0 (w_ng w))) (seq 0 (w_ni w)).
  (** create_ramp_fit_class (ramp_fit.py lines 56-114) with set_dqflags (ramp_fit_class.py lines 143-152) *)
  Definition create (w : rmodel) (alg : string) (dq : flagdict) (sup : bool) : option rdata :=
    let ols := String.eqb (upper alg) ALG_OLS in
    do orig <- (if ols then do c <- dq "CHARGELOSS"%string; Some (if any_flag w c then Some (w_gdq w) else None) else Some None);
    do dnu <- dq "DO_NOT_USE"%string; do jump <- dq "JUMP_DET"%string; do sat <- dq "SATURATED"%string; do pers <- dq "PERSISTENCE"%string;
    do ngval <- dq "NO_GAIN_VALUE"%string; do uslope <- dq "UNRELIABLE_SLOPE"%string;
    do chg <- (if ols then do c <- dq "CHARGELOSS"%string; Some (Some c) else Some None);
    Some {| d_in := w; d_gdq := w_gdq w; d_dark := match w_dark w with Some d => d | None => fun _ _ => fzero fo end; d_orig := orig;
            d_dnu := dnu; d_jump := jump; d_sat := sat; d_pers := pers; d_ngval := ngval; d_uslope := uslope; d_chg := chg;
            d_pattern := match w_times w with [] => None | l => Some l end; d_sup := sup |}.
  (** the flags the C code reads; flags_chargeloss None becomes 0 (slope_fitter.c lines 2128-2142) *)
  Definition c_flags (d : rdata) : oflags :=
    {| o_dnu := d_dnu d; o_jump := d_jump d; o_sat := d_sat d; o_pers := d_pers d; o_ngval := d_ngval d; o_chg := match d_chg d with Some c => c | None => 0%N end |}.

  (** ** OLS *)
  (** what the C code gets for one pixel: groups [off], [off+1], ... of the arrays (the ZEROFRAME is per integration) *)
  Definition pixel_in (d : rdata) (gdq : nat -> nat -> img N) (off : nat) (rn gain : img fo) (r c : nat) : opix fo :=
    {| x_data := fun i g => w_data (d_in d) i (off + g) r c; x_gdq := fun i g => gdq i (off + g) r c; x_dq := w_pdq (d_in d) r c;
       x_gain := gain r c; x_rn := rn r c; x_dark := d_dark d r c;
       x_zf := match w_zf (d_in d) with Some z => Some (fun i => z i r c) | None => None end;
       x_orig := match d_orig d with Some o => Some (fun i g => o i (off + g) r c) | None => None end |}.
  Definition pixel_meta (d : rdata) (ng : nat) : ometa fo :=
    {| m_f := c_flags d; m_nints := w_ni (d_in d); m_ng := ng; m_tgroup := w_group (d_in d); m_tframe := w_frame (d_in d); m_nframes := w_nframes (d_in d); m_sup := d_sup d |}.
  (** np.all(groupdq[:, 0] & flag) (ols_fit.py lines 83-84) *)
  Definition all_first (d : rdata) (gdq : nat -> nat -> img N) (off : nat) : bool :=
    forallb (fun i => forallb (fun rc => has (gdq i off (fst rc) (snd rc)) (d_sat d)) (pixels (w_nr (d_in d)) (w_nc (d_in d)))) (seq 0 (w_ni (d_in d))).
  (** ols_ramp_fit_multi (ols_fit.py lines 63-105): None for (None, None, None), else the fit of every pixel *)
  Definition ols_image (d : rdata) (gdq : nat -> nat -> img N) (rn gain : img fo) : option (img (pfit fo * list (pfit fo))) :=
    let w := d_in d in
    do x <- (if String.eqb (w_name w) "MIRI" && Nat.ltb 1 (w_ng w) then
               let '(mem, r) := discard_miri (c_flags d) (w_ni w) (w_ng w) (w_nr w) (w_nc w) gdq in do y <- r; Some (mem, fst y, snd y)
             else Some (gdq, 0, w_ng w));
    let '(mem, off, ng) := x in
    if all_first d mem off then None
    else Some (fun r c => ols_pixel fo powf (pixel_meta d ng) (pixel_in d mem off rn gain r c)).

  (** ** The choice of algorithm *)
  (** ramp_fit_data (ramp_fit.py lines 245-276); [L] is what the likelihood fit returns *)
  Variable L : Type.
  Variable likely : rdata -> img fo -> img fo -> L.
  Inductive fitted := by_likely (l : L) | by_ols (r : option (img (pfit fo * list (pfit fo)))).
  Definition fit_data (d : rdata) (rn gain : img fo) (alg : string) : fitted :=
    let w := d_in d in
    if String.eqb (upper alg) ALG_LIKELY && Nat.leb 4 (w_ng w) then by_likely (likely d rn gain)
    else
      let rn := fun r c => scaled_readnoise fo (w_nframes w) (gain r c) (rn r c) in
      let gdq := if d_sup d then suppress (c_flags d) (w_ni w) (w_ng w) (w_nr w) (w_nc w) (d_gdq d) else d_gdq d in
      by_ols (ols_image d gdq rn gain).
  (** ramp_fit (ramp_fit.py lines 186-196) *)
  Definition ramp_fit (w : rmodel) (rn gain : img fo) (alg : string) (dq : flagdict) (sup : bool) : option fitted :=
    let sup := if sup && Nat.eqb (w_ng w) 1 then false else sup in
    do d <- create w alg dq sup; Some (fit_data d rn gain alg).

  (** ** The ZEROFRAME in the likelihood fit (likely_fit.py lines 53-97), one pixel of one integration *)
  (** the groups' data with the ZEROFRAME sample [zf] in front; [data] are the groups' means *)
  Definition zf_data (nframes : nat) (zf : fo) (data : list fo) : list fo :=
    match data with
    | [] => [zf]
    | d0 :: ds => zf :: fdiv fo (fsub fo (fmul fo d0 (fofZ fo (Z.of_nat nframes))) zf) (fofZ fo (Z.of_nat nframes - 1)) :: ds
    end.
  (** the words: the first group's word twice *)
  Definition zf_words (words : list N) : list N := match words with [] => [] | w0 :: ws => w0 :: w0 :: ws end.
  (** (data[1:] - data[:-1]) / delta_t *)
  Definition diffs (data : list fo) (times : list (list fo)) (i : nat) : fo :=
    fdiv fo (fsub fo (nth (S i) data (fzero fo)) (nth i data (fzero fo))) (c_dt fo (mk_covar fo times) i).
  (** data, words and read times the fit works with; the ZEROFRAME is used if the first group has two or more reads *)
  Definition likely_input (nframes : nat) (zf : option fo) (data : list fo) (words : list N) (times : list (list fo)) : list fo * list N * list (list fo) :=
    match zf, times with
    | Some z, (t0 :: t1 :: ts) :: gs => (zf_data nframes z data, zf_words words, [t0] :: (t1 :: ts) :: gs)
    | _, _ => (data, words, times)
    end.
  (** get_readtimes without a read pattern (lines 374-379) *)
  Definition readtimes (frame : fo) (nframes gap ng : nat) : list (list fo) :=
    map (fun k => map (fun j => fmul fo (fofZ fo (Z.of_nat (j + k * (nframes + gap)))) frame) (seq 1 nframes)) (seq 0 ng).
End Driver.
