(** Model of the whole likelihood ramp fit: likely_ramp_fit (/repo/src/stcal/ramp_fitting/likely_fit.py lines 18-169), which runs
    the pieces of LikelyModel and DrvModel over all pixels of all integrations.  Line numbers refer to that file. *)
From Verif Require Import Base JumpModel SnowModel LikelyModel OlsModel OlsPyModel DrvModel.
From Verif Require DarkModel.
Notation mapM := DarkModel.mapM.

(** RampData (ramp_fit_class.py) and the arguments, as far as they are read here.  Arrays are functions; [l_ng] groups. *)
Record likely_in (fo : FOps) := {
  l_nints : nat; l_ng : nat; l_nr : nat; l_nc : nat;
  l_data : arr4 fo; l_gdq : arr4 N; l_pdq : img N;
  l_zf : option (cube fo);                (* the ZEROFRAME images; None: not given *)
  l_nframes : nat;
  l_times : list (list fo);               (* what get_readtimes returns (lines 351-381) *)
  l_rn : img fo; l_gain : img fo; l_dark : img fo;
  l_h : thresholds fo;                    (* lines 104-109, or the defaults of mask_jumps (lines 177-178) *)
  l_flags : oflags;
  l_snow : option (snow fo)               (* jump_data with expand_large_events set; None: not asked for *)
}.
Arguments l_nints {fo}. Arguments l_ng {fo}. Arguments l_nr {fo}. Arguments l_nc {fo}. Arguments l_data {fo}. Arguments l_gdq {fo}. Arguments l_pdq {fo}.
Arguments l_zf {fo}. Arguments l_nframes {fo}. Arguments l_times {fo}. Arguments l_rn {fo}. Arguments l_gain {fo}. Arguments l_dark {fo}.
Arguments l_h {fo}. Arguments l_flags {fo}. Arguments l_snow {fo}.

Section Likely.
  Variable fo : FOps.
  (** the root in compute_alphas_betas, np.median (of the differences), np.nanmedian (of the integrations), np.sqrt(2), storing a float64 as float32 (IntegInfo) *)
  Variable root : fo -> nat -> fo.
  Variable median nanmed : list fo -> fo.
  Variable sqrt2 : fo.
  Variable narrow : fo -> fo.
  (** the external parts of flag_large_events (SnowModel).  jump_data's flag values are those of ramp_data. *)
  Variable rnd : fo -> Z.
  Variable disk : Z -> Z -> fo -> Z -> Z -> bool.
  Variable sat_regions jump_regions : img bool -> list (ellipse fo).
  Variable inside : fo * fo -> ellipse fo -> bool.
  Variable L : likely_in fo.

  (** lines 53-69, 77-93: what the fit works with at one pixel of one integration *)
  Definition pix_input (i r c : nat) : list fo * list N * list (list fo) :=
    likely_input fo (l_nframes L) (option_map (fun z => z i r c) (l_zf L))
      (map (fun g => l_data L i g r c) (seq 0 (l_ng L))) (map (fun g => l_gdq L i g r c) (seq 0 (l_ng L))) (l_times L).
  (** the read times in use and the number of differences (lines 53-71, 96) *)
  Definition times_used : list (list fo) := snd (likely_input fo (l_nframes L) (option_map (fun _ => fzero fo) (l_zf L)) [] [] (l_times L)).
  Definition ndiffs : nat := (length times_used - 1)%nat.
  Definition cov : covar fo := mk_covar fo times_used.
  Definition pix_diff (i r c : nat) (k : nat) : fo := diffs fo (fst (fst (pix_input i r c))) times_used k.
  Definition pix_words (i r c : nat) (k : nat) : N := nth k (snd (fst (pix_input i r c))) 0%N.
  Definition rnoise (r c : nat) : fo := fdiv fo (l_rn L r c) sqrt2.                                        (* line 74 *)
  Definition positive (x : fo) : fo := fmul fo x (b2f fo (flt fo (fzero fo) x)).                           (* x * (x > 0) *)
  (** the fit of mask_jumps (lines 246-283): the guess is the median of the differences *)
  Definition search_fit (i r c : nat) (use : nat -> bool) : jfit fo :=
    let d := pix_diff i r c in
    let cv := pixel_cov fo cov (positive (median (map d (seq 0 ndiffs)))) (l_gain L r c) (rnoise r c) in
    let scale := scale_of fo root ndiffs (p_alpha fo cv) (p_beta fo cv) in
    let f := fit_ramp fo ndiffs cv scale d use in
    {| j_rate := f_rate fo f; j_chisq := f_chisq fo f; j_om := omissions fo ndiffs cv scale d use |}.
  Definition use_before (i r c : nat) : nat -> bool := diffs2use (pix_words i r c).                        (* line 102 *)
  (** lines 104-122: one row *)
  Definition searched (i r : nat) : nat -> mstate fo :=
    mask_jumps fo ndiffs (l_nc L) (c_n fo cov) (l_h L) (search_fit i r) (use_before i r).
  (** the mask has [ndiffs] entries *)
  Definition use_after (i r c : nat) : nat -> bool := fun k => Nat.ltb k ndiffs && m_use fo (searched i r c) k.
  (** lines 124-127: the copy of the group DQ, with the ZEROFRAME's row in front if it is used *)
  Definition gdq_search (i : nat) : cube N := fun g r c => jump_dq (o_jump (l_flags L)) (pix_words i r c) (use_before i r c) (use_after i r c) ndiffs g.
  (** line 130 *)
  Definition rate_guess (i r c : nat) : fo := fadd fo (positive (m_rate fo (searched i r c))) (l_dark L r c).
  (** lines 132-139: gdq[None] has one integration *)
  Definition gdq_work (i : nat) : option (cube N) :=
    match l_snow L with
    | None => Some (gdq_search i)
    | Some P => do e <- flag_large_events fo P rnd disk sat_regions jump_regions inside 1 (S ndiffs) (l_nr L) (l_nc L) (fun _ => gdq_search i);
                Some (fst e 0)
    end.
  (** line 141 *)
  Definition use_final (i : nat) (g : cube N) (r c : nat) : nat -> bool :=
    match l_snow L with
    | None => use_after i r c
    | Some _ => after_snowballs (o_jump (l_flags L)) (fun k => g k r c) (use_after i r c)
    end.
  (** lines 147-148: the last [l_ng] of the rows *)
  Definition gdq_back (i : nat) (g : cube N) : cube N := fun k r c => N.lor (l_gdq L i k r c) (g (k + (S ndiffs - l_ng L))%nat r c).
  (** lines 150-162 *)
  Definition pix_result (i : nat) (g : cube N) (r c : nat) : option (lint fo) :=
    do f <- fit_ramps fo ndiffs cov root (l_gain L r c) (rnoise r c) (Some (rate_guess i r c)) (pix_diff i r c) (use_final i g r c);
    Some {| n_rate := narrow (f_rate fo f); n_dq := dq_compress_sect (l_flags L) (map (fun k => g k r c) (seq 0 (S ndiffs))) (l_pdq L r c);
            n_vp := narrow (f_vp fo f); n_vr := narrow (f_vr fo f); n_err := narrow (f_uncert fo f); n_chisq := narrow (f_chisq fo f) |}.

  (** likely_ramp_fit: the caller's group DQ afterwards, the integrations' results and those of the image (lines 76-169), at every pixel;
      None: it raises.  Fewer than four groups raise (lines 44-46); read times that do not match the groups are left out here (C40). *)
  Definition likely_ramp_fit : option (arr4 N * (nat -> img (option (lint fo))) * img (option (lint fo))) :=
    if Nat.ltb (l_ng L) 4 || negb (Nat.eqb (length (l_times L)) (l_ng L)) then None
    else
      do gs <- mapM gdq_work (seq 0 (l_nints L));
      let g i := nth i gs (gdq_search i) in
      let pix i r c := pix_result i (g i) r c in
      Some (fun i k r c => if Nat.ltb i (l_nints L) then gdq_back i (g i) k r c else l_gdq L i k r c, pix,
            fun r c => do ints <- mapM (fun i => pix i r c) (seq 0 (l_nints L)); image_info fo nanmed (dq_compress_final (o_dnu (l_flags L))) ints).
End Likely.
