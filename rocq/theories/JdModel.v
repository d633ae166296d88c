(** The whole jump step: detect_jumps_data (src/stcal/jump/jump.py lines 29-120), with what the constructors of JumpData
    (src/stcal/jump/jump_class.py) and TwoPointParams (src/stcal/jump/twopoint_difference_class.py) prepare for it.
    The detection, large-event and shower parts are JumpModel and SnowModel. *)
From Coq Require Import String.
From Verif Require Import Base JumpModel SnowModel MpModel.

(** ** Group timing *)
Section Timing.
  Variable fo : FOps.
  (** np.mean of a list; summed from the left *)
  Definition mean_of (l : list fo) : fo := fdiv fo (fold_left (fadd fo) l (fzero fo)) (fofZ fo (Z.of_nat (List.length l))).
  (** np.diff (jump_class.py line 57) and the sums of adjacent entries (line 59) *)
  Fixpoint pairs {A B} (f : A -> A -> B) (l : list A) : list B :=
    match l with x :: (y :: _) as l' => f x y :: pairs f l' | _ => [] end.
  (** JumpData.__init__ (jump_class.py lines 43-67): (dt_group, n_reads_groupdiff); without a read pattern nframes must not be 0 *)
  Definition timing (nframes : nat) (pattern : option (list (list fo))) : option (list fo * list fo) :=
    match pattern with
    | Some p => Some (pairs (fun a b => fsub fo b a) (map mean_of p),
                      map (fun n => fofZ fo (Z.of_nat n)) (pairs (fun a b => (b + a)%nat) (map (@List.length fo) p)))
    | None => if Nat.eqb nframes 0 then None else Some ([fone fo], [fmul fo (fmul fo (fone fo) (fofZ fo 2)) (fofZ fo (Z.of_nat nframes))])
    end.
  (** numpy broadcasting over [nd] differences (twopoint_difference.py lines 179, 196-199).  A list whose length is neither 1 nor
      [nd] is an error here; numpy would stretch a single difference.  Entries past the last are never read *)
  Definition along (nd : nat) (l : list fo) : option (nat -> fo) :=
    match l with
    | [x] => Some (fun _ => x)
    | _ => if Nat.eqb (List.length l) nd then Some (fun j => nth j l (hd (fnan fo) l)) else None
    end.
  (** np.std(l) == 0 (twopoint_difference.py line 482): the square root is 0 exactly when the mean square is *)
  Definition no_spread (l : list fo) : bool :=
    let m := mean_of l in feq fo (fsqrt fo (mean_of (map (fun x => fmul fo (fabs fo (fsub fo x m)) (fabs fo (fsub fo x m))) l))) (fzero fo).
End Timing.

(** ** JumpData (jump_class.py lines 9-228), the fields that are read *)
Record jump_data (fo : FOps) := {
  j_data : arr4 fo; j_gdq : arr4 N; j_pdq : img N; j_gain : img fo; j_rn : img fo;
  j_nframes : nat; j_pattern : option (list (list fo));
  j_ngv : N;                                 (* NO_GAIN_VALUE; the other flags are in [j_snow] *)
  j_rej : fo; j_three : fo; j_four : fo;     (* rejection_thresh, three_grp_thresh, four_grp_thresh *)
  j_neigh : bool; j_maxneigh : fo; j_minneigh : fo;
  j_dn1 : fo; j_n1 : Z; j_dn2 : fo; j_n2 : Z;
  j_mingroups : Z; j_minsigclip : Z; j_onlyints : bool; j_singlepass : Z;
  j_large : bool; j_showers : bool;          (* expand_large_events, find_showers *)
  j_snow : snow fo;
  j_cores : option string                    (* max_cores; None is the value of a new JumpData (line 225) *)
}.
Arguments j_data {fo}. Arguments j_gdq {fo}. Arguments j_pdq {fo}. Arguments j_gain {fo}. Arguments j_rn {fo}. Arguments j_nframes {fo}.
Arguments j_pattern {fo}. Arguments j_ngv {fo}. Arguments j_rej {fo}. Arguments j_three {fo}. Arguments j_four {fo}. Arguments j_neigh {fo}.
Arguments j_maxneigh {fo}. Arguments j_minneigh {fo}. Arguments j_dn1 {fo}. Arguments j_n1 {fo}. Arguments j_dn2 {fo}. Arguments j_n2 {fo}.
Arguments j_mingroups {fo}. Arguments j_minsigclip {fo}. Arguments j_onlyints {fo}. Arguments j_singlepass {fo}. Arguments j_large {fo}.
Arguments j_showers {fo}. Arguments j_snow {fo}. Arguments j_cores {fo}.

Section Step.
  Variable fo : FOps.
  (** external: see JumpModel, SnowModel and ShModel *)
  Variable med : list fo -> fo.
  Variable sigclip : bool -> nat -> nat -> (nat -> nat -> fo) -> nat -> nat -> bool.
  Variable crowded : nat -> nat -> nat -> cube bool -> bool.
  Variable rnd : fo -> Z.
  Variable disk : Z -> Z -> fo -> Z -> Z -> bool.
  Variable sat_regions jump_regions : img bool -> list (ellipse fo).
  Variable inside : fo * fo -> ellipse fo -> bool.
  (** lines 817-855 for the read noise in electrons (line 76) *)
  Variable shower_regions : img fo -> arr4 fo -> arr4 N -> img N -> nat -> nat -> list (ellipse fo).
  Variable mean : list fo -> fo.

  (** lines 74-76: the data and the read noise in electrons *)
  Definition electrons (J : jump_data fo) : arr4 fo := fun i g r c => fmul fo (j_data J i g r c) (j_gain J r c).
  Definition noise_e (J : jump_data fo) : img fo := fun r c => fmul fo (j_rn J r c) (j_gain J r c).
  (** np.nanmedian(gain_2d) (lines 79-80) *)
  Definition typical_gain (nr nc : nat) (J : jump_data fo) : fo := nanmedian fo med (flat2 fo nr nc (j_gain J)).
  (** TwoPointParams.__init__ (twopoint_difference_class.py lines 4-44) after lines 79-80 *)
  Definition two_point (nr nc : nat) (J : jump_data fo) (dt nreads : nat -> fo) (uniform : bool) : params fo :=
    {| p_dnu := s_dnu (j_snow J); p_sat := s_sat (j_snow J); p_jump := s_jump (j_snow J);
       p_thresh := j_rej J; p_thresh3 := j_four J; p_thresh2 := j_three J;
       p_neigh := j_neigh J; p_maxneigh := j_maxneigh J; p_minneigh := j_minneigh J;
       p_n1 := j_n1 J; p_n2 := j_n2 J;
       p_e1 := fmul fo (j_dn1 J) (typical_gain nr nc J); p_e2 := fmul fo (j_dn2 J) (typical_gain nr nc J);
       p_mingroups := j_mingroups J; p_minsigclip := j_minsigclip J; p_onlyints := j_onlyints J; p_singlepass := j_singlepass J;
       p_dt := dt; p_nreads := nreads; p_uniform := uniform |}.
  (** lines 91-98: the DQ array and the number of primary cosmic rays *)
  Definition two_point_pass (P : params fo) (nints ng nr nc : nat) (dat : arr4 fo) (gdq : arr4 N) (rn : img fo) (n : nat) : arr4 N * Z :=
    if Nat.eqb n 1 then let x := find_crs fo med sigclip crowded (with_mingroups fo P 3) nints ng nr nc dat gdq rn in (res_gdq x, snd x)
    else twopoint_diff_multi fo med sigclip crowded P nints ng nr nc dat gdq rn n.
  (** the data array after lines 91-98.  In one process find_crs works on this array and, unless it gives up early, blanks the
      saturated and unusable samples in it (twopoint_difference.py line 170); spawned processes (line 156) work on copies *)
  Definition data_after (P : params fo) (nints ng nr nc : nat) (dat : arr4 fo) (gdq : arr4 N) (n : nat) : arr4 fo :=
    if Nat.eqb n 1 && negb (skip fo (with_mingroups fo P 3) nints ng nr nc gdq) then mask_data fo P dat gdq else dat.
  (** lines 105-114: snowballs, then showers; the number of the latter replaces the number of the former *)
  Definition extended (nints ng nr nc : nat) (J : jump_data fo) (dat : arr4 fo) (pdq : img N) (gdq : arr4 N) : option (arr4 N * nat) :=
    do e <- (if j_large J then flag_large_events fo (j_snow J) rnd disk sat_regions jump_regions inside nints ng nr nc gdq else Some (gdq, 0%nat));
    Some (if j_showers J
          then find_faint_extended fo (j_snow J) rnd disk (shower_regions (noise_e J)) mean nints ng nr nc dat (fst e) pdq
          else e).
  (** detect_jumps_data (lines 29-120) on [available] processors: group DQ, pixel DQ, primary cosmic rays, extended events *)
  Definition detect_jumps_data (nints ng nr nc available : nat) (J : jump_data fo) : option (arr4 N * img N * Z * nat) :=
    do t <- timing fo (j_nframes J) (j_pattern J);
    do dt <- along fo (ng - 1)%nat (fst t);
    do nreads <- along fo (ng - 1)%nat (snd t);
    let P := two_point nr nc J dt nreads (no_spread fo (snd t) && no_spread fo (fst t)) in
    let pdq := setup_pdq fo (j_ngv J) (s_dnu (j_snow J)) (j_gain J) (j_pdq J) in
    do cores <- j_cores J;                                              (* None.isnumeric() raises *)
    let n := compute_num_cores cores nr available in
    if Nat.eqb n 0 then None                                            (* nrows // 0 in slice_data (line 256) *)
    else
      let '(g1, total) := two_point_pass P nints ng nr nc (electrons J) (j_gdq J) (noise_e J) n in
      do e <- extended nints ng nr nc J (data_after P nints ng nr nc (electrons J) (j_gdq J) n) pdq (strip fo P g1);
      Some (fst e, pdq, total, snd e).
End Step.
