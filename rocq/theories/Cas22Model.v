(** Model of the Casertano+22 ramp fit: /repo/src/stcal/ramp_fitting/ols_cas22/_ramp.pyx, _jump.pyx and
    _fit.pyx.  Line numbers refer to those files.

    Arithmetic is over any [FOps]; the mix of float (storage) and double (intermediate) precision of the
    code is not distinguished: one arithmetic is used throughout.  pow and log10 are parameters.
    A pixel's resultants, mean times and DQ are index functions [nat -> _] with the number of resultants
    [n] passed separately. *)
From Verif Require Import Base.
Local Open Scope nat_scope.

(** RampIndex (_ramp.pxd lines 6-8): first and last resultant of a ramp *)
Notation ramp := (nat * nat)%type.
(** RampFit (_ramp.pxd lines 11-14) *)
Record rfit (fo : FOps) := { f_slope : fo; f_read : fo; f_poisson : fo }.
Arguments f_slope {fo}. Arguments f_read {fo}. Arguments f_poisson {fo}.

(** init_ramps (_ramp.pyx lines 146-204).  The state is the vector of finished ramps and the start of
    the open ramp (-1 is [None]).  The open ramp's end is still -1 whenever its start is set. *)
Definition init_step (dq : nat -> Z) (st : list ramp * option nat) (i : nat) : list ramp * option nat :=
  let '(rs, start) := st in
  match start with
  | None => if Z.eqb (dq i) 0 then (rs, Some i) else (rs, None)
  | Some s => if Z.eqb (dq i) 0 then (rs, Some s) else (rs ++ [(s, i - 1)], None)
  end.
Definition init_ramps (dq : nat -> Z) (n : nat) : list ramp :=
  let '(rs, start) := fold_left (init_step dq) (seq 0 n) ([], None) in
  match start with Some s => rs ++ [(s, n - 1)] | None => rs end.

(** fit_jumps' work list (_jump.pyx lines 446-581), parametric in the ramp fit and in the jump decision
    of one ramp ([Some k]: the statistic exceeds the threshold and is largest at relative index [k]).
    The stack's top (vector back) is the head of the list.  [w_fits] and [w_jumps] are the diagnostic
    vectors in push order. *)
Definition JUMP_DET : Z := 4.        (* _jump.pxd lines 31-32 *)
Section WorkList.
  Variable A : Type.
  Variable fit : ramp -> A.
  Variable detect : ramp -> A -> option nat.
  Record work := { w_stack : list ramp; w_dq : nat -> Z; w_fits : list (ramp * A); w_jumps : list nat }.
  (** one iteration for the popped ramp [r] (lines 472-571) *)
  Definition body (r : ramp) (rest : list ramp) (w : work) : work :=
    let f := fit r in
    match detect r f with
    | Some k =>
        let j0 := k + fst r in let j1 := j0 + 1 in
        let st := if Nat.ltb (fst r) j0 then (fst r, j0 - 1) :: rest else rest in        (* lines 534-544 *)
        let st := if Nat.ltb j1 (snd r) then (j1 + 1, snd r) :: st else st in            (* lines 546-558 *)
        {| w_stack := st; w_dq := upd j1 JUMP_DET (upd j0 JUMP_DET (w_dq w));            (* lines 511-512 *)
           w_fits := w_fits w; w_jumps := w_jumps w ++ [j0; j1] |}
    | None => {| w_stack := rest; w_dq := w_dq w; w_fits := w_fits w ++ [(r, f)]; w_jumps := w_jumps w |}
    end.
  (** the while loop (lines 467-561); [None] if it has not stopped within [fuel] iterations *)
  Fixpoint loop (fuel : nat) (w : work) : option work :=
    match w_stack w with
    | [] => Some w
    | r :: rest => match fuel with 0 => None | S k => loop k (body r rest w) end
    end.
  Definition split_ramps (fuel : nat) (dq : nat -> Z) (n : nat) : option work :=
    loop fuel {| w_stack := rev (init_ramps dq n); w_dq := dq; w_fits := []; w_jumps := [] |}.
End WorkList.
Arguments w_stack {A}. Arguments w_dq {A}. Arguments w_fits {A}. Arguments w_jumps {A}.

Section Numbers.
  Variable fo : FOps.
  Variable pow : fo -> fo -> fo.
  Variable log10 : fo -> fo.
  Declare Scope f_scope. Delimit Scope f_scope with f.
  Notation "x + y" := (fadd fo x y) : f_scope. Notation "x * y" := (fmul fo x y) : f_scope.
  Notation "x - y" := (fsub fo x y) : f_scope. Notation "x / y" := (fdiv fo x y) : f_scope.
  Local Open Scope f_scope.
  Notation fit_t := (rfit fo).
  Definition fz (z : Z) : fo := fofZ fo z.
  Definition fn (k : nat) : fo := fofZ fo (Z.of_nat k).
  (** C fmaxf: a NaN operand is ignored *)
  Definition fmaxf (a b : fo) : fo := if fisnan fo a then b else if fisnan fo b then a else if flt fo a b then b else a.
  (** Cython's min(a, b) and max(a, 0) of C floats *)
  Definition cmin (a b : fo) : fo := if flt fo b a then b else a.
  Definition cmax0 (a : fo) : fo := if flt fo a (fzero fo) then fzero fo else a.

  (** from_read_pattern (_ramp.pyx lines 101-143), for one resultant given by its read numbers *)
  Definition sum (l : list fo) : fo := fold_left (fadd fo) l (fzero fo).
  Definition t_bar_of (read_time : fo) (reads : list Z) : fo := read_time * (sum (map fz reads) / fn (length reads)).
  Definition tau_of (read_time : fo) (reads : list Z) : fo :=
    let N := Z.of_nat (length reads) in
    fz (fold_left Z.add (map (fun p => (2 * (N - Z.of_nat (fst p)) - 1) * snd p)%Z (combine (seq 0 (length reads)) reads)) 0%Z)
      * read_time / fz (N * N)%Z.

  (** _get_power (_ramp.pyx lines 207-237).  The first row is never below -infinity. *)
  Definition PTABLE : list (fo * fo) :=
    [(fz 5, fzero fo); (fz 10, fz 4 / fz 10); (fz 20, fone fo); (fz 50, fz 3); (fz 100, fz 6)].
  Definition get_power (signal : fo) : fo :=
    match find (fun row => flt fo signal (fst row)) PTABLE with Some row => snd row | None => fz 10 end.

  Section Ramp.
    Variables resultants t_bar tau : nat -> fo.
    Variable n_reads : nat -> nat.
    Variable rn : fo.
    (** fit_ramp (_ramp.pyx lines 237-358) *)
    Definition ramp_power (r : ramp) : fo :=                                            (* lines 304-306 *)
      let p := fmaxf (resultants (snd r) - resultants (fst r)) (fzero fo) in
      get_power (p / fsqrt fo (rn * rn + p)).
    Definition t_scale (r : ramp) : fo :=                                               (* lines 310-311 *)
      let s := (t_bar (snd r) - t_bar (fst r)) / fz 2 in if feq fo s (fzero fo) then fone fo else s.
    Definition weight_at (r : ramp) (i : nat) : fo :=                                   (* lines 297, 324-325 *)
      let p := ramp_power r in let mid := (t_bar (fst r) + t_bar (snd r)) / fz 2 in
      ((fone fo + p) * fn (n_reads i)) / (fone fo + p * fn (n_reads i))
        * pow (fabs fo ((t_bar i - mid) / t_scale r)) p.
    Definition members (r : ramp) : list nat := seq (fst r) (snd r + 1 - fst r).
    Definition zfit : fit_t := {| f_slope := fzero fo; f_read := fzero fo; f_poisson := fzero fo |}.
    Definition nanfit : fit_t := {| f_slope := fnan fo; f_read := fnan fo; f_poisson := fnan fo |}.
    Definition coeff_at (r : ramp) (f0 f1 det : fo) (i : nat) : fo := (f0 * t_bar i - f1) * weight_at r i / det.   (* line 341 *)
    Definition fit_ramp (r : ramp) : fit_t :=
      if Nat.leb (snd r + 1 - fst r) 1 then nanfit                                      (* lines 279-280 *)
      else
        let is := members r in
        let f0 := sum (map (weight_at r) is) in                                         (* lines 328-330 *)
        let f1 := sum (map (fun i => weight_at r i * t_bar i) is) in
        let f2 := sum (map (fun i => weight_at r i * (t_bar i * t_bar i)) is) in
        let det := f2 * f0 - f1 * f1 in                                                 (* line 333 *)
        if feq fo det (fzero fo) then zfit                                              (* lines 336-337 *)
        else
          let '(acc, _) := fold_left (fun (st : fit_t * fo) i =>                        (* lines 339-356 *)
            let '(a, s) := st in
            let c := coeff_at r f0 f1 det i in
            ({| f_slope := f_slope a + c * resultants i;
                f_read := f_read a + c * c * (rn * rn) / fn (n_reads i);
                f_poisson := f_poisson a + (c * c * tau i + fz 2 * c * s) |}, s + c * t_bar i)) is (zfit, fzero fo) in
          acc.

    (** ** Jump detection *)
    (** fill_fixed_values (_jump.pyx lines 65-137): one entry for a single (d = 1) or double (d = 2)
        difference starting at [i] *)
    Record fixed_row := { x_diff : fo; x_diff2 : fo; x_recip : fo; x_slope : fo }.
    Definition fixed_at (d i : nat) : fixed_row :=
      let df := t_bar (i + d)%nat - t_bar i in
      {| x_diff := df; x_diff2 := df * df;
         x_recip := fone fo / fn (n_reads (i + d)%nat) + fone fo / fn (n_reads i);
         x_slope := tau (i + d)%nat + tau i - fz 2 * cmin (t_bar (i + d)%nat) (t_bar i) |}.
    (** _fill_pixel_values (_jump.pyx lines 140-200) writes local slope and read variance into the buffer
        [b] (indexed by difference kind and position) shared by all pixels; [n] resultants *)
    Definition buffer := (nat -> nat -> fo * fo)%type.
    Definition pixel_at (d i : nat) : fo * fo :=
      let x := fixed_at d i in ((resultants (i + d)%nat - resultants i) / x_diff x, rn * rn * x_recip x).
    Definition fill_pixel (n : nat) (b : buffer) : buffer := fun d i =>
      if Nat.ltb i (n - 1)%nat then
        if Nat.eqb d 1 then pixel_at 1 i
        else if Nat.eqb d 2 then if Nat.ltb i (n - 2)%nat then pixel_at 2 i else (fnan fo, fnan fo)
        else b d i
      else b d i.
    (** _threshold (_jump.pyx lines 203-221) *)
    Definition threshold (intercept constant slope : fo) : fo :=
      let s := if flt fo (fone fo) slope then slope else fone fo in
      let s := if flt fo s (fz 10000) then s else fz 10000 in
      intercept - constant * log10 s.
    (** _correction and _statstic (_jump.pyx lines 227-296) *)
    Definition correction (r : ramp) (slope : fo) : fo := (fzero fo - slope) / (t_bar (snd r) - t_bar (fst r)).
    Definition statistic (b : buffer) (d i : nat) (slope correct : fo) : fo :=
      let '(local, var_rn) := b d i in let x := fixed_at d i in
      (local - slope) / fsqrt fo ((var_rn + slope * x_slope x) / x_diff2 x + correct).
    (** _fit_statistic (_jump.pyx lines 299-390) *)
    Definition fit_statistic (b : buffer) (slope : fo) (r : ramp) : nat * fo :=
      if Nat.eqb (fst r) (snd r) then (0%nat, fnan fo)
      else
        let correct := correction r slope in
        fold_left (fun (st : nat * fo) k =>
          let i := (fst r + k)%nat in
          let stat := fmaxf (statistic b 1 i slope correct) (statistic b 2 i slope correct) in
          if flt fo (snd st) stat then (k, stat) else st)
          (seq 0 (snd r - 1 - fst r)%nat)
          ((snd r - fst r - 1)%nat, statistic b 1 (snd r - 1)%nat slope correct).
    (** the jump decision (lines 480-491) *)
    Definition detect (use_jump : bool) (intercept constant : fo) (b : buffer) (r : ramp) (f : fit_t) : option nat :=
      if use_jump then
        let '(k, stat) := fit_statistic b (f_slope f) r in
        if flt fo (threshold intercept constant (f_slope f)) stat then Some k else None
      else None.
  End Ramp.

  (** the running averages (lines 454-456, 575-593) over the recorded fits *)
  Definition accumulate (st : fit_t * fo) (f : fit_t) : fit_t * fo :=
    let '(a, tot) := st in
    if fisnan fo (f_slope f) then st
    else
      let w := if feq fo (f_read f) (fzero fo) then fzero fo else fone fo / f_read f in
      ({| f_slope := f_slope a + w * f_slope f; f_read := f_read a + w * w * f_read f;
          f_poisson := f_poisson a + w * w * f_poisson f |}, tot + w).
  Definition average (fits : list fit_t) : fit_t :=
    let '(a, tot) := fold_left accumulate fits (zfit, fzero fo) in
    let d1 := if feq fo tot (fzero fo) then fone fo else tot in
    let d2 := if feq fo tot (fzero fo) then fone fo else tot * tot in
    let s := f_slope a / d1 in
    {| f_slope := s; f_read := f_read a / d2; f_poisson := f_poisson a / d2 * cmax0 s |}.

  (** fit_jumps for one pixel: averages, DQ, diagnostics and the buffer it leaves behind *)
  Record pixel_out := { p_avg : fit_t; p_dq : nat -> Z; p_fits : list (ramp * fit_t); p_jumps : list nat }.
  Definition fit_jumps (use_jump : bool) (intercept constant : fo) (t_bar tau : nat -> fo) (n_reads : nat -> nat) (n : nat)
      (resultants : nat -> fo) (dq : nat -> Z) (rn : fo) (b : buffer) : option (pixel_out * buffer) :=
    let b' := if use_jump then fill_pixel resultants t_bar tau n_reads rn n b else b in
    do w <- split_ramps fit_t (fit_ramp resultants t_bar tau n_reads rn)
              (detect t_bar tau n_reads use_jump intercept constant b') n dq n;
    Some ({| p_avg := average (map snd (w_fits w)); p_dq := w_dq w; p_fits := w_fits w; p_jumps := w_jumps w |}, b').

  (** fit_ramps (_fit.pyx lines 97-236) for [np] pixels: slope, read, Poisson and total variance and DQ
      per pixel; the intercept output is constantly zero.  A read pattern of another length raises,
      and so does allocating the detection buffers (line 163) without any resultant. *)
  Definition fit_ramps (use_jump : bool) (intercept constant : fo) (read_time : fo) (pattern : list (list Z)) (n np : nat)
      (resultants : nat -> nat -> fo) (dq : nat -> nat -> Z) (rn : nat -> fo) (b0 : buffer)
      : option (list (fit_t * fo * (nat -> Z))) :=
    if negb (Nat.eqb n (length pattern)) || (use_jump && Nat.eqb n 0) then None
    else
      let t_bar := fun i => t_bar_of read_time (nth i pattern []) in
      let tau := fun i => tau_of read_time (nth i pattern []) in
      let n_reads := fun i => length (nth i pattern []) in
      do s <- foldM (fun (st : list (fit_t * fo * (nat -> Z)) * buffer) p =>
          let '(outs, b) := st in
          do o <- fit_jumps use_jump intercept constant t_bar tau n_reads n (fun i => resultants i p) (fun i => dq i p) (rn p) b;
          let '(po, b') := o in
          Some (outs ++ [(p_avg po, f_read (p_avg po) + f_poisson (p_avg po), p_dq po)], b')) (seq 0 np) ([], b0);
      Some (fst s).
End Numbers.
Arguments PTABLE : clear implicits.
