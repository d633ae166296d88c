(** Model of outlier_detection/median.py.
    All line numbers refer to /repo/src/stcal/outlier_detection/median.py. *)
From Verif Require Import Base.

(** A 2-D numpy array: its shape, its dtype (compared only for equality) and its pixels. *)
Record image (A : Type) := { i_rows : nat; i_cols : nat; i_dtype : nat; i_px : img A }.
Arguments i_rows {A}. Arguments i_cols {A}. Arguments i_dtype {A}. Arguments i_px {A}.

Section Median.
  Variable A : Type.          (* pixel values *)
  Variable nanv : A.          (* np.nan of that dtype *)
  Variable med : list A -> A. (* np.nanmedian of the samples of one pixel, an external routine *)

  (** nanmedian3D (lines 21-47): one nanmedian call per row, along the stack axis.
      Simplification: the in-place reordering of the input ([overwrite_input]) is not
      modelled; the input cube is not used again by the callers modelled here. *)
  Definition nanmedian3D (n : nat) (cb : cube A) : img A :=
    fun r c => med (map (fun k => cb k r c) (seq 0 n)).

  (** _DiskAppendableArray (lines 141-221).  The file is the sequence of items written to it;
      [tofile]/[fromfile] with one dtype are modelled as writing and reading the items in
      C order, so byte encoding of an item is not modelled.  [f_exists] is false once the
      temporary directory is removed. *)
  Record dfile := { f_rows : nat; f_cols : nat; f_dtype : nat; f_items : list A; f_count : nat; f_exists : bool }.

  (** lines 161-184 *)
  Definition dfile_new (rows cols dt : nat) : dfile :=
    {| f_rows := rows; f_cols := cols; f_dtype := dt; f_items := []; f_count := 0; f_exists := true |}.

  (** the items of a 2-D array in C order, as written by [data.tofile] (line 207) *)
  Definition flat (rows cols : nat) (px : img A) : list A :=
    flat_map (fun r => map (px r) (seq 0 cols)) (seq 0 rows).

  (** lines 190-208: ValueError on a shape or dtype mismatch, FileNotFoundError once removed *)
  Definition dfile_append (f : dfile) (d : image A) : option dfile :=
    if Nat.eqb (i_rows d) (f_rows f) && Nat.eqb (i_cols d) (f_cols f)
    then if Nat.eqb (i_dtype d) (f_dtype f)
         then if f_exists f
              then Some {| f_rows := f_rows f; f_cols := f_cols f; f_dtype := f_dtype f;
                           f_items := f_items f ++ flat (i_rows d) (i_cols d) (i_px d);
                           f_count := f_count f + 1; f_exists := true |}
              else None
         else None
    else None.

  (** lines 210-221: reshape to (count, rows, cols), ValueError if the size differs *)
  Definition dfile_read (f : dfile) : option (cube A) :=
    if f_exists f
    then if Nat.eqb (length (f_items f)) (f_count f * (f_rows f * f_cols f))
         then Some (fun k r c => nth ((k * f_rows f + r) * f_cols f + c) (f_items f) nanv)
         else None
    else None.

  (** _OnDiskMedian (lines 224-391) *)
  Record disk := { d_nframes : nat; d_rows : nat; d_cols : nat; d_dtype : nat;
                   d_nsec : nat; d_secrows : nat; d_nadds : nat; d_files : list dfile }.

  (** _get_buffer_indices (lines 271-316), (nsections, section_nrows).  ZeroDivisionError when
      no frame is expected (line 295) or a row has no bytes (line 297).  The float divisions
      at lines 295-297 and 309 are modelled by exact integer division: both agree with the
      exact quotient as long as the sizes stay below 2^53 bytes. *)
  Definition buffer_indices (nframes imrows imcols itemsize : nat) (buffer : Z) : option (nat * nat) :=
    let buf := if Z.eqb buffer 0 then Z.of_nat (imrows * imcols * itemsize) else buffer in
    let minbuf := imcols * itemsize in
    if Nat.eqb nframes 0 || Nat.eqb minbuf 0 then None else
    let k := Z.min (Z.of_nat imrows) (Z.div buf (Z.of_nat (nframes * minbuf))) in
    let secrows := if Z.leb k 0 then 1 else Z.to_nat k in
    Some ((imrows + secrows - 1) / secrows, secrows).

  (** _temparray_setup (lines 318-328) *)
  Definition temparray_setup (imrows imcols dt nsec secrows : nat) : list dfile :=
    map (fun i => dfile_new (if Nat.eqb (i + 1) nsec then imrows - (nsec - 1) * secrows else secrows) imcols dt)
        (seq 0 nsec).

  (** __init__ (lines 225-269); [full_shape] of length three is implicit in the arguments *)
  Definition disk_new (nframes imrows imcols itemsize dt : nat) (buffer : Z) : option disk :=
    do (nsec, secrows) <- buffer_indices nframes imrows imcols itemsize buffer;
    Some {| d_nframes := nframes; d_rows := imrows; d_cols := imcols; d_dtype := dt;
            d_nsec := nsec; d_secrows := secrows; d_nadds := 0;
            d_files := temparray_setup imrows imcols dt nsec secrows |}.

  (** data[row1:row2] (line 346) *)
  Definition row_block (d : image A) (row1 row2 : nat) : image A :=
    {| i_rows := Nat.min row2 (i_rows d) - Nat.min row1 (i_rows d); i_cols := i_cols d;
       i_dtype := i_dtype d; i_px := fun r c => i_px d (row1 + r) c |}.

  Fixpoint set_nth (i : nat) (x : dfile) (l : list dfile) : list dfile :=
    match l, i with
    | [], _ => []
    | _ :: l', 0 => x :: l'
    | y :: l', S i' => y :: set_nth i' x l'
    end.

  (** the loop at lines 342-346 *)
  Definition add_sections (nsec secrows imrows : nat) (d : image A) (fs : list dfile) : option (list dfile) :=
    foldM (fun fs i =>
        let row1 := i * secrows in
        let row2 := Nat.min (row1 + secrows) imrows in
        do f <- nth_error fs i;
        do f' <- dfile_append f (row_block d row1 row2);
        Some (set_nth i f' fs)) (seq 0 nsec) fs.

  (** add_image and _validate_data (lines 330-355): IndexError when [_n_adds >= nsections],
      ValueError on shape or dtype.  The state left behind by a call that raises is not modelled. *)
  Definition add_image (s : disk) (d : image A) : option disk :=
    if Nat.leb (d_nsec s) (d_nadds s) then None else
    if negb (Nat.eqb (i_rows d) (d_rows s) && Nat.eqb (i_cols d) (d_cols s)) then None else
    if negb (Nat.eqb (i_dtype d) (d_dtype s)) then None else
    do fs <- add_sections (d_nsec s) (d_secrows s) (d_rows s) d (d_files s);
    Some {| d_nframes := d_nframes s; d_rows := d_rows s; d_cols := d_cols s; d_dtype := d_dtype s;
            d_nsec := d_nsec s; d_secrows := d_secrows s; d_nadds := d_nadds s + 1; d_files := fs |}.

  (** compute_median (lines 366-391).  IndexError at line 381 when there is no section.
      [median_image[row1:row2] = nanmedian3D(arr)] raises ValueError when the number of rows
      differs (a single row would broadcast, line 388: allowed here as numpy allows it). *)
  Definition compute_median (s : disk) : option (image A) :=
    match d_files s with
    | [] => None
    | f0 :: _ =>
      let orows := Nat.min (d_nsec s * d_secrows s) (d_rows s) in
      do px <- foldM (fun (px : img A) (p : nat * dfile) =>
          let '(i, f) := p in
          let row1 := i * d_secrows s in
          let row2 := Nat.min ((i + 1) * d_secrows s) (d_rows s) in
          do cb <- dfile_read f;
          let m := nanmedian3D (f_count f) cb in
          if Nat.eqb (f_rows f) (row2 - row1) || Nat.eqb (f_rows f) 1
          then Some (fun r c => if Nat.leb row1 r && Nat.ltb r row2
                                then m (if Nat.eqb (f_rows f) 1 then 0 else r - row1) c
                                else px r c)
          else None) (combine (seq 0 (length (d_files s))) (d_files s)) (fun _ _ => nanv);
      Some {| i_rows := orows; i_cols := f_cols f0; i_dtype := d_dtype s; i_px := px |}
    end.

  (** cleanup (lines 357-364) *)
  Definition cleanup (s : disk) : disk :=
    {| d_nframes := d_nframes s; d_rows := d_rows s; d_cols := d_cols s; d_dtype := d_dtype s;
       d_nsec := d_nsec s; d_secrows := d_secrows s; d_nadds := d_nadds s;
       d_files := map (fun f => {| f_rows := f_rows f; f_cols := f_cols f; f_dtype := f_dtype f;
                                   f_items := []; f_count := f_count f; f_exists := false |}) (d_files s) |}.

  (** MedianComputer (lines 50-138): either the preallocated array or the disk object *)
  Inductive computer :=
  | InMemory (nframes imrows imcols dt : nat) (arr : cube A)
  | OnDisk (s : disk).

  (** __init__ (lines 58-99); [uninit] is the content of [np.empty] (line 96) and
      [buffer] the value after line 91-93 replaced None by 0 *)
  Definition computer_new (in_memory : bool) (uninit : cube A)
      (nframes imrows imcols itemsize dt : nat) (buffer : Z) : option computer :=
    if in_memory then Some (InMemory nframes imrows imcols dt uninit)
    else do s <- disk_new nframes imrows imcols itemsize dt buffer; Some (OnDisk s).

  (** numpy index of the leading axis (negative counts from the end), IndexError otherwise *)
  Definition py_index (n : nat) (i : Z) : option nat :=
    if (Z.leb 0 i && Z.ltb i (Z.of_nat n))%Z then Some (Z.to_nat i)
    else if (Z.ltb i 0 && Z.leb (- Z.of_nat n) i)%Z then Some (Z.to_nat (Z.of_nat n + i)) else None.

  (** append (lines 101-122).  The in-memory assignment broadcasts size-1 axes as numpy does
      and its conversion to the array's dtype is taken to be the identity (equal dtypes). *)
  Definition computer_append (m : computer) (d : image A) (idx : option Z) : option computer :=
    match m with
    | InMemory n R C dt arr =>
      do i <- idx;
      do k <- py_index n i;
      if (Nat.eqb (i_rows d) R || Nat.eqb (i_rows d) 1) && (Nat.eqb (i_cols d) C || Nat.eqb (i_cols d) 1)
      then Some (InMemory n R C dt (upd k (fun r c =>
              i_px d (if Nat.eqb (i_rows d) 1 then 0 else r) (if Nat.eqb (i_cols d) 1 then 0 else c)) arr))
      else None
    | OnDisk s => do s' <- add_image s d; Some (OnDisk s')
    end.

  (** evaluate (lines 124-138) *)
  Definition computer_evaluate (m : computer) : option (image A * computer) :=
    match m with
    | InMemory n R C dt arr =>
      Some ({| i_rows := R; i_cols := C; i_dtype := dt; i_px := nanmedian3D n arr |}, m)
    | OnDisk s => do o <- compute_median s; Some (o, OnDisk (cleanup s))
    end.

  (** The documented use: append the images with indices 0, 1, ... and evaluate once. *)
  Definition append_all (m : computer) (imgs : list (image A)) : option computer :=
    foldM (fun m (p : nat * image A) => computer_append m (snd p) (Some (Z.of_nat (fst p))))
          (combine (seq 0 (length imgs)) imgs) m.
End Median.

Arguments InMemory {A}. Arguments OnDisk {A}. Arguments f_rows {A}. Arguments f_cols {A}.
Arguments f_dtype {A}. Arguments f_items {A}. Arguments f_count {A}. Arguments f_exists {A}.
Arguments d_nframes {A}. Arguments d_rows {A}. Arguments d_cols {A}. Arguments d_dtype {A}.
Arguments d_nsec {A}. Arguments d_secrows {A}. Arguments d_nadds {A}. Arguments d_files {A}.
