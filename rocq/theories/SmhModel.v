(** Model of the incremental sparse matrix builder of
    roughpy/compute/_src/sparse_matrix.c (lines refer to that file) and of its use in
    roughpy/compute/_src/lie_basis.c to build the Lie-to-tensor and tensor-to-Lie
    matrices.  Scalars are elements of a commutative ring with an exact zero test [isz]
    (float rounding is not modelled); allocation failure is not modelled. *)
From Verif Require Export SparseModel HallModel BracketModel.
Local Open Scope Z_scope.

(** sparse_matrix.h:28-48 [SMHFrame], [SMHelper].  Frames are (offset, size) pairs: the
    offset of the frame's pointers into [data] and [indices], which move together.  The
    frames that are in use are listed most recent first; [size] is their number. *)
Record smh (R : Type) := mkSmh {
  s_data : buf R; s_idx : buf Z; s_fr : list (Z * Z); s_ptr : buf Z; s_alloc : Z; s_nnz : Z; s_rows : Z; s_cols : Z }.
Arguments mkSmh {R}. Arguments s_data {R}. Arguments s_idx {R}. Arguments s_fr {R}. Arguments s_ptr {R}.
Arguments s_alloc {R}. Arguments s_nnz {R}. Arguments s_rows {R}. Arguments s_cols {R}.

(** memmove of [n] elements *)
Definition bmove {R} (b : buf R) (dst src n : Z) : outcome (buf R) :=
  if n =? 0 then Ok b
  else if (0 <=? dst) && (0 <=? src) && (0 <=? n) && (dst + n <=? blen b) && (src + n <=? blen b)
  then Ok (mkbuf (blen b) (fun i => if (dst <=? i) && (i <? dst + n) then bat b (src + (i - dst)) else bat b i))
  else UB.
(** PyArray_Resize with refcheck off: contents kept, new elements zero *)
Definition bresize {R} (z : R) (b : buf R) (n : Z) : buf R :=
  mkbuf n (fun i => if i <? blen b then bat b i else z).

Section Smh.
  Variable R : cring.
  Variable isz : R -> bool.

  Definition s_size (h : smh R) : Z := Z.of_nat (length (s_fr h)).
  (** [helper->frames[k]] *)
  Definition frame_at (h : smh R) (k : Z) : outcome (Z * Z) :=
    if k <? 0 then UB else match nth_error (rev (s_fr h)) (Z.to_nat k) with Some f => Ok f | None => UB end.

  (** lines 258-321 [smh_init] for the compressed column format (the only one used) *)
  Definition smh_init (jd : Z -> R) (ji jp : Z -> Z) (nrows ncols nnz_est : Z) : outcome (smh R) :=
    let alloc := ncols in
    let nnz_est := if nnz_est <? 0 then alloc else nnz_est in
    if (alloc <? 0) || (nnz_est <? 0) then Throw
    else
      let! ptr := bset (mkbuf (alloc + 1) jp) 0 0 in
      Ok (mkSmh (mkbuf nnz_est jd) (mkbuf nnz_est ji) [] ptr alloc 0 nrows ncols).

  (** lines 374-388: one step of the removal loop, at position [i] of the frame *)
  Definition remove_step (off i : Z) (s : buf R * buf Z * Z) : outcome (buf R * buf Z * Z) :=
    let '(data, idx, size) := s in
    let! x := bget data (off + i) in
    if isz x then
      let remaining := size - i - 1 in
      let! idx := bmove idx (off + i) (off + i + 1) remaining in
      let! data := bmove data (off + i) (off + i + 1) remaining in
      Ok (data, idx, size - 1)
    else Ok s.
  (** lines 369-394 [remove_zeros_from_frame]; returns the new arrays and size *)
  Definition remove_zeros (data : buf R) (idx : buf Z) (fr : Z * Z) : outcome (buf R * buf Z * Z) :=
    let '(off, size) := fr in
    if size <=? 0 then Ok (data, idx, size)
    else
      let! s := for_ (rev (zseq 0 (Z.to_nat size))) (data, idx, size) (remove_step off) in
      let '(data, idx, size) := s in
      let! x := bget data (off + (size - 1)) in
      Ok (data, idx, if isz x then size - 1 else size).

  (** lines 396-439 [smh_insert_frame] *)
  Definition insert_frame (h : smh R) : outcome (smh R) :=
    if s_size h =? s_alloc h then Throw
    else
      let! r := match s_fr h with
        | [] => Ok (s_data h, s_idx h, [], s_nnz h, 0)
        | (off, size) :: rest =>
          let! q := remove_zeros (s_data h) (s_idx h) (off, size) in
          let '(data, idx, size) := q in
          Ok (data, idx, (off, size) :: rest, s_nnz h + size, off + size)
        end in
      let '(data, idx, fr, nnz, off) := r in
      let! ptr := bset (s_ptr h) (s_size h) nnz in
      Ok (mkSmh data idx ((off, 0) :: fr) ptr (s_alloc h) nnz (s_rows h) (s_cols h)).

  (** lines 441-469 [smh_resize]: all frames are re-laid one after the other *)
  Definition reframe (fr : list (Z * Z)) : list (Z * Z) :=
    snd (fold_left (fun s f => (fst s + snd f, (fst s, snd f) :: snd s)) (rev fr) (0, [])).
  Definition smh_resize (h : smh R) (n : Z) : outcome (smh R) :=
    if n <? 0 then Throw
    else Ok (mkSmh (bresize r0 (s_data h) n) (bresize 0 (s_idx h) n) (reframe (s_fr h)) (s_ptr h) (s_alloc h) (s_nnz h) (s_rows h) (s_cols h)).

  (** lines 494-508: the binary search; [inl p]: found at [p], [inr p]: insert at [p] *)
  Fixpoint search (fuel : nat) (idx : buf Z) (off index diff p : Z) : outcome (Z + Z) :=
    match fuel with
    | O => NoFuel
    | S fuel =>
      if diff >? 0 then
        let half := diff / 2 in
        let mid_pos := p + half in
        let! mid := bget idx (off + mid_pos) in
        if index =? mid then Ok (inl mid_pos)
        else if mid <? index then search fuel idx off index (diff - (half + 1)) (mid_pos + 1)
        else search fuel idx off index half p
      else Ok (inr p)
    end.

  (** lines 488-542 [smh_get_scalar_for_index]; returns the state and the position of
      the scalar in [data].  No frame: the assertion of sparse_matrix.h:103 fails. *)
  Definition get_scalar (h : smh R) (index : Z) : outcome (smh R * Z) :=
    match s_fr h with
    | [] => UB
    | (off, size) :: rest =>
      let! s := search (S (Z.to_nat size)) (s_idx h) off index size 0 in
      match s with
      | inl p => Ok (h, off + p)
      | inr p =>
        let! hit := (if p <? size then let! i := bget (s_idx h) (off + p) in Ok (i =? index) else Ok false) in
        if hit then Ok (h, off + p)
        else
          let maxsize := blen (s_data h) in
          let! h := (if s_nnz h + size =? maxsize then smh_resize h (maxsize * 2) else Ok h) in
          match s_fr h with
          | [] => UB
          | (off, size) :: rest =>
            let! ix := (if p <? size then bmove (s_idx h) (off + p + 1) (off + p) (size - p) else Ok (s_idx h)) in
            let! dt := (if p <? size then bmove (s_data h) (off + p + 1) (off + p) (size - p) else Ok (s_data h)) in
            let! ix := bset ix (off + p) index in
            let! dt := bset dt (off + p) r0 in
            Ok (mkSmh dt ix ((off, size + 1) :: rest) (s_ptr h) (s_alloc h) (s_nnz h) (s_rows h) (s_cols h), off + p)
          end
      end
    end.

  (** lines 471-486 [smh_insert_value_at_index] *)
  Definition insert_value (h : smh R) (index : Z) (v : R) : outcome (smh R) :=
    if isz v then Ok h
    else
      let! r := get_scalar h index in
      let '(h, q) := r in
      let! x := bget (s_data h) q in
      let! dt := bset (s_data h) q (radd x v) in
      Ok (mkSmh dt (s_idx h) (s_fr h) (s_ptr h) (s_alloc h) (s_nnz h) (s_rows h) (s_cols h)).

  (** lines 544-602 [smh_finalize] and [smh_build_matrix] *)
  Definition build_matrix (h : smh R) : outcome (csmat R) :=
    if negb (s_size h =? s_alloc h) then Throw
    else
      match s_fr h with
      | [] => UB (* smh_current_frame of an empty helper *)
      | f :: rest =>
        let! q := remove_zeros (s_data h) (s_idx h) f in
        let '(data, idx, size) := q in
        let nnz := s_nnz h + size in
        let! ptr := bset (s_ptr h) (s_size h) nnz in
        let! h := smh_resize (mkSmh data idx ((fst f, size) :: rest) ptr (s_alloc h) nnz (s_rows h) (s_cols h)) nnz in
        Ok (mkCS (s_data h) (s_idx h) (s_ptr h) (s_cols h) (s_rows h))
      end.
End Smh.
Arguments s_size {R}. Arguments frame_at {R}. Arguments smh_init {R}. Arguments remove_step {R}. Arguments remove_zeros {R}.
Arguments insert_frame {R}. Arguments smh_resize {R}. Arguments get_scalar {R}. Arguments insert_value {R}. Arguments build_matrix {R}.
