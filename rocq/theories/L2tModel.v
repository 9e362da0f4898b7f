(** Model of the construction of the Lie-to-tensor and tensor-to-Lie matrices in
    roughpy/compute/_src/lie_basis.c (lines refer to that file).  Scalars are exact
    elements of a commutative ring; the caches keyed by dtype (lines 979-989, 1262-1275)
    only store the result and are not modelled here. *)
From Coq Require Import InitialRing.
From Verif Require Export SmhModel SparseModel.
From Verif Require Import LieSpec.
Local Open Scope Z_scope.

(** lines 739-749 [lie_basis_size_to_degree] *)
Definition size_to_degree (B : lie_basis) (degree : Z) : outcome Z :=
  if degree <=? 0 then Ok 0
  else
    let degree := if degree >=? lb_depth B + 1 then lb_depth B + 1 else degree in
    let! e := bget (lb_db B) (degree + 1) in Ok (e - 1).
(** lines 751-764 [size_of_degree] *)
Definition size_of_degree (B : lie_basis) (degree : Z) : outcome Z :=
  if degree <? 1 then Ok 0
  else
    let degree := if degree >? lb_depth B then lb_depth B else degree in
    let! b := bget (lb_db B) degree in
    let! e := bget (lb_db B) (degree + 1) in
    Ok (e - b).
(** lines 766-773 [get_tensor_size] *)
Definition get_tensor_size (B : lie_basis) : outcome Z :=
  for_ (zseq 1 (Z.to_nat (lb_depth B))) 1 (fun _ size => i64 (1 + lb_width B * size)).
(** lines 775-785 [get_l2t_nnz_max]; shifting into the sign bit is undefined *)
Definition get_l2t_nnz_max (B : lie_basis) : outcome Z :=
  for_ (zrange (lb_depth B)) 0 (fun degree e =>
    if degree >=? 63 then UB
    else
      let! count := size_of_degree B (degree + 1) in
      i64 (e + 2 ^ degree * count)).
(** lines 823-829 [tensor_size_of_degree]; the degrees used are not negative *)
Definition tensor_size_of_degree (B : lie_basis) (degree : Z) : outcome Z :=
  for_ (zrange degree) 1 (fun _ size => i64 (size * lb_width B)).

Section L2t.
  Variable R : cring.
  Variable isz : R -> bool.

  (** lines 787-804 [add_product] into a zeroed scratch value *)
  Definition product (sign : Z) (l r : R) : R := radd r0 (rmul (zr R sign) (rmul l r)).

  (** lines 806-821 [l2t_insert_letters] *)
  Definition l2t_insert_letters (h : smh R) (width : Z) : outcome (smh R) :=
    for_ (zrange width) h (fun i h =>
      let! h := insert_frame isz h in
      insert_value isz h (i + 1) r1).

  (** lines 831-900 [insert_l2t_commutator].  [left_frame] and [right_frame] point into
      the frames array, whose entries are re-read at every use. *)
  Definition insert_l2t_commutator (B : lie_basis) (key : Z) (h : smh R) : outcome (smh R) :=
    let! left_key := bget (lb_data B) (2 * key) in
    let! right_key := bget (lb_data B) (2 * key + 1) in
    let! h := insert_frame isz h in
    let! left_degree := lb_degree B left_key in
    let! right_degree := lb_degree B right_key in
    let! left_offset := tensor_size_of_degree B left_degree in
    let! right_offset := tensor_size_of_degree B right_degree in
    let! lf := frame_at h (left_key - 1) in
    for_ (zrange (snd lf)) h (fun i h =>
      let! lf := frame_at h (left_key - 1) in
      let! left_idx := bget (s_idx h) (fst lf + i) in
      let! rf := frame_at h (right_key - 1) in
      for_ (zrange (snd rf)) h (fun j h =>
        let! rf := frame_at h (right_key - 1) in
        let! right_idx := bget (s_idx h) (fst rf + j) in
        let! idx := i64 (left_idx * right_offset + right_idx) in
        let! lf := frame_at h (left_key - 1) in
        let! lv := bget (s_data h) (fst lf + i) in
        let! rv := bget (s_data h) (fst rf + j) in
        let! h := insert_value isz h idx (product 1 lv rv) in
        let! idx := i64 (right_idx * left_offset + left_idx) in
        let! lf := frame_at h (left_key - 1) in
        let! rf := frame_at h (right_key - 1) in
        let! lv := bget (s_data h) (fst lf + i) in
        let! rv := bget (s_data h) (fst rf + j) in
        insert_value isz h idx (product (-1) rv lv))).

  (** lines 902-950 [construct_new_l2t] *)
  Definition construct_new_l2t (jd : Z -> R) (ji jp : Z -> Z) (B : lie_basis) : outcome (csmat R) :=
    let! lie_dim := size_to_degree B (lb_depth B) in
    let! tensor_dim := get_tensor_size B in
    let! nnz_est := get_l2t_nnz_max B in
    let! h := smh_init jd ji jp tensor_dim lie_dim nnz_est in
    let! h := l2t_insert_letters h (lb_width B) in
    let! h := for_ (zseq 2 (Z.to_nat (lb_depth B - 1))) h (fun degree h =>
        let! key := bget (lb_db B) degree in
        let! deg_end := bget (lb_db B) (degree + 1) in
        for_ (zseq key (Z.to_nat (deg_end - key))) h (insert_l2t_commutator B)) in
    build_matrix isz h.

  (** lines 996-1013 [t2l_insert_letters] *)
  Definition t2l_insert_letters (h : smh R) (width : Z) : outcome (smh R) :=
    for_ (zrange width) h (fun i h =>
      let! h := insert_frame isz h in
      insert_value isz h i r1).

  (** narrowing of the coefficient to [int] at the call of [add_product] *)
  Definition cast_int (v : Z) : Z := let m := v mod 2 ^ 32 in if m >=? 2 ^ 31 then m - 2 ^ 32 else m.

  (** lines 1098-1148 [t2l_rbracket]; the state is the helper and the bracket cache.
      An error of the cache is an error of the construction. *)
  Definition t2l_rbracket (fuel : nat) (B : lie_basis) (lparent rparent : Z) (s : smh R * lcache) : outcome (smh R * lcache) :=
    let! rf := frame_at (fst s) rparent in
    for_ (zrange (snd rf)) s (fun i s =>
      let '(h, c) := s in
      let! rf := frame_at h rparent in
      let! ri := bget (s_idx h) (fst rf + i) in
      let! r := lmc_get fuel B c (lparent, 1 + ri) in
      match r with
      | (None, _) => Throw
      | (Some entry, c) =>
        let! h := for_ entry h (fun p h =>
          let! lf := frame_at h lparent in
          let! rf := frame_at h rparent in
          let! lv := bget (s_data h) (fst lf) in
          let! rv := bget (s_data h) (fst rf + i) in
          insert_value isz h (fst p - 1) (product (cast_int (snd p)) lv rv)) in
        Ok (h, c)
      end).

  (** lines 1066-1096 [t2l_normalize_cols]; [inv d] stands for 1/d *)
  Definition t2l_normalize_cols (inv : Z -> R) (width depth : Z) (h : smh R) : outcome (smh R) :=
    let! s := for_ (zseq 1 (Z.to_nat depth)) (h, 1) (fun degree s =>
      let '(h, degree_begin) := s in
      let degree_end := 1 + degree_begin * width in
      let! h := for_ (zseq degree_begin (Z.to_nat (degree_end - degree_begin))) h (fun i h =>
        let! f := frame_at h i in
        for_ (zrange (snd f)) h (fun j h =>
          let! x := bget (s_data h) (fst f + j) in
          let! d := bset (s_data h) (fst f + j) (rmul x (inv degree)) in
          Ok (mkSmh d (s_idx h) (s_fr h) (s_ptr h) (s_alloc h) (s_nnz h) (s_rows h) (s_cols h)))) in
      Ok (h, degree_end)) in
    Ok (fst s).

  (** lines 1188-1228: the columns of one degree *)
  Definition t2l_degree (fuel : nat) (B : lie_basis) (degm1_begin prev_size : Z) (s : smh R * lcache) : outcome (smh R * lcache) :=
    for_ (zrange (prev_size * lb_width B)) s (fun idx s =>
      let '(h, c) := s in
      let! h := insert_frame isz h in
      let lparent := 1 + Z.quot idx prev_size in
      let rparent := degm1_begin + Z.rem idx prev_size in
      if lparent =? rparent then Ok (h, c) else t2l_rbracket fuel B lparent rparent (h, c)).

  (** lines 1150-1250 [construct_new_t2l]; also returns the bracket cache *)
  Definition construct_new_t2l (fuel : nat) (inv : Z -> R) (jd : Z -> R) (ji jp : Z -> Z) (B : lie_basis) (c : lcache) : outcome (csmat R * lcache) :=
    let! lie_dim := size_to_degree B (lb_depth B) in
    let! tensor_dim := get_tensor_size B in
    let! nnz_est := get_tensor_size B in
    let! h := smh_init jd ji jp lie_dim tensor_dim nnz_est in
    let! h := insert_frame isz h in
    let! h := t2l_insert_letters h (lb_width B) in
    let! s := for_ (zseq 2 (Z.to_nat (lb_depth B - 1))) (h, c, 1, lb_width B) (fun degree s =>
        let '(h, c, degm1_begin, prev_size) := s in
        let deg_size := prev_size * lb_width B in
        let deg_begin := 1 + degm1_begin * lb_width B in
        let! s := t2l_degree fuel B degm1_begin prev_size (h, c) in
        Ok (fst s, snd s, deg_begin, deg_size)) in
    let '(h, c, _, _) := s in
    let! h := t2l_normalize_cols inv (lb_width B) (lb_depth B) h in
    let! m := build_matrix isz h in
    Ok (m, c).

  (** ** Application, roughpy/compute/_src/dense_basic.cpp and roughpy/compute/__init__.py.
      One core vector; the loop over batch dimensions is in BatchModel.
      dense_basic.cpp:738-814: shape checks and choice of the format.  When the matrix is
      square the code compares the matrix object itself, which is not a string. *)
  Definition dense_apply (m : csmat R) (out_dim arg_dim : Z) (ob ab : buf R) (op : R -> R) : outcome (buf R) :=
    let nrows := cs_inner m in let ncols := cs_n m in
    if negb (nrows =? out_dim) then Throw
    else if negb (ncols =? arg_dim) then Throw
    else if negb (blen (cs_data m) =? blen (cs_idx m)) then Throw
    else if nrows =? ncols then UB
    else if blen (cs_off m) =? nrows + 1 then
      apply_csr (Ptr 0, out_dim) (mkCS (cs_data m) (cs_idx m) (cs_off m) nrows ncols) (Ptr 0, arg_dim) ob ab op
    else if blen (cs_off m) =? ncols + 1 then
      apply_csc (Ptr 0, out_dim) (mkCS (cs_data m) (cs_idx m) (cs_off m) ncols nrows) (Ptr 0, arg_dim) ob ab op
    else Throw.
  Definition scaled (scale : option R) (x : R) : R := match scale with Some s => rmul x s | None => x end.

  (** __init__.py:342-358 [lie_to_tensor] for a basis [tb] of tensors; dense_basic.cpp:922-928 *)
  Definition py_lie_to_tensor (jd : Z -> R) (ji jp : Z -> Z) (B : lie_basis) (arg : buf R) (tb : basis) (scale : option R) : outcome (buf R) :=
    let! l2t := construct_new_l2t jd ji jp B in
    let! size := basis_size tb in
    if negb (b_width tb =? lb_width B) then Throw
    else dense_apply l2t size (blen arg) (zeros size) arg (scaled scale).
  (** __init__.py:361-375 [tensor_to_lie] *)
  Definition py_tensor_to_lie (fuel : nat) (inv : Z -> R) (jd : Z -> R) (ji jp : Z -> Z) (B : lie_basis) (c : lcache) (arg : buf R) (tb : basis) (scale : option R) : outcome (buf R * lcache) :=
    let! r := construct_new_t2l fuel inv jd ji jp B c in
    let! size := lb_size B in
    if negb (b_width tb =? lb_width B) then Throw
    else
      let! out := dense_apply (fst r) size (blen arg) (zeros size) arg (scaled scale) in
      Ok (out, snd r).
End L2t.
Arguments construct_new_l2t {R}. Arguments construct_new_t2l {R}. Arguments dense_apply {R}. Arguments scaled {R}.
Arguments py_lie_to_tensor {R}. Arguments py_tensor_to_lie {R}.
