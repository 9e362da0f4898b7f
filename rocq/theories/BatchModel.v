(** Calls of roughpy_compute on NumPy arrays with batch dimensions. *)
From Verif Require Export TensorModel SmhModel L2tModel.
Open Scope Z_scope.

(** A NumPy array inside a block of memory: byte offset of its first element in the block,
    shape, strides in bytes.  The elements of the block are numbered by [buf] cells, one per
    scalar of [sz] bytes. *)
Record nparr := mkNp { np_data : Z; np_shape : list Z; np_strides : list Z }.

(** PyArray_GetPtr: data + sum of index * stride. *)
Fixpoint dot (ix st : list Z) : Z :=
  match ix, st with i :: ix', s :: st' => i * s + dot ix' st' | _, _ => 0 end.
Definition get_ptr (a : nparr) (ix : list Z) : Z := np_data a + dot ix (np_strides a).
(** The cell a scalar pointer refers to.  A pointer that is not a multiple of the scalar size
    away from the start is misaligned. *)
Definition cell (sz addr : Z) : outcome Z := if addr mod sz =? 0 then Ok (addr / sz) else UB.
Definition ndims (a : nparr) : Z := Z.of_nat (length (np_shape a)).
Definition zprod (l : list Z) : Z := fold_right Z.mul 1 l.

(** check_dims.hpp:8-22. *)
Definition check_dims (shape1 : list Z) (ndims1 : Z) (shape2 : list Z) (ndims2 : Z) : bool :=
  (ndims1 =? ndims2) &&
  forallb (fun i => nth (Z.to_nat i) shape1 0 =? nth (Z.to_nat i) shape2 0) (zrange ndims1).

(** py_binary_array_fn.hpp:34-39, py_ternary_array_fn.hpp:33-38 [advance], least significant
    dimension first. *)
Fixpoint adv_r (ix sh : list Z) : list Z :=
  match ix, sh with
  | i :: ix', n :: sh' => if i + 1 <? n then (i + 1) :: ix' else 0 :: adv_r ix' sh'
  | _, _ => []
  end.
(** CoreDims is 1 in every instance (dense_basic.cpp:43, 161, 247, 345, 452, 567, 1058,
    dense_intermediate.cpp:27, 113, 219), so positions ndims-2 .. 0 move and the last stays. *)
Definition advance (sh ix : list Z) : list Z :=
  rev (adv_r (rev (removelast ix)) (rev (removelast sh))) ++ [last ix 0].
(** PyArray_STRIDE(a, ndims - 1) / sizeof(Scalar): a signed stride divided by a size_t. *)
Definition estride (s sz : Z) : Z := (s mod 2 ^ 64) / sz.

Section Outer.
  Variable R : Type.
  Notation buf := (buf R).
  (** The function object called for each element: output iterator, argument iterators with
      the memory they point into, output memory.  Output and arguments are in different blocks
      (simplification: no aliasing between out and an argument). *)
  Definition core_fn := iter -> list (iter * buf) -> buf -> outcome buf.

  Fixpoint arg_cells (sz : Z) (args : list (nparr * buf)) (ix : list Z) : outcome (list (Z * buf)) :=
    match args with
    | [] => Ok []
    | (a, b) :: args' =>
      let! c := cell sz (get_ptr a ix) in
      let! r := arg_cells sz args' ix in Ok ((c, b) :: r)
    end.

  (** py_binary_array_fn.hpp:13-61 [outer_loop_binary], py_ternary_array_fn.hpp:12-68
      [outer_loop_ternary]: one and two arguments of the same loop. *)
  Definition outer_loop (sz : Z) (out : nparr) (args : list (nparr * buf)) (fn : core_fn) (ob : buf) : outcome buf :=
    let n_elements := zprod (removelast (np_shape out)) in
    let index := repeat 0 (length (np_shape out)) in
    let out_stride := estride (nth (Z.to_nat (ndims out - 1)) (np_strides out) 0) sz in
    let strides := map (fun ab => estride (nth (Z.to_nat (ndims out - 1)) (np_strides (fst ab)) 0) sz) args in
    let! r := for_ (zrange n_elements) (ob, index) (fun _ st =>
      let! o := cell sz (get_ptr out (snd st)) in
      let! ps := arg_cells sz args (snd st) in
      let! ob' :=
        (if (out_stride =? 1) && forallb (fun s => s =? 1) strides
         then fn (Ptr o) (map (fun p => (Ptr (fst p), snd p)) ps) (fst st)
         else fn (Strided o out_stride) (map (fun ps => (Strided (fst (fst ps)) (snd ps), snd (fst ps))) (combine ps strides)) (fst st)) in
      Ok (ob', advance (np_shape out) (snd st))) in
    Ok (fst r).

  (** py_binary_array_fn.hpp:86-144, py_ternary_array_fn.hpp:84-160: dimension checks.  That the
      objects are arrays of one floating type is not modelled. *)
  Definition array_call (sz : Z) (out : nparr) (args : list (nparr * buf)) (fn : core_fn) (ob : buf) : outcome buf :=
    if ndims out <? 1 then Throw
    else if negb (forallb (fun ab => check_dims (np_shape (fst ab)) (ndims (fst ab) - 1) (np_shape out) (ndims out - 1)) args) then Throw
    else outer_loop sz out args fn ob.
End Outer.
Arguments arg_cells {R}. Arguments outer_loop {R}. Arguments array_call {R}.

(** The function objects. *)
Section Cores.
  Variable R : cring.
  Notation buf := (buf R).
  (** dense_basic.cpp:40-80 *)
  Definition core_ft_fma (b : basis) (bo bl br : Z * Z) : core_fn R := fun o args ob =>
    match args with
    | [(l, lb); (r, rb)] => ft_fma (make_view o b (fst bo) (snd bo)) (make_view l b (fst bl) (snd bl)) (make_view r b (fst br) (snd br)) ob lb rb (fun x => x)
    | _ => Throw
    end.
  (** dense_basic.cpp:158-190 *)
  Definition core_ft_inplace_mul (b : basis) (bl br : Z * Z) : core_fn R := fun o args ob =>
    match args with
    | [(r, rb)] => ft_inplace_mul (make_view o b (fst bl) (snd bl)) (make_view r b (fst br) (snd br)) ob rb (fun x => x)
    | _ => Throw
    end.
  (** dense_basic.cpp:244-280 *)
  Definition core_antipode (b : basis) (bo ba : Z * Z) : core_fn R := fun o args ob =>
    match args with
    | [(a, ab)] => ft_antipode (make_view o b (fst bo) (snd bo)) (make_view a b (fst ba) (snd ba)) ob ab
    | _ => Throw
    end.
  (** dense_basic.cpp:342-380 *)
  Definition core_ft_adj_lmul (b : basis) (bo bp ba : Z * Z) : core_fn R := fun o args ob =>
    match args with
    | [(p, pb); (a, ab)] => ft_adj_lmul (make_view o b (fst bo) (snd bo)) (make_view p b (fst bp) (snd bp)) (make_view a b (fst ba) (snd ba)) ob pb ab
    | _ => Throw
    end.
  (** dense_basic.cpp:448-490 *)
  Definition core_st_fma (b : basis) (bo bl br : Z * Z) : core_fn R := fun o args ob =>
    match args with
    | [(l, lb); (r, rb)] => st_fma (make_view o b (fst bo) (snd bo)) (make_view l b (fst bl) (snd bl)) (make_view r b (fst br) (snd br)) ob lb rb (fun x => x)
    | _ => Throw
    end.
  (** dense_basic.cpp:560-621, 1054-1110: a sparse matrix applied to a vector, format chosen
      before the loop (dense_basic.cpp:776-812). *)
  Definition core_csr (m : csmat R) (out_dim arg_dim : Z) (op : R -> R) : core_fn R := fun o args ob =>
    match args with
    | [(a, ab)] => apply_csr (o, out_dim) m (a, arg_dim) ob ab op
    | _ => Throw
    end.
  Definition core_csc (m : csmat R) (out_dim arg_dim : Z) (op : R -> R) : core_fn R := fun o args ob =>
    match args with
    | [(a, ab)] => apply_csc (o, out_dim) m (a, arg_dim) ob ab op
    | _ => Throw
    end.

  (** dense_basic.cpp:82-151 [py_dense_ft_fma] *)
  Definition nd_ft_fma (sz : Z) (b : basis) (od ld rd : Z) (out l r : nparr) (ob lb rb : buf) : outcome buf :=
    let! bo := update_bounds b od 0 in
    let! bl := update_bounds b ld 0 in
    let! br := update_bounds b rd 0 in
    array_call sz out [(l, lb); (r, rb)] (core_ft_fma b bo bl br) ob.
  (** dense_basic.cpp:192-237 [py_dense_ft_inplace_mul] *)
  Definition nd_ft_inplace_mul (sz : Z) (b : basis) (ld rd : Z) (out r : nparr) (ob rb : buf) : outcome buf :=
    let! bl := update_bounds b ld 0 in
    let! br := update_bounds b rd 0 in
    array_call sz out [(r, rb)] (core_ft_inplace_mul b bl br) ob.
  (** dense_basic.cpp:282-334 [py_dense_antipode] *)
  Definition nd_antipode (sz : Z) (b : basis) (out a : nparr) (ob ab : buf) : outcome buf :=
    let! bo := update_bounds b (-1) 0 in
    let! ba := update_bounds b (-1) 0 in
    array_call sz out [(a, ab)] (core_antipode b bo ba) ob.
  (** dense_basic.cpp:382-440 [py_dense_ft_adj_lmul] *)
  Definition nd_ft_adj_lmul (sz : Z) (b : basis) (od pd ad : Z) (out p a : nparr) (ob pb ab : buf) : outcome buf :=
    let! bo := update_bounds b od 0 in
    let! bp := update_bounds b pd 0 in
    let! ba := update_bounds b ad 0 in
    array_call sz out [(p, pb); (a, ab)] (core_ft_adj_lmul b bo bp ba) ob.
  (** dense_basic.cpp:492-534 [py_dense_st_fma] *)
  Definition nd_st_fma (sz : Z) (b : basis) (out l r : nparr) (ob lb rb : buf) : outcome buf :=
    let! bo := update_bounds b (-1) 0 in
    let! bl := update_bounds b (-1) 0 in
    let! br := update_bounds b (-1) 0 in
    array_call sz out [(l, lb); (r, rb)] (core_st_fma b bo bl br) ob.
  (** dense_basic.cpp:862-1045, 1118-1300 [py_dense_lie_to_tensor], [py_dense_tensor_to_lie]
      for arrays; the matrix checks are those of L2tModel.dense_apply.  The argument is made
      contiguous first (dense_basic.cpp:949-953), so it is given as a contiguous array. *)
  Definition nd_apply (sz : Z) (m : csmat R) (op : R -> R) (out a : nparr) (ob ab : buf) : outcome buf :=
    if ndims out <? 1 then Throw
    else if negb (ndims a =? ndims out) then Throw
    else if negb (check_dims (np_shape a) (ndims a - 1) (np_shape out) (ndims out - 1)) then Throw
    else
    let out_dim := nth (Z.to_nat (ndims out - 1)) (np_shape out) 0 in
    let arg_dim := nth (Z.to_nat (ndims out - 1)) (np_shape a) 0 in
    let nrows := cs_inner m in let ncols := cs_n m in
    if negb (nrows =? out_dim) then Throw
    else if negb (ncols =? arg_dim) then Throw
    else if negb (blen (cs_data m) =? blen (cs_idx m)) then Throw
    else if nrows =? ncols then UB
    else if blen (cs_off m) =? nrows + 1 then
      outer_loop sz out [(a, ab)] (core_csr (mkCS (cs_data m) (cs_idx m) (cs_off m) nrows ncols) out_dim arg_dim op) ob
    else if blen (cs_off m) =? ncols + 1 then
      outer_loop sz out [(a, ab)] (core_csc (mkCS (cs_data m) (cs_idx m) (cs_off m) ncols nrows) out_dim arg_dim op) ob
    else Throw.
End Cores.
Arguments core_ft_fma {R}. Arguments core_ft_inplace_mul {R}. Arguments core_antipode {R}. Arguments core_ft_adj_lmul {R}.
Arguments core_st_fma {R}. Arguments core_csr {R}. Arguments core_csc {R}.
Arguments nd_ft_fma {R}. Arguments nd_ft_inplace_mul {R}. Arguments nd_antipode {R}. Arguments nd_ft_adj_lmul {R}.
Arguments nd_st_fma {R}. Arguments nd_apply {R}.

Section Cores2.
  Variable R : qalg.
  Notation buf := (buf (qr R)).
  (** dense_intermediate.cpp:24-60 *)
  Definition core_ft_exp (b : basis) (bo : Z * Z) : core_fn (qr R) := fun o args ob =>
    match args with
    | [(a, ab)] => ft_exp (make_view o b (fst bo) (snd bo)) (make_view a b (fst bo) (snd bo)) ob ab
    | _ => Throw
    end.
  (** dense_intermediate.cpp:216-255 *)
  Definition core_ft_log (b : basis) (bo ba : Z * Z) : core_fn (qr R) := fun o args ob =>
    match args with
    | [(a, ab)] => ft_log (make_view o b (fst bo) (snd bo)) (make_view a b (fst ba) (snd ba)) ob ab
    | _ => Throw
    end.
  (** dense_intermediate.cpp:110-150 *)
  Definition core_ft_fmexp (b : basis) (bo : Z * Z) : core_fn (qr R) := fun o args ob =>
    match args with
    | [(m, mb); (e, eb)] => ft_fmexp (make_view o b (fst bo) (snd bo)) (make_view m b (fst bo) (snd bo)) (make_view e b (fst bo) (snd bo)) ob mb eb
    | _ => Throw
    end.
  (** dense_intermediate.cpp:62-102, 152-208, 257-295 *)
  Definition nd_ft_exp (sz : Z) (b : basis) (out a : nparr) (ob ab : buf) : outcome buf :=
    let! bo := update_bounds b (-1) 0 in
    let! _ba := update_bounds b (-1) 0 in
    array_call sz out [(a, ab)] (core_ft_exp b bo) ob.
  Definition nd_ft_log (sz : Z) (b : basis) (out a : nparr) (ob ab : buf) : outcome buf :=
    let! bo := update_bounds b (-1) 0 in
    let! ba := update_bounds b (-1) 0 in
    array_call sz out [(a, ab)] (core_ft_log b bo ba) ob.
  Definition nd_ft_fmexp (sz : Z) (b : basis) (out m e : nparr) (ob mb eb : buf) : outcome buf :=
    let! bo := update_bounds b (-1) 0 in
    let! _bm := update_bounds b (-1) 0 in
    let! _be := update_bounds b (-1) 0 in
    array_call sz out [(m, mb); (e, eb)] (core_ft_fmexp b bo) ob.
End Cores2.
Arguments core_ft_exp {R}. Arguments core_ft_log {R}. Arguments core_ft_fmexp {R}.
Arguments nd_ft_exp {R}. Arguments nd_ft_log {R}. Arguments nd_ft_fmexp {R}.

(** The Python functions of compute/__init__.py on data with batch dimensions in C order
    (numpy zeros and zeros_like of such data are in C order too). *)
(** C-contiguous array of shape sh ++ [n] at the start of its block. *)
Fixpoint c_strides (sh : list Z) (inner : Z) : list Z :=
  match sh with [] => [] | m :: sh' => zprod sh' * inner :: c_strides sh' inner end.
Definition c_array (sz : Z) (sh : list Z) (n : Z) : nparr :=
  mkNp 0 (sh ++ [n]) (c_strides sh (n * sz) ++ [sz]).
(** Stacks of tensors: an array of shape [s_shape ++ [s_dim]] in C order, and a basis. *)
Record stack (R : Type) := mkS { s_mem : buf R; s_shape : list Z; s_dim : Z; s_basis : basis }.
Arguments mkS {R}. Arguments s_mem {R}. Arguments s_shape {R}. Arguments s_dim {R}. Arguments s_basis {R}.
Definition s_arr {R} (sz : Z) (a : stack R) : nparr := c_array sz (s_shape a) (s_dim a).

Section Stacks.
  Variable R : cring.
  Variable sz : Z.
  Notation stack := (stack R).
  Definition s_with (a : stack) (d : buf R) : stack := mkS d (s_shape a) (s_dim a) (s_basis a).
  (** __init__.py:129-145 *)
  Definition s_ft_fma (a b c : stack) : outcome stack :=
    if negb (compat (s_basis a) (s_basis b) && compat (s_basis a) (s_basis c)) then Throw else
    let! d := nd_ft_fma sz (s_basis b) (b_depth (s_basis c)) (-1) (-1) (s_arr sz a) (s_arr sz b) (s_arr sz c) (s_mem a) (s_mem b) (s_mem c) in
    Ok (s_with a d).
  (** __init__.py:149-165 *)
  Definition s_ft_mul (a b : stack) : outcome stack :=
    if negb (compat (s_basis a) (s_basis b)) then Throw else
    let! d := nd_ft_fma sz (s_basis a) (-1) (-1) (b_depth (s_basis b)) (s_arr sz a) (s_arr sz a) (s_arr sz b) (zeros (blen (s_mem a))) (s_mem a) (s_mem b) in
    Ok (s_with a d).
  (** __init__.py:169-184 *)
  Definition s_ft_inplace_mul (a b : stack) : outcome stack :=
    if negb (compat (s_basis a) (s_basis b)) then Throw else
    let! d := nd_ft_inplace_mul sz (s_basis a) (b_depth (s_basis b)) (-1) (s_arr sz a) (s_arr sz b) (s_mem a) (s_mem b) in
    Ok (s_with a d).
  (** __init__.py:188-200 *)
  Definition s_antipode (a : stack) : outcome stack :=
    let! d := nd_antipode sz (s_basis a) (s_arr sz a) (s_arr sz a) (zeros (blen (s_mem a))) (s_mem a) in
    Ok (s_with a d).
  (** __init__.py:203-216 *)
  Definition s_st_fma (a b c : stack) : outcome stack :=
    if negb (compat (s_basis a) (s_basis b) && compat (s_basis a) (s_basis c)) then Throw else
    let! d := nd_st_fma sz (s_basis a) (s_arr sz a) (s_arr sz b) (s_arr sz c) (s_mem a) (s_mem b) (s_mem c) in
    Ok (s_with a d).
  (** __init__.py:219-232 *)
  Definition s_st_mul (a b : stack) : outcome stack :=
    if negb (compat (s_basis a) (s_basis b)) then Throw else
    let! d := nd_st_fma sz (s_basis a) (s_arr sz a) (s_arr sz a) (s_arr sz b) (zeros (blen (s_mem a))) (s_mem a) (s_mem b) in
    Ok (s_with a d).
  (** __init__.py:316-338 *)
  Definition s_ft_adjoint_left_mul (op arg : stack) : outcome stack :=
    if negb (compat (s_basis op) (s_basis arg)) then Throw else
    let! d := nd_ft_adj_lmul sz (s_basis op) (b_depth (s_basis arg)) (b_depth (s_basis op)) (b_depth (s_basis arg)) (s_arr sz arg) (s_arr sz op) (s_arr sz arg)
                (zeros (blen (s_mem arg))) (s_mem op) (s_mem arg) in
    Ok (s_with arg d).
End Stacks.
Arguments s_with {R}. Arguments s_ft_fma {R}. Arguments s_ft_mul {R}. Arguments s_ft_inplace_mul {R}. Arguments s_antipode {R}.
Arguments s_st_fma {R}. Arguments s_st_mul {R}. Arguments s_ft_adjoint_left_mul {R}.

Section Stacks2.
  Variable R : qalg.
  Variable sz : Z.
  Notation stack := (stack (qr R)).
  (** __init__.py:235-258 *)
  Definition s_ft_exp (x : stack) (out_basis : basis) : outcome stack :=
    if negb (compat out_basis (s_basis x)) then Throw else
    let! n := basis_size out_basis in
    let! d := nd_ft_exp sz out_basis (c_array sz (s_shape x) n) (s_arr sz x) (zeros (zprod (s_shape x) * n)) (s_mem x) in
    Ok (mkS d (s_shape x) n out_basis).
  (** __init__.py:261-284 *)
  Definition s_ft_log (x : stack) (out_basis : basis) : outcome stack :=
    if negb (compat out_basis (s_basis x)) then Throw else
    let! n := basis_size out_basis in
    let! d := nd_ft_log sz out_basis (c_array sz (s_shape x) n) (s_arr sz x) (zeros (zprod (s_shape x) * n)) (s_mem x) in
    Ok (mkS d (s_shape x) n out_basis).
  (** __init__.py:287-313 *)
  Definition s_ft_fmexp (a x : stack) (out_basis : basis) : outcome stack :=
    if negb (compat out_basis (s_basis a) && compat out_basis (s_basis x)) then Throw else
    let! n := basis_size out_basis in
    let! d := nd_ft_fmexp sz out_basis (c_array sz (s_shape a) n) (s_arr sz a) (s_arr sz x) (zeros (zprod (s_shape a) * n)) (s_mem a) (s_mem x) in
    Ok (mkS d (s_shape a) n out_basis).
End Stacks2.
Arguments s_ft_exp {R}. Arguments s_ft_log {R}. Arguments s_ft_fmexp {R}.

Section Stacks3.
  Variable R : cring.
  Variable isz : R -> bool.
  Variable sz : Z.
  (** __init__.py:342-358 [lie_to_tensor]: [mem] holds Lie vectors of [dim] entries in C order,
      one for each index of [sh]. *)
  Definition s_lie_to_tensor (jd : Z -> R) (ji jp : Z -> Z) (B : lie_basis) (sh : list Z) (dim : Z) (mem : buf R) (tb : basis) (scale : option R) : outcome (stack R) :=
    let! l2t := construct_new_l2t isz jd ji jp B in
    let! size := basis_size tb in
    if negb (b_width tb =? lb_width B) then Throw
    else
      let! d := nd_apply sz l2t (scaled scale) (c_array sz sh size) (c_array sz sh dim) (zeros (zprod sh * size)) mem in
      Ok (mkS d sh size tb).
  (** __init__.py:361-375 [tensor_to_lie] *)
  Definition s_tensor_to_lie (fuel : nat) (inv : Z -> R) (jd : Z -> R) (ji jp : Z -> Z) (B : lie_basis) (c : lcache) (x : stack R) (scale : option R) : outcome (buf R * lcache) :=
    let! r := construct_new_t2l isz fuel inv jd ji jp B c in
    let! size := lb_size B in
    if negb (b_width (s_basis x) =? lb_width B) then Throw
    else
      let! out := nd_apply sz (fst r) (scaled scale) (c_array sz (s_shape x) size) (s_arr sz x) (zeros (zprod (s_shape x) * size)) (s_mem x) in
      Ok (out, snd r).
End Stacks3.
Arguments s_lie_to_tensor {R}. Arguments s_tensor_to_lie {R}.
