(** Model of the dense tensor kernels in roughpy_compute/ and of the thin Python
    layer over them in roughpy/compute/.

    Conventions.  Scalars are elements of an arbitrary commutative ring
    (float/double in the code; rounding is not modelled).  Every array is a
    separate memory block with checked accesses, so an out-of-bounds access is
    the outcome [UB]; different arguments do not alias.  Array positions
    (ptrdiff_t) are unbounded integers: a position is only used after the bounds
    check, and no block is larger than memory.  Degrees (int32) are integers. *)
From Verif Require Export Mem.

(** roughpy_compute/common/basis.hpp:8-33 [BasisBase]/[TensorBasis]: the
    degree_begin array (a list here), width and depth. *)
Record basis := mkBasis { b_db : list Z; b_width : Z; b_depth : Z }.

(** roughpy/compute/_src/tensor_basis.c:42-58 [construct_tensor_db] (and the same
    loop in call_config.cpp:114-119): entry i is 1 + width * entry (i-1). *)
Fixpoint db_from (width prev : Z) (n : nat) : list Z :=
  match n with O => [] | S n' => let x := 1 + prev * width in x :: db_from width x n' end.
Definition construct_tensor_db (width depth : Z) : list Z :=
  0 :: db_from width 0 (Z.to_nat (depth + 1)).
Definition tensor_basis (width depth : Z) : basis := mkBasis (construct_tensor_db width depth) width depth.

Definition dbget (b : basis) (d : Z) : outcome Z :=
  if (0 <=? d) && (d <? Z.of_nat (length (b_db b))) then Ok (nth (Z.to_nat d) (b_db b) 0) else UB.

(** basis.hpp:17 [BasisBase::size]. *)
Definition basis_size (b : basis) : outcome Z := dbget b (b_depth b + 1).

(** basis.hpp:35-47 [unpack_index_to_letters].  The letters are returned in
    storage order: entry d is the d-th digit, least significant first. *)
Fixpoint unpack_index_to_letters (degree : nat) (index width : Z) : list Z :=
  match degree with O => [] | S d => Z.rem index width :: unpack_index_to_letters d (Z.quot index width) width end.
(** The letter type of the shuffle kernels is int16_t
    (shuffle_tensor_product.hpp:41): conversion wraps. *)
Definition to_i16 (x : Z) : Z := (x + 32768) mod 65536 - 32768.

(** roughpy_compute/common/bitmask.hpp:9-58.  [BitMask(n)] is (1<<n)-1 on a 64-bit
    word (shifting by 64 or more is undefined); [mask idx] is bit idx. *)
Definition mask_all (n_bits : Z) : outcome Z :=
  if (0 <=? n_bits) && (n_bits <? 64) then Ok (2 ^ n_bits - 1) else UB.
Definition mask_bit (mask : Z) (i : Z) : bool := Z.testbit mask i.

(** basis.hpp:49-61 [pack_masked_index]: walk the letters from position
    [degree] down to 0; bit set -> first word, clear -> second word.
    Result (lhs_deg, lhs_idx, rhs_deg, rhs_idx). *)
Fixpoint pack_masked_index (letters : list Z) (width mask : Z) (n : nat) (acc : Z * Z * Z * Z) : Z * Z * Z * Z :=
  match n with
  | O => acc
  | S d =>
    let '(ld, li, rd, ri) := acc in
    let x := nth d letters 0 in
    let acc' := if mask_bit mask (Z.of_nat d) then (ld + 1, li * width + x, rd, ri)
                else (ld, li, rd + 1, ri * width + x) in
    pack_masked_index letters width mask d acc'
  end.

(** Iterators over array data: a raw pointer, or
    roughpy_compute/dense/views.hpp:24-170 [StridedDenseIterator].
    Adding an offset to the strided iterator (views.hpp:98-103) moves the base by
    the unscaled offset; indexing (64-67) scales by the stride. *)
Inductive iter := Ptr (base : Z) | Strided (base stride : Z).
Definition it_add (it : iter) (off : Z) : iter :=
  match it with Ptr b => Ptr (b + off) | Strided b s => Strided (b + off) s end.
Definition it_addr (it : iter) (n : Z) : Z :=
  match it with Ptr b => b + n | Strided b s => b + n * s end.

(** views.hpp:203-317 [DenseVectorView]/[DenseTensorView]. *)
Record view := mkView { v_it : iter; v_basis : basis; v_min : Z; v_max : Z }.
(** views.hpp:233-241, constructor: max_degree -1 means the basis depth. *)
Definition make_view (it : iter) (b : basis) (mn mx : Z) : view :=
  mkView it b mn (if mx =? -1 then b_depth b else mx).
(** views.hpp:305-315 [truncate]; goes through the constructor again. *)
Definition v_trunc (v : view) (new_max new_min : Z) : view :=
  make_view (v_it v) (v_basis v) (Z.max (v_min v) new_min) (Z.min (v_max v) new_max).
(** views.hpp:258-262 [size]. *)
Definition v_size (v : view) : outcome Z :=
  let! e := dbget (v_basis v) (v_max v + 1) in
  let! s := dbget (v_basis v) (v_min v) in Ok (e - s).
(** views.hpp:173-200, 270-279 [DenseVectorFragment], [at_level]: iterator to the
    start of the level and its size.  The asserts (min <= degree <= max, index <
    size) are compiled out in release builds and are not modelled. *)
Definition at_level (v : view) (d : Z) : outcome (iter * Z) :=
  let! s := dbget (v_basis v) d in
  let! e := dbget (v_basis v) (d + 1) in
  Ok (it_add (v_it v) s, e - s).

Section Kernels.
  Variable R : cring.
  Notation buf := (buf R).
  Local Open Scope cr_scope.

  Definition fget (b : buf) (f : iter * Z) (i : Z) : outcome R := bget b (it_addr (fst f) i).
  Definition fset (b : buf) (f : iter * Z) (i : Z) (x : R) : outcome buf := bset b (it_addr (fst f) i) x.
  Definition fadd (b : buf) (f : iter * Z) (i : Z) (x : R) : outcome buf :=
    let! y := fget b f i in fset b f i (y + x).
  Definition vget (b : buf) (v : view) (i : Z) : outcome R := bget b (it_addr (v_it v) i).
  Definition vset (b : buf) (v : view) (i : Z) (x : R) : outcome buf := bset b (it_addr (v_it v) i) x.
  Definition vadd (b : buf) (v : view) (i : Z) (x : R) : outcome buf :=
    let! y := vget b v i in vset b v i (y + x).

  (** dense/basic/free_tensor_fma.hpp:13-53 [ft_fma]. *)
  Definition ft_fma (out lhs rhs : view) (ob lb rb : buf) (op : R -> R) : outcome buf :=
    let out_min := Z.max 1 (v_min out) in
    let! ob := for_ (zdown (v_max out) out_min) ob (fun out_degree ob =>
      let lmax := Z.min (v_max lhs) (out_degree - v_min rhs) in
      let lmin := Z.max (v_min lhs) (out_degree - v_max rhs) in
      let! out_frag := at_level out out_degree in
      for_ (zdown lmax lmin) ob (fun lhs_degree ob =>
        let rhs_degree := (out_degree - lhs_degree)%Z in
        let! lhs_frag := at_level lhs lhs_degree in
        let! rhs_frag := at_level rhs rhs_degree in
        for_ (zrange (snd lhs_frag)) ob (fun i ob =>
          for_ (zrange (snd rhs_frag)) ob (fun j ob =>
            let! x := fget lb lhs_frag i in
            let! y := fget rb rhs_frag j in
            fadd ob out_frag (i * snd rhs_frag + j)%Z (op (x * y)))))) in
    if ((v_min out =? 0) && (v_min lhs =? 0) && (v_min rhs =? 0))%Z then
      let! x := vget lb lhs 0 in let! y := vget rb rhs 0 in vadd ob out 0 (op (x * y))
    else Ok ob.

  (** dense/basic/free_tensor_inplace_mul.hpp:13-87 [ft_inplace_mul]. *)
  Definition ft_inplace_mul (lhs rhs : view) (b rb : buf) (op : R -> R) : outcome buf :=
    let! b := for_ (zdown (v_max lhs) (Z.max 1 (v_min lhs))) b (fun out_degree b =>
      let lmin := Z.max (v_min lhs) (out_degree - v_max rhs) in
      let lmax := (out_degree - Z.max 1 (v_min rhs))%Z in
      let! out_frag := at_level lhs out_degree in
      let! b :=
        (if (v_min rhs =? 0)%Z then
           for_ (zrange (snd out_frag)) b (fun i b =>
             let! x := fget b out_frag i in
             let! y := vget rb rhs 0 in
             fset b out_frag i (op (x * y)))
         else for_ (zrange (snd out_frag)) b (fun i b => fset b out_frag i 0)) in
      for_ (zdown lmax lmin) b (fun lhs_degree b =>
        let rhs_degree := (out_degree - lhs_degree)%Z in
        let! lhs_frag := at_level lhs lhs_degree in
        let! rhs_frag := at_level rhs rhs_degree in
        for_ (zrange (snd lhs_frag)) b (fun i b =>
          for_ (zrange (snd rhs_frag)) b (fun j b =>
            let! x := fget b lhs_frag i in
            let! y := fget rb rhs_frag j in
            fadd b out_frag (i * snd rhs_frag + j)%Z (op (x * y)))))) in
    if ((v_min lhs =? 0) && (v_min rhs =? 0))%Z then
      let! x := vget b lhs 0 in let! y := vget rb rhs 0 in vset b lhs 0 (op (x * y))
    else if (v_min lhs =? 0)%Z then vset b lhs 0 0
    else Ok b.

  (** dense/basic/free_tensor_antipode.hpp:17-27 [reverse_index]. *)
  Fixpoint reverse_index_loop (n : nat) (arg width result : Z) : Z :=
    match n with O => result | S n' => reverse_index_loop n' (Z.quot arg width) width (result * width + Z.rem arg width)%Z end.
  Definition reverse_index (arg width degree : Z) : Z := reverse_index_loop (Z.to_nat degree) arg width 0%Z.
  (** free_tensor_antipode.hpp:29-43 [DefaultSigner] at a given degree. *)
  Definition signer (degree : Z) (x : R) : R := if negb (Z.rem degree 2 =? 0)%Z then - x else x.
  (** free_tensor_antipode.hpp:45-100 [ft_antipode]. *)
  Definition ft_antipode (out arg : view) (ob ab : buf) : outcome buf :=
    let mn := Z.max (v_min arg) (v_min out) in
    let mx := Z.min (v_max arg) (v_max out) in
    let width := b_width (v_basis arg) in
    let! ob := (if (mn =? 0)%Z then let! x := vget ab arg 0 in vset ob out 0 (signer 0 x) else Ok ob) in
    let! ob := (if (mn <=? 1)%Z then
        let! al := at_level arg 1 in
        let! ol := at_level out 1 in
        for_ (zrange (snd al)) ob (fun i ob => let! x := fget ab al i in fset ob ol i (signer 1 x))
      else Ok ob) in
    let start := Z.max 2 mn in
    for_ (zseq start (Z.to_nat (mx - start + 1))) ob (fun degree ob =>
      let! al := at_level arg degree in
      let! ol := at_level out degree in
      for_ (zrange (snd al)) ob (fun i ob =>
        let! x := fget ab al i in fset ob ol (reverse_index i width degree) (signer degree x))).

  (** dense/basic/free_tensor_adjoint_left_mul.hpp:10-77 [ft_adj_lmul]. *)
  Definition ft_adj_lmul (out op arg : view) (ob pb ab : buf) : outcome buf :=
    let amax := Z.min (v_max arg - v_min op) (v_max out) in
    let amin := Z.max (v_min arg - v_max op) (v_min out) in
    for_ (zdown amax amin) ob (fun arg_degree ob =>
      let omin := Z.max (arg_degree - v_max op) (v_min out) in
      let omax := Z.min (arg_degree - v_min op) (v_max out) in
      let! arg_frag := at_level arg arg_degree in
      for_ (zdown omax omin) ob (fun out_degree ob =>
        let op_degree := (arg_degree - out_degree)%Z in
        let! op_frag := at_level op op_degree in
        let! out_frag := at_level out out_degree in
        for_ (zrange (snd op_frag)) ob (fun op_idx ob =>
          let op_offset := (op_idx * snd out_frag)%Z in
          let! op_val := fget pb op_frag op_idx in
          for_ (zrange (snd out_frag)) ob (fun i ob =>
            let! x := fget ab arg_frag (i + op_offset)%Z in
            fadd ob out_frag i (op_val * x))))).

  (** The letters array of the shuffle kernels: CacheArray<int16_t,32>(max_degree);
      writing position d is in bounds when d is below the capacity
      (common/cache_array.hpp:43-50). *)
  Definition letters_cap (max_degree : Z) : Z := if max_degree <=? 32 then 32 else max_degree.
  Definition unpack16 (cap degree index width : Z) : outcome (list Z) :=
    if degree <=? cap then Ok (map to_i16 (unpack_index_to_letters (Z.to_nat degree) index width)) else UB.

  (** dense/basic/shuffle_tensor_product.hpp:21-87 [st_fma] (version v1, the one in
      the inline namespace and hence the one called). *)
  Definition st_fma (out lhs rhs : view) (ob lb rb : buf) (op : R -> R) : outcome buf :=
    let width := b_width (v_basis out) in
    let cap := letters_cap (v_max out) in
    let! x0 := vget lb lhs 0 in let! y0 := vget rb rhs 0 in
    let! ob := vadd ob out 0 (op (x0 * y0)) in
    for_ (zseq 1 (Z.to_nat (v_max lhs))) ob (fun out_deg ob =>
      let! out_level := at_level out out_deg in
      for_ (zrange (width ^ out_deg)%Z) ob (fun i ob =>
        let! letters := unpack16 cap out_deg i width in
        let! top := mask_all out_deg in
        let! acc := for_ (zrange (top + 1)) 0 (fun mask acc =>
          let '(ld, li, rd, ri) := pack_masked_index letters width mask (Z.to_nat out_deg) (0, 0, 0, 0)%Z in
          let! lhs_level := at_level lhs ld in
          let! rhs_level := at_level rhs rd in
          let! x := fget lb lhs_level li in
          let! y := fget rb rhs_level ri in
          Ok (acc + x * y)) in
        fadd ob out_level i (op acc))).

  (** dense/basic/shuffle_tensor_adjoint_mul.hpp:12-70 [st_adj_mul]. *)
  Definition st_adj_mul (out op arg : view) (ob pb ab : buf) : outcome buf :=
    let width := b_width (v_basis out) in
    let cap := letters_cap (v_max out) in
    for_ (zseq 0 (Z.to_nat (v_max arg + 1))) ob (fun func_degree ob =>
      let! func_level := at_level arg func_degree in
      for_ (zrange (snd func_level)) ob (fun i ob =>
        let! letters := unpack16 cap func_degree i width in
        let! scalar := fget ab func_level i in
        let! top := mask_all func_degree in
        for_ (zrange (top + 1)) ob (fun mask ob =>
          let '(pd, pi, od, oi) := pack_masked_index letters width mask (Z.to_nat func_degree) (0, 0, 0, 0)%Z in
          let! op_level := at_level op pd in
          let! out_level := at_level out od in
          let! x := fget pb op_level pi in
          fadd ob out_level oi (scalar * x)))).

  (** dense/basic/vector_addition.hpp:14-43. *)
  Definition vector_addition (out lhs rhs : view) (ob lb rb : buf) (lop rop : R -> R) : outcome buf :=
    let! os := v_size out in let! ls := v_size lhs in let! rs := v_size rhs in
    let common := Z.min ls rs in
    let! ob := for_ (zrange (Z.min os common)) ob (fun i ob =>
      let! x := vget lb lhs i in let! y := vget rb rhs i in vset ob out i (lop x + rop y)) in
    let! ob := for_ (zseq common (Z.to_nat (Z.min os ls - common))) ob (fun i ob =>
      let! x := vget lb lhs i in vset ob out i (lop x)) in
    for_ (zseq common (Z.to_nat (Z.min os rs - common))) ob (fun i ob =>
      let! y := vget rb rhs i in vset ob out i (rop y)).
  (** dense/basic/vector_inplace_addition.hpp:12-31. *)
  Definition vector_inplace_addition (lhs rhs : view) (b rb : buf) (op : R -> R) : outcome buf :=
    let! ls := v_size lhs in let! rs := v_size rhs in
    for_ (zrange (Z.min ls rs)) b (fun i b => let! y := vget rb rhs i in vadd b lhs i (op y)).
  (** dense/basic/vector_scalar_multiply.hpp:8-22. *)
  Definition vector_scalar_multiply (out inp : view) (ob ib : buf) (c : R) : outcome buf :=
    let! os := v_size out in let! is_ := v_size inp in
    for_ (zrange (Z.min os is_)) ob (fun i ob => let! x := vget ib inp i in vset ob out i (x * c)).
  (** dense/basic/vector_inplace_scalar_multiply.hpp:10-19. *)
  Definition vector_inplace_scalar_multiply (arg : view) (b : buf) (c : R) : outcome buf :=
    let! s := v_size arg in
    for_ (zrange s) b (fun i b => let! x := vget b arg i in vset b arg i (x * c)).
End Kernels.
Arguments fget {R}. Arguments fset {R}. Arguments fadd {R}. Arguments vget {R}. Arguments vset {R}. Arguments vadd {R}.
Arguments ft_fma {R}. Arguments ft_inplace_mul {R}. Arguments ft_antipode {R}. Arguments ft_adj_lmul {R}.
Arguments st_fma {R}. Arguments st_adj_mul {R}. Arguments signer {R}.
Arguments vector_addition {R}. Arguments vector_inplace_addition {R}. Arguments vector_scalar_multiply {R}.
Arguments vector_inplace_scalar_multiply {R}.

Section Intermediate.
  Variable R : qalg.
  Notation buf := (buf (qr R)).
  Local Open Scope cr_scope.

  (** common/operations.hpp:48-54 [DivideBy]: right multiplication by 1/factor. *)
  Definition divide_by (deg : Z) : qr R -> qr R := fun x => x * qinv (Z.to_nat deg).

  (** dense/intermediate/free_tensor_exp.hpp:13-37 [ft_exp]. *)
  Definition ft_exp (out arg : view) (ob ab : buf) : outcome buf :=
    let! ob := vset ob out 0 1 in
    let mx := v_max out in
    for_ (zdown mx 1) ob (fun deg ob =>
      let max_level := (mx - deg + 1)%Z in
      let! ob := ft_inplace_mul (v_trunc out max_level 0) (v_trunc arg max_level 1) ob ab (divide_by deg) in
      vadd ob out 0 1).

  (** dense/intermediate/free_tensor_log.hpp:12-39 [ft_log]. *)
  Definition ft_log (out arg : view) (ob ab : buf) : outcome buf :=
    let mx := v_max out in
    for_ (zdown mx 1) ob (fun deg ob =>
      let max_level := (mx - deg + 1)%Z in
      let c := (1 * qinv (Z.to_nat deg))%cr in
      let! ob := (if (Z.rem deg 2 =? 0)%Z then let! x := vget ob out 0 in vset ob out 0 (x - c)
                  else vadd ob out 0 c) in
      ft_inplace_mul (v_trunc out max_level 0) (v_trunc arg max_level 1) ob ab (fun x => x)).

  (** dense/intermediate/free_tensor_fmexp.hpp:15-40 [ft_fmexp]. *)
  Definition ft_fmexp (out mul ex : view) (ob mb eb : buf) : outcome buf :=
    let! os := v_size out in let! ms := v_size mul in
    let common := Z.min os ms in
    let! ob := for_ (zrange common) ob (fun i ob => let! x := vget mb mul i in vset ob out i x) in
    let mx := v_max out in
    for_ (zdown mx 1) ob (fun deg ob =>
      let max_level := (mx - deg + 1)%Z in
      let! ob := ft_inplace_mul (v_trunc out max_level 0) (v_trunc ex max_level 1) ob eb (divide_by deg) in
      vector_inplace_addition out mul ob mb (fun x => x)).
End Intermediate.
Arguments divide_by {R}. Arguments ft_exp {R}. Arguments ft_log {R}. Arguments ft_fmexp {R}.

(** ------------------------------------------------------------------------
    The Python layer. *)

(** roughpy/compute/_src/call_config.cpp:11-31 [update_algebra_params] for one
    argument: effective (min,max) degrees, or a ValueError. *)
Definition update_bounds (b : basis) (mx mn : Z) : outcome (Z * Z) :=
  let mx' := if (mx =? -1) || (mx >? b_depth b) then b_depth b else mx in
  if mn >? mx' then Throw else Ok (mn, mx').

(** A DenseFreeTensor / DenseShuffleTensor object (roughpy/compute/__init__.py:90-101):
    one-dimensional contiguous data and a basis.  (Batched data: see BatchModel.) *)
Record dtensor (R : Type) := mkT { t_data : buf R; t_basis : basis }.
Arguments mkT {R}. Arguments t_data {R}. Arguments t_basis {R}.

Section PyLayer.
  Variable R : cring.
  Notation buf := (buf R).
  Notation dtensor := (dtensor R).
  Local Open Scope cr_scope.

  (** numpy zeros_like / zeros. *)
  Definition zeros (n : Z) : buf := mkbuf n (fun _ => 0).

  (** __init__.py:119-124 [_check_basis_compat]. *)
  Definition compat (a b : basis) : bool := (b_width a =? b_width b)%Z.

  (** dense_basic.cpp:40-151 [py_dense_ft_fma]: all three views use the one basis
      passed; the depth arguments default to -1. *)
  Definition dense_ft_fma (ob lb rb : buf) (b : basis) (od ld rd : Z) : outcome buf :=
    let! (omn, omx) := update_bounds b od 0 in
    let! (lmn, lmx) := update_bounds b ld 0 in
    let! (rmn, rmx) := update_bounds b rd 0 in
    ft_fma (make_view (Ptr 0) b omn omx) (make_view (Ptr 0) b lmn lmx) (make_view (Ptr 0) b rmn rmx) ob lb rb (fun x => x).
  (** __init__.py:129-145 [ft_fma]: the fifth positional argument is out_depth. *)
  Definition py_ft_fma (a b c : dtensor) : outcome dtensor :=
    if negb (compat (t_basis a) (t_basis b) && compat (t_basis a) (t_basis c)) then Throw else
    let! d := dense_ft_fma (t_data a) (t_data b) (t_data c) (t_basis b) (b_depth (t_basis c)) (-1) (-1) in
    Ok (mkT d (t_basis a)).
  (** __init__.py:149-165 [ft_mul]. *)
  Definition py_ft_mul (a b : dtensor) : outcome dtensor :=
    if negb (compat (t_basis a) (t_basis b)) then Throw else
    let! d := dense_ft_fma (zeros (blen (t_data a))) (t_data a) (t_data b) (t_basis a) (-1) (-1) (b_depth (t_basis b)) in
    Ok (mkT d (t_basis a)).

  (** dense_basic.cpp:158-237 [py_dense_ft_inplace_mul]. *)
  Definition dense_ft_inplace_mul (lb rb : buf) (b : basis) (od rd : Z) : outcome buf :=
    let! (omn, omx) := update_bounds b od 0 in
    let! (rmn, rmx) := update_bounds b rd 0 in
    ft_inplace_mul (make_view (Ptr 0) b omn omx) (make_view (Ptr 0) b rmn rmx) lb rb (fun x => x).
  (** __init__.py:169-184 [ft_inplace_mul]: the fourth positional argument is out_depth. *)
  Definition py_ft_inplace_mul (a b : dtensor) : outcome dtensor :=
    if negb (compat (t_basis a) (t_basis b)) then Throw else
    let! d := dense_ft_inplace_mul (t_data a) (t_data b) (t_basis a) (b_depth (t_basis b)) (-1) in
    Ok (mkT d (t_basis a)).

  (** dense_basic.cpp:244-334 [py_dense_antipode]; __init__.py:188-200 [antipode]. *)
  Definition py_antipode (a : dtensor) : outcome dtensor :=
    let b := t_basis a in
    let! (omn, omx) := update_bounds b (-1) 0 in
    let! (amn, amx) := update_bounds b (-1) 0 in
    let! d := ft_antipode (make_view (Ptr 0) b omn omx) (make_view (Ptr 0) b amn amx) (zeros (blen (t_data a))) (t_data a) in
    Ok (mkT d b).

  (** dense_basic.cpp:342-440 [py_dense_ft_adj_lmul]; __init__.py:316-338. *)
  Definition py_ft_adjoint_left_mul (op arg : dtensor) : outcome dtensor :=
    if negb (compat (t_basis op) (t_basis arg)) then Throw else
    let b := t_basis op in
    let! (omn, omx) := update_bounds b (b_depth (t_basis arg)) 0 in
    let! (pmn, pmx) := update_bounds b (b_depth (t_basis op)) 0 in
    let! (amn, amx) := update_bounds b (b_depth (t_basis arg)) 0 in
    let! d := ft_adj_lmul (make_view (Ptr 0) b omn omx) (make_view (Ptr 0) b pmn pmx) (make_view (Ptr 0) b amn amx)
                (zeros (blen (t_data arg))) (t_data op) (t_data arg) in
    Ok (mkT d (t_basis arg)).

  (** dense_basic.cpp:448-534 [py_dense_st_fma]. *)
  Definition dense_st_fma (ob lb rb : buf) (b : basis) : outcome buf :=
    let! (omn, omx) := update_bounds b (-1) 0 in
    let! (lmn, lmx) := update_bounds b (-1) 0 in
    let! (rmn, rmx) := update_bounds b (-1) 0 in
    st_fma (make_view (Ptr 0) b omn omx) (make_view (Ptr 0) b lmn lmx) (make_view (Ptr 0) b rmn rmx) ob lb rb (fun x => x).
  (** __init__.py:203-216 [st_fma]. *)
  Definition py_st_fma (a b c : dtensor) : outcome dtensor :=
    if negb (compat (t_basis a) (t_basis b) && compat (t_basis a) (t_basis c)) then Throw else
    let! d := dense_st_fma (t_data a) (t_data b) (t_data c) (t_basis a) in
    Ok (mkT d (t_basis a)).
  (** __init__.py:219-232 [st_mul]. *)
  Definition py_st_mul (a b : dtensor) : outcome dtensor :=
    if negb (compat (t_basis a) (t_basis b)) then Throw else
    let! d := dense_st_fma (zeros (blen (t_data a))) (t_data a) (t_data b) (t_basis a) in
    Ok (mkT d (t_basis a)).
End PyLayer.
Arguments zeros {R}. Arguments dense_ft_fma {R}. Arguments py_ft_fma {R}. Arguments py_ft_mul {R}.
Arguments dense_ft_inplace_mul {R}. Arguments py_ft_inplace_mul {R}. Arguments py_antipode {R}.
Arguments py_ft_adjoint_left_mul {R}. Arguments dense_st_fma {R}. Arguments py_st_fma {R}. Arguments py_st_mul {R}.

Section PyLayer2.
  Variable R : qalg.
  Notation dtensor := (dtensor (qr R)).
  (** __init__.py:235-258 [ft_exp], dense_intermediate.cpp:24-102: both views use
      out_basis and the bounds of argument 0. *)
  Definition py_ft_exp (x : dtensor) (out_basis : basis) : outcome dtensor :=
    if negb (compat out_basis (t_basis x)) then Throw else
    let! n := basis_size out_basis in
    let! (mn, mx) := update_bounds out_basis (-1) 0 in
    let! _u := update_bounds out_basis (-1) 0 in
    let! d := ft_exp (make_view (Ptr 0) out_basis mn mx) (make_view (Ptr 0) out_basis mn mx) (zeros n) (t_data x) in
    Ok (mkT d out_basis).
  (** __init__.py:261-284 [ft_log], dense_intermediate.cpp:216-295. *)
  Definition py_ft_log (x : dtensor) (out_basis : basis) : outcome dtensor :=
    if negb (compat out_basis (t_basis x)) then Throw else
    let! n := basis_size out_basis in
    let! (mn, mx) := update_bounds out_basis (-1) 0 in
    let! (amn, amx) := update_bounds out_basis (-1) 0 in
    let! d := ft_log (make_view (Ptr 0) out_basis mn mx) (make_view (Ptr 0) out_basis amn amx) (zeros n) (t_data x) in
    Ok (mkT d out_basis).
  (** __init__.py:287-312 [ft_fmexp], dense_intermediate.cpp:110-208: all three views
      use out_basis and the bounds of argument 0. *)
  Definition py_ft_fmexp (a x : dtensor) (out_basis : basis) : outcome dtensor :=
    if negb (compat out_basis (t_basis a) && compat out_basis (t_basis x)) then Throw else
    let! n := basis_size out_basis in
    let! (mn, mx) := update_bounds out_basis (-1) 0 in
    let! _u := update_bounds out_basis (-1) 0 in
    let! _u := update_bounds out_basis (-1) 0 in
    let v := make_view (Ptr 0) out_basis mn mx in
    let! d := ft_fmexp v v v (zeros n) (t_data a) (t_data x) in
    Ok (mkT d out_basis).
End PyLayer2.
Arguments py_ft_exp {R}. Arguments py_ft_log {R}. Arguments py_ft_fmexp {R}.
