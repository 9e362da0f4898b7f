(** Vectors and algebras of the vendored library (vendored/libalgebra_lite), the storage behind the
    tensors and Lie elements that streams and signatures use: dense and sparse vectors, the graded
    multiplication template, the free tensor product, and the functions of free tensors built on it.

    Simplifications.  Scalars are an arbitrary commutative ring with a zero test (floating point
    rounding is not modelled).  A basis is the record of the members of [tensor_basis]/[hall_basis]
    that the vector templates call.  Every vector has a multiplication (the contexts always set one).
    A range-for over a vector is written as a loop over the list of its items, read before the body
    runs: no body changes the vector iterated over. *)
From Verif Require Export HsModel.
Open Scope Z_scope.

(** ** basis_traits.h *)
Record vbasis := mkVB {
  vb_depth : Z;
  vb_sizes : buf Z;
  vb_size : Z -> outcome Z;
  vb_index : Z -> outcome Z;
  vb_key : Z -> outcome Z;
  vb_advance : Z -> outcome Z }.
(** tensor_basis.h *)
Definition tensor_vb (B : tbasis) : vbasis :=
  mkVB (tb_depth B) (tb_sizes B) (tb_size B) (key_to_index B) (index_to_key B) (advance_key B).

(** basis_traits.h:89-101 *)
Definition get_next_dimension (V : vbasis) (dim : Z) : outcome (Z * Z) :=
  let n := blen (vb_sizes V) in
  let! it := bisect (Z.to_nat n) (fun j => let! s := bget (vb_sizes V) j in Ok (s <=? dim)) 0 n in
  if it =? n then let! m := vb_size V (-1) in Ok (m, 0)
  else let! s := bget (vb_sizes V) it in Ok (s, it).

(** The operations of a vector type used by the algebra templates: dense_vector.h and
    sparse_vector.h are the two implementations.  [vo_upd v k f] is [v[k] = f(v[k])] through the
    mutable subscript, [vo_get] the const subscript, [vo_items] what const iteration yields. *)
Record vops (R X : Type) := mkVO {
  vo_new : X;
  vo_single : Z -> R -> outcome X;
  vo_empty : X -> bool;
  vo_clear : X -> X;
  vo_degree : X -> Z;
  vo_update_degree : Z -> X -> X;
  vo_upd : X -> Z -> (R -> R) -> outcome X;
  vo_get : X -> Z -> outcome R;
  vo_items : X -> outcome (list (Z * R));
  vo_unary : (R -> R) -> X -> X;
  vo_binary : (R -> R -> R) -> X -> X -> X;
  vo_ibinary : (R -> R -> R) -> X -> X -> X;
  vo_eqb : X -> X -> bool }.
Arguments vo_new {R X}. Arguments vo_single {R X}. Arguments vo_empty {R X}. Arguments vo_clear {R X}.
Arguments vo_degree {R X}. Arguments vo_update_degree {R X}. Arguments vo_upd {R X}. Arguments vo_get {R X}.
Arguments vo_items {R X}. Arguments vo_unary {R X}. Arguments vo_binary {R X}. Arguments vo_ibinary {R X}.
Arguments vo_eqb {R X}.

Section Vectors.
  Variable R : cring.
  (** operator== on scalars *)
  Variable req : R -> R -> bool.
  Notation isz x := (req x (@r0 R)).

  (** ** dense_vector.h *)
  Record dvec := mkDV { dv_data : buf R; dv_deg : Z }.
  Section Dense.
    Variable V : vbasis.
    (** line 77: no storage, [m_degree = 0] *)
    Definition dv_new : dvec := mkDV (mkbuf 0 (fun _ => r0)) 0.
    (** lines 129-133: [m_storage.resize(n, zero)] keeps the common prefix *)
    Definition dv_resize_exact (v : dvec) (n deg : Z) : dvec :=
      mkDV (mkbuf n (fun i => if i <? blen (dv_data v) then bat (dv_data v) i else r0)) deg.
    (** lines 146-150 *)
    Definition dv_resize (v : dvec) (n : Z) : outcome dvec :=
      let! (d, deg) := get_next_dimension V n in Ok (dv_resize_exact v d deg).
    (** lines 69-75 *)
    Definition dv_single (k : Z) (s : R) : outcome dvec :=
      let! i := vb_index V k in
      let! v := dv_resize dv_new i in
      let! d := bset (dv_data v) i s in Ok (mkDV d (dv_deg v)).
    (** lines 86-92: from a range of scalars *)
    Definition dv_of_list (l : list R) : outcome dvec :=
      dv_resize (mkDV (mkbuf (Z.of_nat (length l)) (fun i => nth (Z.to_nat i) l r0)) 0) (Z.of_nat (length l)).
    (** lines 121, 186-188, 207 *)
    Definition dv_update_degree (d : Z) (v : dvec) : dvec := mkDV (dv_data v) d.
    Definition dv_empty (v : dvec) : bool := blen (dv_data v) =? 0.
    Definition dv_clear (v : dvec) : dvec := mkDV (mkbuf 0 (fun _ => r0)) (dv_deg v).
    (** lines 178-185: the number of non-zero scalars *)
    Definition dv_size (v : dvec) : Z :=
      Z.of_nat (length (filter (fun i => negb (isz (bat (dv_data v) i))) (zrange (blen (dv_data v))))).
    (** lines 190-196 *)
    Definition dv_upd (v : dvec) (k : Z) (f : R -> R) : outcome dvec :=
      let! i := vb_index V k in
      let! v := if i >=? blen (dv_data v) then dv_resize v i else Ok v in
      let! x := bget (dv_data v) i in
      let! d := bset (dv_data v) i (f x) in Ok (mkDV d (dv_deg v)).
    (** lines 198-202 *)
    Definition dv_get (v : dvec) (k : Z) : outcome R :=
      let! i := vb_index V k in bget (dv_data v) i.
    (** dense_vector_const_iterator, lines 415-: the key starts at index 0 and advances *)
    Definition dv_items (v : dvec) : outcome (list (Z * R)) :=
      let! k0 := vb_key V 0 in
      let! (l, _) := for_ (zrange (blen (dv_data v))) ([], k0) (fun i s =>
        let '(l, k) := s in
        let! x := bget (dv_data v) i in
        let! k' := vb_advance V k in
        Ok (l ++ [(k, x)], k')) in
      Ok l.
    (** lines 211-234 *)
    Definition dv_unary (f : R -> R) (v : dvec) : dvec :=
      mkDV (mkbuf (blen (dv_data v)) (fun i => f (bat (dv_data v) i))) (dv_deg v).
    (** the scalar at position i, zero past the end *)
    Definition dv_at (v : dvec) (i : Z) : R := if i <? blen (dv_data v) then bat (dv_data v) i else r0.
    (** lines 236-264 *)
    Definition dv_binary (op : R -> R -> R) (a b : dvec) : dvec :=
      mkDV (mkbuf (Z.max (blen (dv_data a)) (blen (dv_data b))) (fun i => op (dv_at a i) (dv_at b i)))
           (Z.max (dv_deg a) (dv_deg b)).
    (** lines 266-289 *)
    Definition dv_ibinary (op : R -> R -> R) (a b : dvec) : dvec :=
      mkDV (mkbuf (Z.max (blen (dv_data a)) (blen (dv_data b))) (fun i => op (dv_at a i) (dv_at b i)))
           (if blen (dv_data b) >? blen (dv_data a) then dv_deg b else dv_deg a).
    (** lines 291-310 *)
    Definition dv_eqb (a b : dvec) : bool :=
      let mid := Z.min (blen (dv_data a)) (blen (dv_data b)) in
      forallb (fun i => req (bat (dv_data a) i) (bat (dv_data b) i)) (zrange mid)
      && forallb (fun i => isz (bat (dv_data a) i)) (zseq mid (Z.to_nat (blen (dv_data a) - mid)))
      && forallb (fun i => isz (bat (dv_data b) i)) (zseq mid (Z.to_nat (blen (dv_data b) - mid))).

    Definition dense_ops : vops R dvec :=
      mkVO R dvec dv_new dv_single dv_empty dv_clear dv_deg dv_update_degree dv_upd dv_get dv_items
           dv_unary dv_binary dv_ibinary dv_eqb.
  End Dense.

  (** ** sparse_vector.h: a [std::map], as the list of its entries in key order.  The stored
      [m_degree] is never read ([degree()] recomputes it). *)
  Definition svec := list (Z * R).
  Fixpoint s_find (k : Z) (m : svec) : option R :=
    match m with [] => None | (q, x) :: m => if q =? k then Some x else s_find k m end.
  Fixpoint s_set (k : Z) (x : R) (m : svec) : svec :=
    match m with
    | [] => [(k, x)]
    | (q, y) :: m' => if k <? q then (k, x) :: m else if q =? k then (q, x) :: m' else (q, y) :: s_set k x m'
    end.
  Fixpoint s_erase (k : Z) (m : svec) : svec :=
    match m with [] => [] | (q, y) :: m' => if q =? k then m' else (q, y) :: s_erase k m' end.
  (** lines 333-342 *)
  Definition sv_single (k : Z) (s : R) : outcome svec := Ok (if isz s then [] else [(k, s)]).
  Definition sv_empty (v : svec) : bool := match v with [] => true | _ => false end.
  (** lines 355-363 *)
  Definition sv_degree (v : svec) : Z := fold_left (fun r (e : Z * R) => if k_degree (fst e) >? r then k_degree (fst e) else r) v 0.
  (** lines 64-105, 386-389: the mutable reference writes back when it dies *)
  Definition sv_upd (v : svec) (k : Z) (f : R -> R) : outcome svec :=
    let tmp := f (match s_find k v with Some x => x | None => r0 end) in
    Ok (if isz tmp then s_erase k v else s_set k tmp v).
  (** lines 379-384 *)
  Definition sv_get (v : svec) (k : Z) : outcome R := Ok (match s_find k v with Some x => x | None => r0 end).
  (** lines 418-441 *)
  Definition sv_unary (f : R -> R) (v : svec) : svec :=
    filter (fun e => negb (isz (snd e))) (map (fun e : Z * R => (fst e, f (snd e))) v).
  (** lines 456-483 *)
  Definition sv_ibinary (op : R -> R -> R) (a b : svec) : svec :=
    fold_left (fun m (e : Z * R) =>
      match s_find (fst e) m with
      | Some x => let y := op x (snd e) in if isz y then s_erase (fst e) m else s_set (fst e) y m
      | None => s_set (fst e) (op r0 (snd e)) m
      end) b a.
  (** lines 485-498 *)
  Definition sv_eqb (a b : svec) : bool :=
    Nat.eqb (length a) (length b) &&
    forallb (fun e : Z * R => match s_find (fst e) a with Some x => req x (snd e) | None => false end) b.

  Definition sparse_ops : vops R svec :=
    mkVO R svec [] sv_single sv_empty (fun _ => []) sv_degree (fun _ v => v) sv_upd sv_get (fun v => Ok v)
         sv_unary sv_ibinary sv_ibinary sv_eqb.

  (** ** algebra.h *)
  (** [scalar_type(n)] for an [int] n *)
  Definition rz (n : Z) : R :=
    match n with Z0 => r0 | Zpos p => @rnat R (Pos.to_nat p) | Zneg p => ropp (@rnat R (Pos.to_nat p)) end.

  (** std::sort by key (keys are distinct) *)
  Fixpoint kv_insert (e : Z * R) (l : list (Z * R)) : list (Z * R) :=
    match l with [] => [e] | q :: l' => if fst q <? fst e then q :: kv_insert e l' else e :: l end.
  Definition kv_sort (l : list (Z * R)) : list (Z * R) := fold_right kv_insert [] l.

  (** lines 289-308: positions in the sorted buffer at which each degree starts *)
  Fixpoint ranges_loop (rest : list (Z * R)) (at_pos degree : Z) (ranges : list Z) : list Z * Z :=
    match rest with
    | [] => (ranges, degree)
    | e :: rest =>
        let current := k_degree (fst e) in
        ranges_loop rest (at_pos + 1) (Z.max degree current)
                    (ranges ++ repeat at_pos (Z.to_nat (current - degree)))
    end.
  Definition degree_ranges (max_degree : Z) (buffer : list (Z * R)) : list Z :=
    let '(ranges, degree) := ranges_loop buffer 0 0 [0] in
    ranges ++ repeat (Z.of_nat (length buffer)) (Z.to_nat (max_degree + 1 - degree)).
  (** lines 310-319 *)
  Definition degree_range (max_degree : Z) (buffer : list (Z * R)) (degree : Z) : outcome (list (Z * R)) :=
    if degree <? 0 then Ok [] else
    if degree >? max_degree then Ok [] else
    let ranges := degree_ranges max_degree buffer in
    if degree + 1 <? Z.of_nat (length ranges) then Ok (firstn (Z.to_nat (nth (Z.to_nat (degree + 1)) ranges 0)) buffer) else UB.

  Section Algebra.
    Variable X : Type.
    Variable O : vops R X.
    Variable depth : Z.
    (** A multiplier computes the product of two keys as a list of keys with [int] coefficients;
        it may carry a cache. *)
    Variable C : Type.
    Variable mult : Z -> Z -> C -> outcome (list (Z * Z) * C).

    (** lines 476-485 *)
    Definition asp_helper (out : X) (key_prod : list (Z * Z)) (s : R) : outcome X :=
      for_ key_prod out (fun e out => vo_upd O out (fst e) (fun x => radd x (rmul (rz (snd e)) s))).
    (** lines 540-575: the degree bound given by the caller is not used *)
    Definition base_fma (out lhs rhs : X) (fn : R -> R) (max_deg : Z) (c : C) : outcome (X * C) :=
      let! right_buffer := vo_items O rhs in
      let right_buffer := kv_sort right_buffer in
      let out_deg := Z.min depth (vo_degree O lhs + vo_degree O rhs) in
      let out := vo_update_degree O out_deg out in
      let! litems := vo_items O lhs in
      for_ litems (out, c) (fun litem s =>
        let rhs_degree := out_deg - k_degree (fst litem) in
        let! range := degree_range depth right_buffer rhs_degree in
        for_ range s (fun ritem s =>
          let '(out, c) := s in
          let! (p, c) := mult (fst litem) (fst ritem) c in
          let! out := asp_helper out p (fn (rmul (snd litem) (snd ritem))) in
          Ok (out, c))).

    (** The multiplication object: its [fma] with a degree bound. *)
    Variable fma : X -> X -> X -> (R -> R) -> Z -> C -> outcome (X * C).
    (** lines 588-603 *)
    Definition multiply_inplace (left_ right_ : X) (fn : R -> R) (max_deg : Z) (c : C) : outcome (X * C) :=
      if negb (vo_empty O left_) && negb (vo_empty O right_) then
        let tmp := vo_update_degree O (Z.min (vo_degree O left_ + vo_degree O right_) max_deg) (vo_new O) in
        fma tmp left_ right_ fn max_deg c
      else Ok (vo_clear O left_, c).
    (** lines 894-911 with 116-128 *)
    Definition op_mul (lhs rhs : X) (c : C) : outcome (X * C) :=
      if negb (vo_empty O lhs) && negb (vo_empty O rhs) then fma (vo_new O) lhs rhs (fun x => x) depth c
      else Ok (vo_new O, c).
    (** lines 913-932 with 211-220 *)
    Definition op_imul (lhs rhs : X) (c : C) : outcome (X * C) :=
      if vo_empty O rhs then Ok (vo_clear O lhs, c) else
      if vo_empty O lhs then Ok (lhs, c) else multiply_inplace lhs rhs (fun x => x) depth c.
    (** lines 934-954 *)
    Definition commutator (lhs rhs : X) (c : C) : outcome (X * C) :=
      if negb (vo_empty O lhs) && negb (vo_empty O rhs) then
        let! (r, c) := fma (vo_new O) lhs rhs (fun x => x) depth c in
        fma r rhs lhs (fun x => ropp x) depth c
      else Ok (vo_new O, c).
    (** lines 958-966: the free function, without a test for empty operands *)
    Definition multiply (lhs rhs : X) (c : C) : outcome (X * C) := fma (vo_new O) lhs rhs (fun x => x) depth c.
    (** lines 746-764: [add_mul] and [sub_mul] multiply into a vector that already has terms *)
    Definition add_mul (self lhs rhs : X) (c : C) : outcome (X * C) := fma self lhs rhs (fun x => x) depth c.
    Definition sub_mul (self lhs rhs : X) (c : C) : outcome (X * C) := fma self lhs rhs (fun x => ropp x) depth c.
    (** lines 766-777 *)
    Definition mul_scal_prod (self rhs : X) (s : R) (max_deg : Z) (c : C) : outcome (X * C) :=
      multiply_inplace self rhs (fun x => rmul x s) max_deg c.
  End Algebra.

  (** vector.h:502-610 *)
  Definition v_neg {X} (O : vops R X) (v : X) : X := vo_unary O (fun x => ropp x) v.
  Definition v_smul {X} (O : vops R X) (v : X) (s : R) : X := vo_unary O (fun x => rmul x s) v.
  Definition v_add {X} (O : vops R X) (a b : X) : X := vo_binary O (fun x y => radd x y) a b.
  Definition v_sub {X} (O : vops R X) (a b : X) : X := vo_binary O (fun x y => rsub x y) a b.
  Definition v_iadd {X} (O : vops R X) (a b : X) : X := vo_ibinary O (fun x y => radd x y) a b.
  Definition v_isub {X} (O : vops R X) (a b : X) : X := vo_ibinary O (fun x y => rsub x y) a b.
  (** vector.h:354-383 *)
  Definition v_add_scal_prod {X} (O : vops R X) (a b : X) (s : R) : X := vo_ibinary O (fun x y => radd x (rmul y s)) a b.
  Definition v_sub_scal_prod {X} (O : vops R X) (a b : X) (s : R) : X := vo_ibinary O (fun x y => rsub x (rmul y s)) a b.
  (** [a -= a] on a sparse vector (lines 456-483 with [rhs] the vector itself): the first entry that
      cancels is erased while the loop still iterates from it. *)
  Definition sv_isub_self (v : svec) : outcome svec := match v with [] => Ok [] | _ :: _ => UB end.

  (** ** free_tensor.h: the product *)
  Section FreeTensor.
    Variable B : tbasis.
    Notation V := (tensor_vb B).
    (** lines 278-287 *)
    Definition concat_product (lhs rhs : Z) : outcome Z :=
      let! shift := bget (tb_powers B) (k_degree rhs) in
      Ok (mk_key (k_degree lhs + k_degree rhs) (u64 (u64 (k_index lhs * shift) + k_index rhs))).
    (** algebra/free_tensor_multiplier.cpp:14-25 *)
    Definition ft_mult (lhs rhs : Z) (c : unit) : outcome (list (Z * Z) * unit) :=
      if k_degree lhs + k_degree rhs <=? tb_depth B then let! k := concat_product lhs rhs in Ok ([(k, 1)], c) else Ok ([], c).

    (** lines 146-160: [k.index() * tile_width + offset] with [tile_width = powers[1]] *)
    Definition fwd_offset (tile_width k : Z) : outcome Z :=
      let! offset := start_of_degree B (k_degree k) in Ok (k_index k * tile_width + offset).
    (** lines 320-351; the running pointer [p] of the inner loops is [i * size_b + j] past the start *)
    Definition fma_dense_traditional (tile_width : Z) (out lhs rhs : buf R) (lhs_deg rhs_deg : Z) (fn : R -> R) (out_degree : Z) : outcome (buf R) :=
      for_ (zdown out_degree 0) out (fun out_deg t =>
        let lhs_deg_min := Z.max 0 (out_deg - rhs_deg) in
        let lhs_deg_max := Z.min out_deg lhs_deg in
        let! op := fwd_offset tile_width (mk_key out_deg 0) in
        for_ (zdown lhs_deg_max lhs_deg_min) t (fun lh_deg t =>
          let rh_deg := out_deg - lh_deg in
          let! lp := fwd_offset tile_width (mk_key lh_deg 0) in
          let! rp := fwd_offset tile_width (mk_key rh_deg 0) in
          let! s1 := bget (tb_powers B) lh_deg in
          let! s2 := bget (tb_powers B) rh_deg in
          for_ (zrange s1) t (fun i t => for_ (zrange s2) t (fun j t =>
            let! x := bget lhs (lp + i) in
            let! y := bget rhs (rp + j) in
            badd t (op + (i * s2 + j)) (fn (rmul x y)))))).
    (** lines 510-537 with the helper's constructor, lines 104-128 *)
    Definition ft_fma_dense (out lhs rhs : dvec) (fn : R -> R) (max_degree : Z) (c : unit) : outcome (dvec * unit) :=
      let max_degree := if max_degree >=? tb_depth B then tb_depth B else max_degree in
      let out_degree := Z.min max_degree (dv_deg lhs + dv_deg rhs) in
      let! out_size := tb_size B out_degree in
      let! out := if dv_size out <? out_size then dv_resize V out (u64 (out_size - 1)) else Ok out in
      let! tile_width := bget (tb_powers B) 1 in
      let! _ := if dv_deg lhs >? 1 then tb_size B (dv_deg lhs - 1) else Ok 0 in
      let! d := fma_dense_traditional tile_width (dv_data out) (dv_data lhs) (dv_data rhs) (dv_deg lhs) (dv_deg rhs) fn out_degree in
      Ok (mkDV d (dv_deg out), c).
    Definition ft_fma_sparse : svec -> svec -> svec -> (R -> R) -> Z -> unit -> outcome (svec * unit) :=
      base_fma svec sparse_ops (tb_depth B) unit ft_mult.

    (** lines 771-794 *)
    Definition dv_resize_to_degree (v : dvec) (degree : Z) : outcome dvec :=
      let! size := tb_size B degree in
      let! v := dv_resize V v (u64 (size - 1)) in Ok (dv_update_degree degree v).
    Definition sv_resize_to_degree (v : svec) (degree : Z) : outcome svec := Ok v.
  End FreeTensor.
End Vectors.
Arguments dv_data {R}. Arguments dv_deg {R}. Arguments mkDV {R}.

(** ** free_tensor.h: exp, log, fused multiply-exponentiate and inverse, for either storage *)
Section Functions.
  Variable R : qalg.
  Variable X : Type.
  Variable O : vops R X.
  Variable depth : Z.
  Variable fma : X -> X -> X -> (R -> R) -> Z -> unit -> outcome (X * unit).
  Variable resize_to_degree : X -> Z -> outcome X.
  Notation unit_key := (mk_key 0 0).
  (** algebra.h:779-793 *)
  Definition mul_scal_div (self rhs : X) (n : Z) (max_deg : Z) : outcome X :=
    let! (r, _) := multiply_inplace R X O unit fma self rhs (fun x => rmul x (qinv (Z.to_nat n))) max_deg tt in Ok r.
  Definition v_add_scal_div (a b : X) (n : Z) : X := vo_ibinary O (fun x y => radd x (rmul y (qinv (Z.to_nat n)))) a b.
  Definition v_sub_scal_div (a b : X) (n : Z) : X := vo_ibinary O (fun x y => rsub x (rmul y (qinv (Z.to_nat n)))) a b.
  (** lines 839-854 (823-837 is the same loop, in place) *)
  Definition lal_fmexp (self exp_arg : X) : outcome X :=
    let! x := vo_upd O exp_arg unit_key (fun _ => r0) in
    let! result := resize_to_degree self depth in
    for_ (zdown depth 1) result (fun i result =>
      let! result := mul_scal_div result x i (depth - i + 1) in
      Ok (v_iadd R O result self)).
  (** lines 856-871 *)
  Definition lal_exp (arg : X) : outcome X :=
    let! result := vo_single O unit_key r1 in
    let! one := vo_single O unit_key r1 in
    let! result := resize_to_degree result depth in
    for_ (zdown depth 1) result (fun i result =>
      let! result := mul_scal_div result arg i depth in
      Ok (v_iadd R O result one)).
  (** lines 873-894 *)
  Definition lal_log (arg : X) : outcome X :=
    let! x := vo_upd O arg unit_key (fun _ => r0) in
    let! result := resize_to_degree (vo_new O) depth in
    let! one := vo_single O unit_key r1 in
    for_ (zdown depth 1) result (fun i result =>
      let result := if Z.even i then v_sub_scal_div result one i else v_add_scal_div result one i in
      let! (r, _) := op_imul R X O depth unit fma result x tt in Ok r).
End Functions.
