(** The free tensor objects of the public API (algebra/include/roughpy/algebra/algebra_base.h,
    algebra_base_impl.h, implementors/algebra_impl.h, implementors/free_tensor_impl.h,
    algebra/src/free_tensor.cpp) over the vendored dense and sparse tensors, as LiteContext
    (algebra/src/lite_context.h) sets them up.

    An object is a pointer to an implementation or null; an implementation is a context and a dense
    or sparse vector it owns.  Borrowed storage is not modelled.  Scalars of every object come from
    one type, the division by a scalar is multiplication by the inverse that the caller supplies. *)
From Verif Require Export LalModel AntiModel.
Open Scope Z_scope.

(** mapM over a list *)
Fixpoint omap {A C} (f : A -> outcome C) (l : list A) : outcome (list C) :=
  match l with [] => Ok [] | a :: l => let! c := f a in let! r := omap f l in Ok (c :: r) end.

Section Handles.
  Variable R : qalg.
  Variable req : R -> R -> bool.
  Notation isz x := (req x (@r0 R)).
  (** The contexts of the process, by address. *)
  Variable ctxs : Z -> tbasis.

  Inductive tdata := Dn (v : dvec R) | Sp (v : svec R).
  Record timpl := mkImpl { im_ctx : Z; im_data : tdata }.
  Definition handle := option timpl.

  Section Data.
    Variable B : tbasis.
    Notation V := (tensor_vb B).
    Notation dops := (dense_ops R req V).
    Notation sops := (sparse_ops R req).
    Notation depth := (tb_depth B).

    (** lite_context.h:441-486, for one kind of vector *)
    Definition construct_impl {X} (O : vops R X) (keys : option (list Z)) (data : list R) : outcome X :=
      let! total := tb_size B (-1) in
      let size := Z.min (Z.of_nat (length data)) total in
      for_ (zrange size) (vo_new O) (fun i r =>
        let! k := match keys with
                  | Some ks => index_to_key B (nth (Z.to_nat i) ks 0)
                  | None => index_to_key B i
                  end in
        vo_upd O r k (fun _ => nth (Z.to_nat i) data r0)).
    (** lite_context.h:366-386: what is handed to [construct_impl] *)
    Definition populate (d : tdata) : outcome (option (list Z) * list R) :=
      match d with
      | Dn v => Ok (None, map (bat (dv_data v)) (zrange (blen (dv_data v))))
      | Sp v =>
          let! keys := omap (fun e : Z * R => key_to_index B (fst e)) v in
          Ok (if sv_empty R v then None else Some keys, map snd v)
      end.
    (** algebra_impl.h:634-652 with lite_context.h:391-407: the argument as the storage of the object *)
    Definition to_dense (d : tdata) : outcome (dvec R) :=
      match d with Dn v => Ok v | Sp _ => let! (k, x) := populate d in construct_impl dops k x end.
    Definition to_sparse (d : tdata) : outcome (svec R) :=
      match d with Sp v => Ok v | Dn _ => let! (k, x) := populate d in construct_impl sops k x end.

    (** A function of one or two vectors of the same kind, applied to the stored data *)
    Definition un (fd : dvec R -> outcome (dvec R)) (fs : svec R -> outcome (svec R)) (a : tdata) : outcome tdata :=
      match a with Dn x => let! z := fd x in Ok (Dn z) | Sp x => let! z := fs x in Ok (Sp z) end.
    Definition bin (fd : dvec R -> dvec R -> outcome (dvec R)) (fs : svec R -> svec R -> outcome (svec R)) (a b : tdata) : outcome tdata :=
      match a with
      | Dn x => let! y := to_dense b in let! z := fd x y in Ok (Dn z)
      | Sp x => let! y := to_sparse b in let! z := fs x y in Ok (Sp z)
      end.

    (** algebra_impl.h:905-990 *)
    Definition td_neg : tdata -> outcome tdata := un (fun x => Ok (v_neg R dops x)) (fun x => Ok (v_neg R sops x)).
    Definition td_smul (s : R) : tdata -> outcome tdata := un (fun x => Ok (v_smul R dops x s)) (fun x => Ok (v_smul R sops x s)).
    Definition td_add : tdata -> tdata -> outcome tdata := bin (fun x y => Ok (v_add R dops x y)) (fun x y => Ok (v_add R sops x y)).
    Definition td_sub : tdata -> tdata -> outcome tdata := bin (fun x y => Ok (v_sub R dops x y)) (fun x y => Ok (v_sub R sops x y)).
    Definition drop {X} (m : outcome (X * unit)) : outcome X := let! (x, _) := m in Ok x.
    Definition td_mul : tdata -> tdata -> outcome tdata :=
      bin (fun x y => drop (op_mul R _ dops depth unit (ft_fma_dense R req B) x y tt))
          (fun x y => drop (op_mul R _ sops depth unit (ft_fma_sparse R req B) x y tt)).
    (** algebra_impl.h:1005-1060; [self] says that the argument is the object itself *)
    Definition sv_iself (op : R -> R -> R) (v : svec R) : outcome (svec R) :=
      if existsb (fun e : Z * R => isz (op (snd e) (snd e))) v then UB else Ok (sv_ibinary R req op v v).
    Definition td_ibin (op : R -> R -> R) (self : bool) : tdata -> tdata -> outcome tdata :=
      bin (fun x y => Ok (vo_ibinary dops op x y)) (fun x y => if self then sv_iself op x else Ok (vo_ibinary sops op x y)).
    Definition td_imul : tdata -> tdata -> outcome tdata :=
      bin (fun x y => drop (op_imul R _ dops depth unit (ft_fma_dense R req B) x y tt))
          (fun x y => drop (op_imul R _ sops depth unit (ft_fma_sparse R req B) x y tt)).
    Definition td_clear : tdata -> tdata := fun a =>
      match a with Dn x => Dn (vo_clear dops x) | Sp x => Sp (vo_clear sops x) end.
    (** [zero_like], algebra_impl.h:490-500 *)
    Definition td_zero_like (a : tdata) : tdata := match a with Dn _ => Dn (vo_new dops) | Sp _ => Sp (vo_new sops) end.
    (** free_tensor_impl.h *)
    Definition td_exp : tdata -> outcome tdata :=
      un (lal_exp R _ dops depth (ft_fma_dense R req B) (dv_resize_to_degree R B)) (lal_exp R _ sops depth (ft_fma_sparse R req B) (sv_resize_to_degree R)).
    Definition td_log : tdata -> outcome tdata :=
      un (lal_log R _ dops depth (ft_fma_dense R req B) (dv_resize_to_degree R B)) (lal_log R _ sops depth (ft_fma_sparse R req B) (sv_resize_to_degree R)).
    Definition td_fmexp : tdata -> tdata -> outcome tdata :=
      bin (lal_fmexp R _ dops depth (ft_fma_dense R req B) (dv_resize_to_degree R B)) (lal_fmexp R _ sops depth (ft_fma_sparse R req B) (sv_resize_to_degree R)).
    Definition td_antipode : tdata -> outcome tdata := un (dv_antipode R B) (sv_antipode R req B).
    (** algebra_impl.h:1200-1212, 446-450, 528-536, 560-590 *)
    Definition td_eqb (a b : tdata) : outcome bool :=
      match a with
      | Dn x => let! y := to_dense b in Ok (vo_eqb dops x y)
      | Sp x => let! y := to_sparse b in Ok (vo_eqb sops x y)
      end.
    Definition td_is_zero (a : tdata) : bool :=
      match a with Dn x => dv_size R req x =? 0 | Sp x => Z.of_nat (length x) =? 0 end.
    Definition td_dimension (a : tdata) : Z := match a with Dn x => blen (dv_data x) | Sp x => Z.of_nat (length x) end.
    Definition td_get (a : tdata) (i : Z) : outcome R :=
      let! k := index_to_key B i in
      match a with Dn x => vo_get dops x k | Sp x => vo_get sops x k end.
    Definition td_items (a : tdata) : outcome (list (Z * R)) :=
      let! l := match a with Dn x => vo_items dops x | Sp x => vo_items sops x end in
      omap (fun e : Z * R => let! i := key_to_index B (fst e) in Ok (i, snd e)) l.
  End Data.

  Notation bof x := (ctxs (im_ctx x)).
  (** algebra_base.cpp:87-94, context.cpp:140-143: a null context is dereferenced *)
  Definition check_contexts (ref other : handle) : outcome unit :=
    match ref, other with
    | None, None => Ok tt
    | Some a, Some b => if im_ctx a =? im_ctx b then Ok tt else if tb_width (bof a) =? tb_width (bof b) then Ok tt else Throw
    | _, _ => UB
    end.
  (** algebra_impl.h:634-652: only arguments of the very same context are converted *)
  Definition impl2 (f : tbasis -> tdata -> tdata -> outcome tdata) (a b : timpl) : outcome handle :=
    if im_ctx a =? im_ctx b then let! d := f (bof a) (im_data a) (im_data b) in Ok (Some (mkImpl (im_ctx a) d)) else Throw.
  Definition impl1 (f : tbasis -> tdata -> outcome tdata) (a : timpl) : outcome handle :=
    let! d := f (bof a) (im_data a) in Ok (Some (mkImpl (im_ctx a) d)).

  (** ** AlgebraBase *)
  (** algebra_base_impl.h:262-318 *)
  Definition h_add (a b : handle) : outcome handle :=
    match b with
    | None => Ok a
    | Some y => let! _ := check_contexts a b in match a with None => Ok b | Some x => impl2 td_add x y end
    end.
  Definition h_neg (a : handle) : outcome handle := match a with None => Ok None | Some x => impl1 td_neg x end.
  Definition h_sub (a b : handle) : outcome handle :=
    match b with
    | None => Ok a
    | Some y => let! _ := check_contexts a b in match a with None => h_neg b | Some x => impl2 td_sub x y end
    end.
  Definition h_mul (a b : handle) : outcome handle :=
    match b with
    | None => Ok a
    | Some y => let! _ := check_contexts a b in match a with None => Ok b | Some x => impl2 td_mul x y end
    end.
  (** lines 445-466 *)
  Definition h_smul (a : handle) (s : R) : outcome handle :=
    match a with
    | None => Ok None
    | Some x => if isz s then Ok (Some (mkImpl (im_ctx x) (td_zero_like (bof x) (im_data x)))) else impl1 (fun B => td_smul B s) x
    end.
  Definition h_sdiv (a : handle) (s inv : R) : outcome handle :=
    match a with None => Ok None | Some x => if isz s then Throw else impl1 (fun B => td_smul B inv) x end.
  (** lines 468-510 *)
  Definition h_ibin (op : R -> R -> R) (self : bool) (a b : handle) : outcome handle :=
    match b with
    | None => Ok a
    | Some y => let! _ := check_contexts a b in match a with None => UB | Some x => impl2 (fun B => td_ibin B op self) x y end
    end.
  Definition h_imul (a b : handle) : outcome handle :=
    match b with
    | None => Ok a
    | Some y => let! _ := check_contexts a b in match a with None => UB | Some x => impl2 td_imul x y end
    end.
  (** lines 511-533 *)
  Definition h_ismul (a : handle) (s : R) : outcome handle :=
    match a with None => Ok None | Some x => impl1 (fun B => td_smul B s) x end.
  Definition h_isdiv (a : handle) (s inv : R) : outcome handle := h_sdiv a s inv.
  (** lines 535-609 with 119-150: the temporary, then the in-place operation of the implementation *)
  Definition radd' (x y : R) := radd x y.
  Definition rsub' (x y : R) := rsub x y.
  Definition fused (op : R -> R -> R) (tmp : outcome handle) (a : timpl) : outcome handle :=
    let! t := tmp in
    match t with None => UB | Some y => impl2 (fun B => td_ibin B op false) a y end.
  Definition h_add_scal_mul (a b : handle) (s : R) : outcome handle :=
    match b with
    | None => Ok a
    | Some _ => if isz s then Ok a else
        let! _ := check_contexts a b in match a with None => h_smul b s | Some x => fused radd' (h_smul b s) x end
    end.
  Definition h_sub_scal_mul (a b : handle) (s : R) : outcome handle :=
    match b with
    | None => Ok a
    | Some _ => if isz s then Ok a else
        let! _ := check_contexts a b in match a with None => let! t := h_smul b s in h_neg t | Some x => fused rsub' (h_smul b s) x end
    end.
  Definition h_add_scal_div (a b : handle) (s inv : R) : outcome handle :=
    match b with
    | None => Ok a
    | Some _ => let! _ := check_contexts a b in
        if isz s then Throw else match a with None => h_sdiv b s inv | Some x => fused radd' (h_sdiv b s inv) x end
    end.
  Definition h_sub_scal_div (a b : handle) (s inv : R) : outcome handle :=
    match b with
    | None => Ok a
    | Some _ => let! _ := check_contexts a b in
        if isz s then Throw else match a with None => let! t := h_sdiv b s inv in h_neg t | Some x => fused rsub' (h_sdiv b s inv) x end
    end.
  (** lines 611-650 with 151-166 *)
  Definition h_add_mul (a b c : handle) : outcome handle :=
    match b, c with
    | Some _, Some _ =>
        let! _ := check_contexts a b in let! _ := check_contexts a c in
        match a with None => h_mul b c | Some x => fused radd' (h_mul b c) x end
    | _, _ => Ok a
    end.
  Definition h_sub_mul (a b c : handle) : outcome handle :=
    match b, c with
    | Some _, Some _ =>
        let! _ := check_contexts a b in let! _ := check_contexts a c in
        match a with None => let! t := h_mul b c in h_neg t | Some x => fused rsub' (h_mul b c) x end
    | _, _ => Ok a
    end.
  (** lines 651-689 with 167-183 *)
  Definition h_clear (a : handle) : handle :=
    match a with None => None | Some x => Some (mkImpl (im_ctx x) (td_clear (bof x) (im_data x))) end.
  Definition imul_tmp (tmp : outcome handle) (x : timpl) : outcome handle :=
    let! t := tmp in match t with None => UB | Some y => impl2 td_imul x y end.
  Definition h_mul_smul (a b : handle) (s : R) : outcome handle :=
    match b with
    | None => Ok (h_clear a)
    | Some _ => if isz s then Ok (h_clear a) else
        let! _ := check_contexts a b in match a with None => Ok None | Some x => imul_tmp (h_smul b s) x end
    end.
  Definition h_mul_sdiv (a b : handle) (s inv : R) : outcome handle :=
    match b with
    | None => Ok (h_clear a)
    | Some _ => let! _ := check_contexts a b in
        if isz s then Throw else match a with None => Ok None | Some x => imul_tmp (h_sdiv b s inv) x end
    end.
  (** algebra/src/free_tensor.cpp *)
  Definition h_exp (a : handle) : outcome handle := match a with None => Ok None | Some x => impl1 td_exp x end.
  Definition h_log (a : handle) : outcome handle := match a with None => Ok None | Some x => impl1 td_log x end.
  Definition h_antipode (a : handle) : outcome handle := match a with None => Ok None | Some x => impl1 td_antipode x end.
  Definition h_fmexp (a b : handle) : outcome handle :=
    match a, b with Some x, Some y => impl2 td_fmexp x y | _, _ => Ok a end.
  (** algebra_base_impl.h:690-702, 350-420 *)
  Definition h_is_zero (a : handle) : bool := match a with None => true | Some x => td_is_zero (im_data x) end.
  Definition h_eqb (a b : handle) : outcome bool :=
    match a, b with
    | None, _ => Ok (h_is_zero b)
    | Some _, None => Ok (h_is_zero a)
    | Some x, Some y =>
        if negb (tb_width (bof x) =? tb_width (bof y)) then Ok false
        else if im_ctx x =? im_ctx y then td_eqb (bof x) (im_data x) (im_data y) else Throw
    end.
  Definition h_get (a : handle) (i : Z) : outcome R := match a with None => Ok r0 | Some x => td_get (bof x) (im_data x) i end.
  Definition h_items (a : handle) : outcome (list (Z * R)) := match a with None => Ok [] | Some x => td_items (bof x) (im_data x) end.
  Definition h_dimension (a : handle) : Z := match a with None => 0 | Some x => td_dimension (im_data x) end.
  Definition h_dense (a : handle) : bool := match a with Some (mkImpl _ (Dn _)) => true | _ => false end.

  (** roughpy/src/algebra/setup_algebra_type.h:113-186: the overloads of [/] and [/=] that Python
      reaches with a Scalar object, a float or an int; [inv] is the inverse of the operand. *)
  Inductive pynum := PyScalar | PyFloat | PyInt.
  Definition py_truediv (a : handle) (t : pynum) (s inv : R) : outcome handle :=
    match t with PyScalar => h_smul a s | PyFloat | PyInt => h_sdiv a s inv end.
  Definition py_itruediv (a : handle) (t : pynum) (s inv : R) : outcome handle := h_isdiv a s inv.

  (** ** Programs over objects
      A program is a sequence of calls on numbered objects, all null at first.  The number of the
      object is its identity: [x -= x] is the call with both operands the same object. *)
  Inductive op1 := Copy | Neg | Smul (s : R) | Sdiv (s inv : R) | Exp | Log | Antipode.
  Inductive op2 := Plus | Minus | Times.
  Inductive iop1 := ISmul (s : R) | ISdiv (s inv : R).
  Inductive iop2 := IAdd | ISub | IMul | AddSmul (s : R) | SubSmul (s : R) | AddSdiv (s inv : R) | SubSdiv (s inv : R)
                  | MulSmul (s : R) | MulSdiv (s inv : R) | Fmexp.
  Inductive cmd :=
  | New (x c : Z) (dense : bool) (keys : option (list Z)) (data : list R)
  | Op1 (x : Z) (o : op1) (y : Z)
  | Op2 (x : Z) (o : op2) (y z : Z)
  | Iop1 (x : Z) (o : iop1)
  | Iop2 (x : Z) (o : iop2) (y : Z)
  | AddMul (x y z : Z) | SubMul (x y z : Z).

  Definition env := Z -> handle.
  Definition set_ (e : env) (x : Z) (h : handle) : env := fun y => if y =? x then h else e y.
  Definition do1 (o : op1) (a : handle) : outcome handle :=
    match o with Copy => Ok a | Neg => h_neg a | Smul s => h_smul a s | Sdiv s i => h_sdiv a s i | Exp => h_exp a | Log => h_log a | Antipode => h_antipode a end.
  Definition do2 (o : op2) (a b : handle) : outcome handle := match o with Plus => h_add a b | Minus => h_sub a b | Times => h_mul a b end.
  Definition ido1 (o : iop1) (a : handle) : outcome handle := match o with ISmul s => h_ismul a s | ISdiv s i => h_isdiv a s i end.
  Definition ido2 (o : iop2) (self : bool) (a b : handle) : outcome handle :=
    match o with
    | IAdd => h_ibin radd' self a b | ISub => h_ibin rsub' self a b | IMul => h_imul a b
    | AddSmul s => h_add_scal_mul a b s | SubSmul s => h_sub_scal_mul a b s
    | AddSdiv s i => h_add_scal_div a b s i | SubSdiv s i => h_sub_scal_div a b s i
    | MulSmul s => h_mul_smul a b s | MulSdiv s i => h_mul_sdiv a b s i | Fmexp => h_fmexp a b
    end.
  Definition step (k : cmd) (e : env) : outcome env :=
    match k with
    | New x c dense keys data =>
        let B := ctxs c in
        if dense then let! v := construct_impl B (dense_ops R req (tensor_vb B)) keys data in Ok (set_ e x (Some (mkImpl c (Dn v))))
        else let! v := construct_impl B (sparse_ops R req) keys data in Ok (set_ e x (Some (mkImpl c (Sp v))))
    | Op1 x o y => let! h := do1 o (e y) in Ok (set_ e x h)
    | Op2 x o y z => let! h := do2 o (e y) (e z) in Ok (set_ e x h)
    | Iop1 x o => let! h := ido1 o (e x) in Ok (set_ e x h)
    | Iop2 x o y => let! h := ido2 o (x =? y) (e x) (e y) in Ok (set_ e x h)
    | AddMul x y z => let! h := h_add_mul (e x) (e y) (e z) in Ok (set_ e x h)
    | SubMul x y z => let! h := h_sub_mul (e x) (e y) (e z) in Ok (set_ e x h)
    end.
  Definition run (p : list cmd) (e : env) : outcome env := for_ p e step.
  Definition start : env := fun _ => None.
End Handles.
Arguments Dn {R}. Arguments Sp {R}. Arguments mkImpl {R}.
