(** Lie elements of the vendored library and the context functions over them: the bracket of two Lie
    objects, the conversions between Lie elements and tensors, signatures, log signatures, the
    Campbell-Baker-Hausdorff product and derivatives of signatures
    (vendored/libalgebra_lite/lie.h, algebra/lie_multiplier.cpp, algebra.h, maps.h, maps.cpp, hall_set.h;
    algebra/src/lite_context.h, algebra/src/context.cpp, algebra/include/roughpy/algebra/implementors).

    Simplifications.  As in LalModel.v and LhModel.v.  The process has one thread.  Operands of a call
    that C++ leaves unordered are computed left first.  Null objects are not modelled here.  Entries of
    the node-based caches are lists, later entries shadow earlier ones. *)
From Verif Require Export ShufModel.
Open Scope Z_scope.

(** ** hall_set.h:138-209: [hall_basis] as the vector templates see it *)
Record lctx := mkLC { lc_t : tbasis; lc_h : hall_set }.
Definition lc_width (L : lctx) : Z := tb_width (lc_t L).
Definition lc_depth (L : lctx) : Z := tb_depth (lc_t L).
Definition hall_vb (L : lctx) : vbasis :=
  mkVB (lc_depth L) (mkbuf (vlen (hs_sizes (lc_h L))) (fun i => nth (Z.to_nat i) (hs_sizes (lc_h L)) 0))
       (fun d => hs_size (lc_h L) (if d <? 0 then lc_depth L else d))
       (index_of_key (lc_h L)) (key_of_index (lc_h L)) (hs_advance (lc_h L)).

(** ** Products of keys, with [int] coefficients: [ck] is what arithmetic does with its exact result *)
Definition i32 (z : Z) : outcome Z := if (- 2 ^ 31 <=? z) && (z <? 2 ^ 31) then Ok z else UB.
Section Ints.
  Variable ck : Z -> outcome Z.
  (** [f(tmp[k])] on a [std::map], as the list of its entries in key order *)
  Fixpoint m_upd (k : Z) (f : Z -> Z) (m : kprod) : outcome kprod :=
    match m with
    | [] => let! s := ck (f 0) in Ok [(k, s)]
    | (q, y) :: m' =>
        if k <? q then let! s := ck (f 0) in Ok ((k, s) :: m)
        else if q =? k then let! s := ck (f y) in Ok ((q, s) :: m')
        else let! r := m_upd k f m' in Ok ((q, y) :: r)
    end.
  (** algebra.h:339-347 *)
  Definition p_uminus (p : kprod) : outcome kprod := omap (fun e : Z * Z => let! v := ck (- snd e) in Ok (fst e, v)) p.
  (** algebra.h:359-367 *)
  Definition p_sub (lhs rhs : kprod) : outcome kprod :=
    for_ rhs (fold_left (fun m e => m_insert (fst e) (snd e) m) lhs []) (fun e m => m_upd (fst e) (fun y => y - snd e) m).
  Section Mul.
    Variable op : Z -> Z -> hcache -> outcome (kprod * hcache).
    (** algebra.h:369-381 *)
    Definition p_mul_key (lhs : kprod) (rhs : Z) (c : hcache) : outcome (kprod * hcache) :=
      for_ lhs ([], c) (fun outer s =>
        let '(m, c) := s in
        let! (p, c) := op (fst outer) rhs c in
        let! m := for_ p m (fun inner m => let! v := ck (snd outer * snd inner) in m_upd (fst inner) (fun y => y + v) m) in
        Ok (m, c)).
    (** algebra.h:397-413 *)
    Definition p_mul (lhs rhs : kprod) (c : hcache) : outcome (kprod * hcache) :=
      for_ lhs ([], c) (fun litem s => for_ rhs s (fun ritem s =>
        let '(m, c) := s in
        let! (p, c) := op (fst litem) (fst ritem) c in
        let! m := for_ p m (fun inner m =>
          let! v := ck (snd inner * snd litem) in
          let! v := ck (v * snd ritem) in
          m_upd (fst inner) (fun y => y + v) m) in
        Ok (m, c))).
  End Mul.

  Section Context.
    Variable L : lctx.
    Notation H := (lc_h L).
    Notation B := (lc_t L).
    (** lie_multiplier.cpp:17-45 *)
    Definition lie_key_prod (op : Z -> Z -> hcache -> outcome (kprod * hcache)) (lhs rhs : Z) (c : hcache) : outcome (kprod * hcache) :=
      if k_ltb rhs lhs then let! (p, c) := op rhs lhs c in let! p := p_uminus p in Ok (p, c) else
      if k_degree lhs + k_degree rhs >? lc_depth L then Ok ([], c) else
      match hs_find H (lhs, rhs) with
      | Some k => Ok ([(k, 1)], c)
      | None =>
          let! ps := hs_parents H rhs in
          let! (a, c) := op lhs (fst ps) c in
          let! (result_left, c) := p_mul_key op a (snd ps) c in
          let! (b, c) := op lhs (snd ps) c in
          let! (result_right, c) := p_mul_key op b (fst ps) c in
          let! r := p_sub result_left result_right in Ok (r, c)
      end.
    (** lie_multiplier.cpp:48-67: the entry is made, empty, before the product is computed; an empty
        entry counts as missing *)
    Fixpoint lie_op (fuel : nat) (lhs rhs : Z) (c : hcache) : outcome (kprod * hcache) :=
      match fuel with
      | O => NoFuel
      | S fuel =>
          if k_eqb lhs rhs then Ok ([], c) else
          match ShufModel.c_find lhs rhs c with
          | Some (e :: p) => Ok (e :: p, c)
          | _ =>
              let! (p, c) := lie_key_prod (lie_op fuel) lhs rhs (((lhs, rhs), []) :: c) in
              Ok (p, ((lhs, rhs), p) :: c)
          end
      end.
    (** No path of nested calls is longer than this: the total degree falls, or it stays and the smaller
        element grows, or the operands are exchanged. *)
    Definition lie_fuel : nat := Z.to_nat (2 * (lc_depth L + 1) * (vlen (hs_data H) + 2)).
    Definition lie_mult (lhs rhs : Z) (c : hcache) : outcome (kprod * hcache) := lie_op lie_fuel lhs rhs c.

    (** maps.cpp:26-43 *)
    Definition gen_commutator (lhs rhs : kprod) : outcome kprod :=
      for_ lhs [] (fun l tmp => for_ rhs tmp (fun r tmp =>
        let! (p, _) := ft_mult B (fst l) (fst r) tt in
        let! tmp := for_ p tmp (fun inner tmp =>
          let! v := ck (snd inner * snd l) in let! v := ck (v * snd r) in m_upd (fst inner) (fun y => y + v) tmp) in
        let! (p, _) := ft_mult B (fst r) (fst l) tt in
        for_ p tmp (fun inner tmp =>
          let! v := ck (snd inner * snd r) in let! v := ck (v * snd l) in m_upd (fst inner) (fun y => y - v) tmp))).
    (** maps.cpp:45-48 *)
    Definition expand_letter (letter : Z) : kprod := [(mk_key 1 (u64 (letter - 1)), 1)].
    Definition pcache := list (Z * kprod).
    (** hall_set.h:216-243 with maps.cpp:76-80 *)
    Fixpoint expand_op (fuel : nat) (key : Z) (c : pcache) : outcome (kprod * pcache) :=
      match fuel with
      | O => NoFuel
      | S fuel =>
          match HsModel.c_find c key with
          | Some v => Ok (v, c)
          | None =>
              if k_degree key =? 1 then let v := expand_letter (u64 (k_index key + 1)) in Ok (v, (key, v) :: c)
              else
                let! p := hs_parents H key in
                let! (a, c) := expand_op fuel (fst p) c in
                let! (b, c) := expand_op fuel (snd p) c in
                let! v := gen_commutator a b in Ok (v, (key, v) :: c)
          end
      end.
    Definition expand (key : Z) (c : pcache) : outcome (kprod * pcache) := expand_op (S (Z.to_nat (k_degree key))) key c.
    (** maps.cpp:49-75: the entry is marked as set before its value is computed *)
    Fixpoint rbr_op (fuel : nat) (tkey : Z) (s : hcache * pcache) : outcome (kprod * (hcache * pcache)) :=
      match fuel with
      | O => NoFuel
      | S fuel =>
          if k_degree tkey =? 0 then Ok ([], s) else
          match HsModel.c_find (snd s) tkey with
          | Some v => Ok (v, s)
          | None =>
              let s := (fst s, (tkey, []) :: snd s) in
              if is_letter tkey then let v := [(mk_key 1 (k_index tkey), 1)] in Ok (v, (fst s, (tkey, v) :: snd s))
              else
                let! lhs := lparent B tkey in
                let! rhs := rparent B tkey in
                let! (a, s) := rbr_op fuel lhs s in
                let! (b, s) := rbr_op fuel rhs s in
                let! (v, c) := p_mul lie_mult a b (fst s) in
                Ok (v, (c, (tkey, v) :: snd s))
          end
      end.
    Definition rbracketing (tkey : Z) (s : hcache * pcache) : outcome (kprod * (hcache * pcache)) := rbr_op (S (Z.to_nat (k_degree tkey))) tkey s.
  End Context.
End Ints.

(** The caches a context uses: those of its maps, and the one of the Lie multiplier of its width *)
Record mcache := mkMC { mc_lie : hcache; mc_exp : pcache; mc_rbr : pcache }.

(** ** Data of one context *)
Section Data.
  Variable R : qalg.
  Variable req : R -> R -> bool.
  Variable ck : Z -> outcome Z.
  Variable L : lctx.
  Notation B := (lc_t L).
  Notation depth := (lc_depth L).
  Notation ldops := (dense_ops R req (hall_vb L)).
  Notation tdops := (dense_ops R req (tensor_vb B)).
  Notation sops := (sparse_ops R req).

  (** lite_context.h:441-486 for a Lie element *)
  Definition lie_construct {X} (O : vops R X) (keys : option (list Z)) (data : list R) : outcome X :=
    let! total := vb_size (hall_vb L) (-1) in
    let size := Z.min (Z.of_nat (length data)) total in
    for_ (zrange size) (vo_new O) (fun i r =>
      let! k := match keys with
                | Some ks => vb_key (hall_vb L) (nth (Z.to_nat i) ks 0)
                | None => vb_key (hall_vb L) i
                end in
      vo_upd O r k (fun _ => nth (Z.to_nat i) data r0)).
  Definition lie_construct_td (dense : bool) (keys : option (list Z)) (data : list R) : outcome (tdata R) :=
    if dense then let! v := lie_construct ldops keys data in Ok (Dn v) else let! v := lie_construct sops keys data in Ok (Sp v).

  (** maps.h:126-168, for an element of the same basis *)
  Definition l2t {X} (OL OT : vops R X) (arg : X) (m : mcache) : outcome (X * mcache) :=
    let! items := vo_items OL arg in
    for_ items (vo_new OT, m) (fun outer s =>
      let '(result, m) := s in
      let! (p, e) := expand ck L (fst outer) (mc_exp m) in
      let! result := asp_helper R X OT result p (snd outer) in
      Ok (result, mkMC (mc_lie m) e (mc_rbr m))).
  (** maps.h:170-221 *)
  Definition t2l {X} (OL OT : vops R X) (arg : X) (m : mcache) : outcome (X * mcache) :=
    let! items := vo_items OT arg in
    for_ items (vo_new OL, m) (fun outer s =>
      let '(result, m) := s in
      let deg := k_degree (fst outer) in
      if deg >? 0 then
        let! (p, lr) := rbracketing ck L (fst outer) (mc_lie m, mc_rbr m) in
        let! result := asp_helper R X OL result p (rmul (snd outer) (qinv (Z.to_nat deg))) in
        Ok (result, mkMC (fst lr) (mc_exp m) (snd lr))
      else Ok (result, m)).
  Definition l2t_td (a : tdata R) (m : mcache) : outcome (tdata R * mcache) :=
    match a with
    | Dn x => let! (y, m) := l2t ldops tdops x m in Ok (Dn y, m)
    | Sp x => let! (y, m) := l2t sops sops x m in Ok (Sp y, m)
    end.
  Definition t2l_td (a : tdata R) (m : mcache) : outcome (tdata R * mcache) :=
    match a with
    | Dn x => let! (y, m) := t2l ldops tdops x m in Ok (Dn y, m)
    | Sp x => let! (y, m) := t2l sops sops x m in Ok (Sp y, m)
    end.
  (** lite_context.h:391-409: a tensor of a context with basis [BS], in this context and this storage *)
  Definition conv_tensor (BS : tbasis) (dense : bool) (a : tdata R) : outcome (tdata R) :=
    let! (k, x) := populate R BS a in
    if dense then let! v := construct_impl R B tdops k x in Ok (Dn v) else let! v := construct_impl R B sops k x in Ok (Sp v).
  (** algebra_impl.h:652-672 with lite_context.h:425-439: a Lie element of this context as the storage of
      another operand; it takes the way through the tensors when the storages differ *)
  Definition is_dense (a : tdata R) : bool := match a with Dn _ => true | Sp _ => false end.
  Definition conv_lie (dense : bool) (a : tdata R) (m : mcache) : outcome (tdata R * mcache) :=
    let! (t, m) := l2t_td a m in
    let! t := conv_tensor B dense t in
    t2l_td t m.
  Definition like (a b : tdata R) (m : mcache) : outcome (tdata R * mcache) :=
    if Bool.eqb (is_dense a) (is_dense b) then Ok (b, m) else conv_lie (is_dense a) b m.

  (** algebra_impl.h:905-990 *)
  Definition ld_un (f : R -> R) (a : tdata R) : tdata R :=
    match a with Dn x => Dn (vo_unary ldops f x) | Sp x => Sp (vo_unary sops f x) end.
  Definition ld_bin (f : R -> R -> R) (a b : tdata R) (m : mcache) : outcome (tdata R * mcache) :=
    let! (b, m) := like a b m in
    match a, b with
    | Dn x, Dn y => Ok (Dn (vo_binary ldops f x y), m)
    | Sp x, Sp y => Ok (Sp (vo_binary sops f x y), m)
    | _, _ => UB
    end.
  (** with algebra.h:540-575, 894-911: the bracket *)
  Definition ld_mul (a b : tdata R) (m : mcache) : outcome (tdata R * mcache) :=
    let! (b, m) := like a b m in
    match a, b with
    | Dn x, Dn y =>
        let! (z, c) := op_mul R _ ldops depth hcache (base_fma R _ ldops depth hcache (lie_mult ck L)) x y (mc_lie m) in
        Ok (Dn z, mkMC c (mc_exp m) (mc_rbr m))
    | Sp x, Sp y =>
        let! (z, c) := op_mul R _ sops depth hcache (base_fma R _ sops depth hcache (lie_mult ck L)) x y (mc_lie m) in
        Ok (Sp z, mkMC c (mc_exp m) (mc_rbr m))
    | _, _ => UB
    end.
  Definition ld_eqb (a b : tdata R) (m : mcache) : outcome (bool * mcache) :=
    let! (b, m) := like a b m in
    match a, b with
    | Dn x, Dn y => Ok (vo_eqb ldops x y, m)
    | Sp x, Sp y => Ok (vo_eqb sops x y, m)
    | _, _ => UB
    end.
  (** algebra_impl.h:446-450, 528-536, 560-590 *)
  Definition ld_get (a : tdata R) (i : Z) : outcome R :=
    let! k := vb_key (hall_vb L) i in
    match a with Dn x => vo_get ldops x k | Sp x => vo_get sops x k end.
  Definition ld_items (a : tdata R) : outcome (list (Z * R)) :=
    let! l := match a with Dn x => vo_items ldops x | Sp x => vo_items sops x end in
    omap (fun e : Z * R => let! i := vb_index (hall_vb L) (fst e) in Ok (i, snd e)) l.

  (** lite_context.h:542-563; a row of the data with or without keys *)
  Definition td_unit (dense : bool) : outcome (tdata R) :=
    if dense then let! v := vo_upd tdops (vo_new tdops) (mk_key 0 0) (fun _ => r1) in Ok (Dn v)
    else let! v := vo_upd sops (vo_new sops) (mk_key 0 0) (fun _ => r1) in Ok (Sp v).
  Definition compute_signature (dense : bool) (rows : list (option (list Z) * list R)) (m : mcache) : outcome (tdata R * mcache) :=
    let! result := td_unit dense in
    for_ rows (result, m) (fun row s =>
      let '(result, m) := s in
      let! lie_row := lie_construct_td dense (fst row) (snd row) in
      let! (t, m) := l2t_td lie_row m in
      let! result := td_fmexp R req B result t in Ok (result, m)).

  (** lite_context.h:577-601: [X] is the storage *)
  Section Deriv.
    Variable X : Type.
    Variable O : vops R X.
    Variable fma : X -> X -> X -> (R -> R) -> Z -> unit -> outcome (X * unit).
    Definition comm_ (a b : X) : outcome X := let! (x, _) := LalModel.commutator R X O depth unit fma a b tt in Ok x.
    Definition derive_series (increment perturbation : X) : outcome X :=
      let! ad := comm_ increment perturbation in
      let! (result, _) := for_ (zseq 1 (Z.to_nat depth)) (perturbation, (r1 : R, ad)) (fun d s =>
        let '(result, (factor, ad)) := s in
        let factor := rmul factor (qinv (Z.to_nat (d + 1))) in
        let result := if Z.even d then vo_ibinary O (fun x y => radd x (rmul y factor)) result ad
                      else vo_ibinary O (fun x y => rsub x (rmul y factor)) result ad in
        let! ad := comm_ increment ad in
        Ok (result, (factor, ad))) in
      Ok result.
    (** lines 602-612 *)
    Definition deriv_single (signature t_incr perturbation : X) : outcome X :=
      let! s := derive_series t_incr perturbation in
      let! (x, _) := op_mul R X O depth unit fma signature s tt in Ok x.
    (** lines 628-633 *)
    Variable resize_to_degree : X -> Z -> outcome X.
    Definition deriv_step (result tincr tperturb : X) : outcome X :=
      let! signature := lal_exp R X O depth fma resize_to_degree tincr in
      let! (result, _) := op_imul R X O depth unit fma result signature tt in
      let! s := deriv_single signature tincr tperturb in
      Ok (vo_ibinary O (fun x y => radd x y) result s).
  End Deriv.
  Definition deriv_step_td (result tincr tperturb : tdata R) : outcome (tdata R) :=
    match result, tincr, tperturb with
    | Dn r, Dn x, Dn y => let! z := deriv_step _ tdops (ft_fma_dense R req B) (dv_resize_to_degree R B) r x y in Ok (Dn z)
    | Sp r, Sp x, Sp y => let! z := deriv_step _ sops (ft_fma_sparse R req B) (sv_resize_to_degree R) r x y in Ok (Sp z)
    | _, _, _ => UB
    end.
End Data.

(** ** Objects of all contexts, and programs over them *)
Section Objects.
  Variable R : qalg.
  Variable req : R -> R -> bool.
  Variable ck : Z -> outcome Z.
  (** The contexts of the process, by address *)
  Variable ctxs : Z -> lctx.

  (** A Lie or FreeTensor object *)
  Record lobj := mkLO { lo_ctx : Z; lo_lie : bool; lo_data : tdata R }.
  (** The Lie multiplier is registered by width (registry.h:47-101); every context has its own maps
      (lite_context.h:725). *)
  Record lcaches := mkLCs { lie_c : Z -> hcache; exp_c : Z -> pcache; rbr_c : Z -> pcache }.
  Definition lget (cs : lcaches) (c : Z) : mcache := mkMC (lie_c cs (lc_width (ctxs c))) (exp_c cs c) (rbr_c cs c).
  Definition put {A} (f : Z -> A) (i : Z) (a : A) : Z -> A := fun j => if j =? i then a else f j.
  Definition lput (cs : lcaches) (c : Z) (m : mcache) : lcaches :=
    mkLCs (put (lie_c cs) (lc_width (ctxs c)) (mc_lie m)) (put (exp_c cs) c (mc_exp m)) (put (rbr_c cs) c (mc_rbr m)).
  Definition within {A} (c : Z) (f : mcache -> outcome (A * mcache)) (cs : lcaches) : outcome (A * lcaches) :=
    let! (a, m) := f (lget cs c) in Ok (a, lput cs c m).

  (** lite_context.h:487-507, called with the storage [dense] on an object; an object of the same context
      is cast to that storage without a check (algebra_impl.h:62-74) *)
  Definition l2t_impl (c : Z) (dense : bool) (a : lobj) (cs : lcaches) : outcome (tdata R * lcaches) :=
    if lo_ctx a =? c then
      if Bool.eqb (is_dense R (lo_data a)) dense then within c (l2t_td R req ck (ctxs c) (lo_data a)) cs else UB
    else if negb (lc_width (ctxs (lo_ctx a)) =? lc_width (ctxs c)) then Throw
    else
      let! (t, cs) := within (lo_ctx a) (l2t_td R req ck (ctxs (lo_ctx a)) (lo_data a)) cs in
      let! t := conv_tensor R req (ctxs c) (lc_t (ctxs (lo_ctx a))) dense t in Ok (t, cs).
  (** lines 877-883 *)
  Definition ctx_lie_to_tensor (c : Z) (a : lobj) (cs : lcaches) : outcome (lobj * lcaches) :=
    let! (t, cs) := l2t_impl c (is_dense R (lo_data a)) a cs in Ok (mkLO c false t, cs).
  (** lines 508-527, 885-891 *)
  Definition ctx_tensor_to_lie (c : Z) (a : lobj) (cs : lcaches) : outcome (lobj * lcaches) :=
    if lo_ctx a =? c then let! (t, cs) := within c (t2l_td R req ck (ctxs c) (lo_data a)) cs in Ok (mkLO c true t, cs)
    else if negb (lc_width (ctxs (lo_ctx a)) =? lc_width (ctxs c)) then Throw
    else
      let! t := conv_tensor R req (ctxs c) (lc_t (ctxs (lo_ctx a))) (is_dense R (lo_data a)) (lo_data a) in
      let! (t, cs) := within c (t2l_td R req ck (ctxs c) t) cs in Ok (mkLO c true t, cs).
  (** lines 425-439: [convert] of a Lie element *)
  Definition ctx_convert_lie (c : Z) (dense : bool) (a : lobj) (cs : lcaches) : outcome (lobj * lcaches) :=
    let! (t, cs) := within (lo_ctx a) (l2t_td R req ck (ctxs (lo_ctx a)) (lo_data a)) cs in
    let! t := conv_tensor R req (ctxs c) (lc_t (ctxs (lo_ctx a))) dense t in
    let! (t, cs) := within c (t2l_td R req ck (ctxs c) t) cs in Ok (mkLO c true t, cs).

  (** context.cpp:171-208 *)
  Definition ctx_cbh (c : Z) (lies : list lobj) (dense : bool) (cs : lcaches) : outcome (lobj * lcaches) :=
    match lies with
    | [a] => ctx_convert_lie c dense a cs
    | _ =>
        let! collector := td_unit R req (ctxs c) dense in
        let! (collector, cs) := for_ lies (collector, cs) (fun alie s =>
          let '(collector, cs) := s in
          if td_dimension R (lo_data alie) =? 0 then Ok (collector, cs) else
          let! (t, cs) := ctx_lie_to_tensor c alie cs in
          let! collector := td_fmexp R req (lc_t (ctxs c)) collector (lo_data t) in Ok (collector, cs)) in
        let! l := td_log R req (lc_t (ctxs c)) collector in
        ctx_tensor_to_lie c (mkLO c false l) cs
    end.
  (** context.cpp:210-216 *)
  Definition ctx_cbh2 (c : Z) (left_ right_ : lobj) (cs : lcaches) : outcome (lobj * lcaches) :=
    let! (l, cs) := ctx_lie_to_tensor c left_ cs in
    let! tmp := td_exp R req (lc_t (ctxs c)) (lo_data l) in
    let! (r, cs) := ctx_lie_to_tensor c right_ cs in
    let! tmp := td_fmexp R req (lc_t (ctxs c)) tmp (lo_data r) in
    let! l := td_log R req (lc_t (ctxs c)) tmp in
    ctx_tensor_to_lie c (mkLO c false l) cs.
  (** lite_context.h:893-906 *)
  Definition ctx_signature (c : Z) (dense : bool) (rows : list (option (list Z) * list R)) (cs : lcaches) : outcome (lobj * lcaches) :=
    let! (t, cs) := within c (compute_signature R req ck (ctxs c) dense rows) cs in Ok (mkLO c false t, cs).
  Definition ctx_log_signature (c : Z) (dense : bool) (rows : list (option (list Z) * list R)) (cs : lcaches) : outcome (lobj * lcaches) :=
    let! (s, cs) := ctx_signature c dense rows cs in
    let! l := td_log R req (lc_t (ctxs c)) (lo_data s) in
    ctx_tensor_to_lie c (mkLO c false l) cs.
  (** lite_context.h:613-636, 907-912 *)
  Definition ctx_sig_derivative (c : Z) (dense : bool) (info : list (lobj * lobj)) (cs : lcaches) : outcome (lobj * lcaches) :=
    let zero := if dense then Dn (vo_new (dense_ops R req (tensor_vb (lc_t (ctxs c))))) else Sp (vo_new (sparse_ops R req)) in
    let! (r, cs) := for_ info (zero, cs) (fun d s =>
      let '(result, cs) := s in
      let! (tincr, cs) := l2t_impl c dense (fst d) cs in
      let! (tperturb, cs) := l2t_impl c dense (snd d) cs in
      let! result := deriv_step_td R req (ctxs c) result tincr tperturb in Ok (result, cs)) in
    Ok (mkLO c false r, cs).

  (** algebra_base.cpp:96-106, algebra_impl.h:960-990: [==] *)
  Definition obj_eqb (a b : lobj) (cs : lcaches) : outcome (bool * lcaches) :=
    if negb (lc_width (ctxs (lo_ctx a)) =? lc_width (ctxs (lo_ctx b))) then Ok (false, cs) else
    if lo_ctx a =? lo_ctx b then
      if lo_lie a then within (lo_ctx a) (ld_eqb R req ck (ctxs (lo_ctx a)) (lo_data a) (lo_data b)) cs
      else let! r := td_eqb R req (lc_t (ctxs (lo_ctx a))) (lo_data a) (lo_data b) in Ok (r, cs)
    else Throw.

  (** Calls on numbered objects *)
  Inductive lcmd :=
  | LNew (x ctx : Z) (lie dense : bool) (keys : option (list Z)) (data : list R)
  | LLin (x : Z) (o : lin R) (y : Z)
  | LLin2 (x : Z) (o : lin2) (y z : Z)
  | LTimes (x y z : Z)
  | LExp (x y : Z)
  | LLog (x y : Z)
  | LToTensor (x ctx y : Z)
  | LToLie (x ctx y : Z)
  | LCbh (x ctx : Z) (ys : list Z) (dense : bool)
  | LCbh2 (x ctx y z : Z)
  | LSig (x ctx : Z) (dense : bool) (rows : list (option (list Z) * list R))
  | LLogSig (x ctx : Z) (dense : bool) (rows : list (option (list Z) * list R))
  | LDeriv (x ctx : Z) (dense : bool) (info : list (Z * Z)).
  Definition lenv := Z -> option lobj.
  Definition lstate := (lenv * lcaches)%type.
  Definition lset (e : lenv) (x : Z) (o : lobj) : lenv := fun y => if y =? x then Some o else e y.
  Definition fetch (lie : bool) (e : lenv) (y : Z) : outcome lobj :=
    match e y with Some a => if Bool.eqb (lo_lie a) lie then Ok a else UB | None => UB end.
  (** algebra_base.cpp:87-94, algebra_impl.h:634-672: operands of one algebra and one context; others are refused *)
  Definition lalike (a b : lobj) : bool := (lo_ctx a =? lo_ctx b) && Bool.eqb (lo_lie a) (lo_lie b).
  Definition stored (e : lenv) (x : Z) (r : outcome (lobj * lcaches)) : outcome lstate := let! (o, cs) := r in Ok (lset e x o, cs).
  Definition in_lie (c : Z) (x : Z) (e : lenv) (r : outcome (tdata R * lcaches)) : outcome lstate :=
    let! (d, cs) := r in Ok (lset e x (mkLO c true d), cs).
  Definition lie_step (k : lcmd) (st : lstate) : outcome lstate :=
    let '(e, cs) := st in
    match k with
    | LNew x c lie dense keys data =>
        let L := ctxs c in
        if lie then let! d := lie_construct_td R req L dense keys data in Ok (lset e x (mkLO c true d), cs)
        else if dense then let! v := construct_impl R (lc_t L) (dense_ops R req (tensor_vb (lc_t L))) keys data in Ok (lset e x (mkLO c false (Dn v)), cs)
        else let! v := construct_impl R (lc_t L) (sparse_ops R req) keys data in Ok (lset e x (mkLO c false (Sp v)), cs)
    | LLin x o y =>
        match e y with
        | None => UB
        | Some a =>
            let L := ctxs (lo_ctx a) in
            if lo_lie a then Ok (lset e x (mkLO (lo_ctx a) true (ld_un R req L (match o with LNeg _ => fun v => ropp v | LSmul _ s => fun v => rmul v s end) (lo_data a))), cs)
            else
              let! d := match o with LNeg _ => td_neg R req (lc_t L) (lo_data a) | LSmul _ s => td_smul R req (lc_t L) s (lo_data a) end in
              Ok (lset e x (mkLO (lo_ctx a) false d), cs)
        end
    | LLin2 x o y z =>
        match e y, e z with
        | Some a, Some b =>
            let L := ctxs (lo_ctx a) in
            if lalike a b then
              if lo_lie a then
                in_lie (lo_ctx a) x e (within (lo_ctx a) (ld_bin R req ck L (match o with LAdd => fun v w => radd v w | LSub => fun v w => rsub v w end) (lo_data a) (lo_data b)) cs)
              else
                let! d := match o with LAdd => td_add R req (lc_t L) (lo_data a) (lo_data b) | LSub => td_sub R req (lc_t L) (lo_data a) (lo_data b) end in
                Ok (lset e x (mkLO (lo_ctx a) false d), cs)
            else Throw
        | _, _ => UB
        end
    | LTimes x y z =>
        match e y, e z with
        | Some a, Some b =>
            let L := ctxs (lo_ctx a) in
            if lalike a b then
              if lo_lie a then in_lie (lo_ctx a) x e (within (lo_ctx a) (ld_mul R req ck L (lo_data a) (lo_data b)) cs)
              else let! d := td_mul R req (lc_t L) (lo_data a) (lo_data b) in Ok (lset e x (mkLO (lo_ctx a) false d), cs)
            else Throw
        | _, _ => UB
        end
    | LExp x y => let! a := fetch false e y in let! d := td_exp R req (lc_t (ctxs (lo_ctx a))) (lo_data a) in Ok (lset e x (mkLO (lo_ctx a) false d), cs)
    | LLog x y => let! a := fetch false e y in let! d := td_log R req (lc_t (ctxs (lo_ctx a))) (lo_data a) in Ok (lset e x (mkLO (lo_ctx a) false d), cs)
    | LToTensor x c y => let! a := fetch true e y in stored e x (ctx_lie_to_tensor c a cs)
    | LToLie x c y => let! a := fetch false e y in stored e x (ctx_tensor_to_lie c a cs)
    | LCbh x c ys dense => let! lies := omap (fetch true e) ys in stored e x (ctx_cbh c lies dense cs)
    | LCbh2 x c y z => let! a := fetch true e y in let! b := fetch true e z in stored e x (ctx_cbh2 c a b cs)
    | LSig x c dense rows => stored e x (ctx_signature c dense rows cs)
    | LLogSig x c dense rows => stored e x (ctx_log_signature c dense rows cs)
    | LDeriv x c dense info =>
        let! info := omap (fun yz => let! a := fetch true e (fst yz) in let! b := fetch true e (snd yz) in Ok (a, b)) info in
        stored e x (ctx_sig_derivative c dense info cs)
    end.
  Definition lie_run (p : list lcmd) (st : lstate) : outcome lstate := for_ p st lie_step.
  Definition lie_start : lstate := (fun _ => None, mkLCs (fun _ => []) (fun _ => []) (fun _ => [])).
End Objects.
Arguments mkLO {R}. Arguments lo_ctx {R}. Arguments lo_lie {R}. Arguments lo_data {R}.
