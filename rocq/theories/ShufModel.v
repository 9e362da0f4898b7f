(** The shuffle and half-shuffle products of the vendored library, as ShuffleTensor objects multiply
    and as the Python functions [shuffle_multiply] and [half_shuffle_multiply] compute them
    (vendored/libalgebra_lite/shuffle_tensor.h, algebra/shuffle_multiplier.cpp,
    algebra/half_shuffle_multiplier.cpp, algebra.h, registry.h; algebra/src/lite_context.h:915-1000;
    roughpy/src/algebra/free_multiply_funcs.cpp).

    Simplifications.  As in LalModel.v and LhModel.v.  The process has one thread (the cache of a
    multiplier has no lock).  The two half products added in [shuffle] are computed left first; C++
    leaves the order open.  Null objects are not modelled here. *)
From Verif Require Export LhModel.
Open Scope Z_scope.

(** ** Products of keys *)
(** [int] addition: 32 bits, overflow is undefined *)
Definition i32_add (a b : Z) : outcome Z := if (- 2 ^ 31 <=? a + b) && (a + b <? 2 ^ 31) then Ok (a + b) else UB.
Definition kprod := list (Z * Z).
(** [tmp[k] += v] on a [std::map], as the list of its entries in key order *)
Fixpoint m_add (k v : Z) (m : kprod) : outcome kprod :=
  match m with
  | [] => let! s := i32_add 0 v in Ok [(k, s)]
  | (q, y) :: m' =>
      if k <? q then let! s := i32_add 0 v in Ok ((k, s) :: m)
      else if q =? k then let! s := i32_add y v in Ok ((q, s) :: m')
      else let! r := m_add k v m' in Ok ((q, y) :: r)
  end.
(** [tmp.insert(k, v)]: an entry already there stays *)
Fixpoint m_insert (k v : Z) (m : kprod) : kprod :=
  match m with
  | [] => [(k, v)]
  | (q, y) :: m' => if k <? q then (k, v) :: m else if q =? k then m else (q, y) :: m_insert k v m'
  end.
(** algebra.h:349-357 *)
Definition prod_add (lhs rhs : kprod) : outcome kprod :=
  for_ rhs (fold_left (fun m e => m_insert (fst e) (snd e) m) lhs []) (fun e m => m_add (fst e) (snd e) m).

(** shuffle_tensor.h:294-296: the cache, an [unordered_map] from pairs of keys *)
Definition hcache := list ((Z * Z) * kprod).
Fixpoint c_find (l r : Z) (c : hcache) : option kprod :=
  match c with [] => None | ((a, b), p) :: c => if (a =? l) && (b =? r) then Some p else c_find l r c end.

Section Multipliers.
  Variable B : tbasis.
  Section With.
    (** the half-shuffle operator *)
    Variable op : Z -> Z -> hcache -> outcome (kprod * hcache).
    (** half_shuffle_multiplier.cpp:29-48 *)
    Definition shuffle_with (lhs rhs : Z) (c : hcache) : outcome (kprod * hcache) :=
      if k_degree lhs =? 0 then Ok ([(rhs, 1)], c) else
      if k_degree rhs =? 0 then Ok ([(lhs, 1)], c) else
      let! (a, c) := op lhs rhs c in
      let! (b, c) := op rhs lhs c in
      let! s := prod_add a b in Ok (s, c).
    (** half_shuffle_multiplier.cpp:50-80 *)
    Definition key_prod_with (lhs rhs : Z) (c : hcache) : outcome (kprod * hcache) :=
      if k_degree lhs + k_degree rhs <=? tb_depth B then
        if k_degree lhs =? 0 then Ok ([], c) else
        if k_degree rhs =? 0 then Ok ([(lhs, 1)], c) else
        let! lp := lparent B lhs in
        let! rp := rparent B lhs in
        let! (right_part, c) := shuffle_with rp rhs c in
        let! m := for_ right_part [] (fun item m => let! k := concat_product B lp (fst item) in m_add k (snd item) m) in
        Ok (m, c)
      else Ok ([], c).
  End With.
  (** half_shuffle_multiplier.cpp:83-101 *)
  Fixpoint half_op (fuel : nat) (lhs rhs : Z) (c : hcache) : outcome (kprod * hcache) :=
    match fuel with
    | O => NoFuel
    | S fuel =>
        if k_degree lhs + k_degree rhs >? tb_depth B then Ok ([], c) else
        match c_find lhs rhs c with
        | Some p => Ok (p, c)
        | None => let! (p, c) := key_prod_with (half_op fuel) lhs rhs c in Ok (p, ((lhs, rhs), p) :: c)
        end
    end.
  (** Each nested call has one letter fewer: the number of letters bounds the recursion. *)
  Definition half_fuel (lhs rhs : Z) : nat := S (Z.to_nat (k_degree lhs + k_degree rhs)).
  Definition half_mult (lhs rhs : Z) (c : hcache) : outcome (kprod * hcache) := half_op (half_fuel lhs rhs) lhs rhs c.
  (** shuffle_multiplier.cpp:39-52 *)
  Definition shuffle_mult (lhs rhs : Z) (c : hcache) : outcome (kprod * hcache) :=
    if k_degree lhs + k_degree rhs >? tb_depth B then Ok ([], c) else shuffle_with half_mult lhs rhs c.
End Multipliers.

(** ** Products of vectors *)
Section Mixed.
  Variable R : cring.
  Variables X Y : Type.
  Variables (O : vops R X) (P : vops R Y).
  (** depth of the basis of the result and of the right operand *)
  Variables depth rdepth : Z.
  Variable C : Type.
  Variable mult : Z -> Z -> C -> outcome (list (Z * Z) * C).
  (** algebra.h:540-575 with 269-320: the template for operands of two types; the range of right
      factors is cut by the right operand's own basis *)
  Definition mixed_fma (out lhs : X) (rhs : Y) (fn : R -> R) (c : C) : outcome (X * C) :=
    let! right_buffer := vo_items P rhs in
    let right_buffer := kv_sort R right_buffer in
    let out_deg := Z.min depth (vo_degree O lhs + vo_degree P rhs) in
    let out := vo_update_degree O out_deg out in
    let! litems := vo_items O lhs in
    for_ litems (out, c) (fun litem s =>
      let rhs_degree := out_deg - k_degree (fst litem) in
      let! range := degree_range R rdepth right_buffer rhs_degree in
      for_ range s (fun ritem s =>
        let '(out, c) := s in
        let! (p, c) := mult (fst litem) (fst ritem) c in
        let! out := asp_helper R X O out p (fn (rmul (snd litem) (snd ritem))) in
        Ok (out, c))).
  (** algebra.h:958-966 *)
  Definition mixed_multiply (lhs : X) (rhs : Y) (c : C) : outcome (X * C) := mixed_fma (vo_new O) lhs rhs (fun x => x) c.
End Mixed.

(** ** Objects
    A FreeTensor or ShuffleTensor object of some context, owning dense or sparse data. *)
Section Objects.
  Variable R : qalg.
  Variable req : R -> R -> bool.
  Variable ctxs : Z -> tbasis.
  Record sobj := mkObj { so_ctx : Z; so_free : bool; so_data : tdata R }.
  Notation bof x := (ctxs (so_ctx x)).
  Notation dops B := (dense_ops R req (tensor_vb B)).
  Notation sops := (sparse_ops R req).

  (** free_multiply_funcs.cpp:78-190 with lite_context.h:930-1000 and shuffle_tensor.h:447-466: the
      product in the storage and basis of the left operand; nothing is asked of the right one *)
  Definition fn_data (mult : tbasis -> Z -> Z -> hcache -> outcome (kprod * hcache)) (BL BR : tbasis) (a b : tdata R) (c : hcache) : outcome (tdata R * hcache) :=
    match a, b with
    | Dn x, Dn y => let! (z, c) := mixed_multiply R _ _ (dops BL) (dops BR) (tb_depth BL) (tb_depth BR) hcache (mult BL) x y c in Ok (Dn z, c)
    | Dn x, Sp y => let! (z, c) := mixed_multiply R _ _ (dops BL) sops (tb_depth BL) (tb_depth BR) hcache (mult BL) x y c in Ok (Dn z, c)
    | Sp x, Dn y => let! (z, c) := mixed_multiply R _ _ sops (dops BR) (tb_depth BL) (tb_depth BR) hcache (mult BL) x y c in Ok (Sp z, c)
    | Sp x, Sp y => let! (z, c) := mixed_multiply R _ _ sops sops (tb_depth BL) (tb_depth BR) hcache (mult BL) x y c in Ok (Sp z, c)
    end.
  (** implementors/algebra_impl.h:905-990 with algebra.h:894-911: ShuffleTensor [a * b], the right operand
      converted to the storage of the left *)
  Definition times_data (B : tbasis) (a b : tdata R) (c : hcache) : outcome (tdata R * hcache) :=
    match a with
    | Dn x => let! y := to_dense R req B b in
        let! (z, c) := op_mul R _ (dops B) (tb_depth B) hcache (base_fma R _ (dops B) (tb_depth B) hcache (shuffle_mult B)) x y c in Ok (Dn z, c)
    | Sp x => let! y := to_sparse R req B b in
        let! (z, c) := op_mul R _ sops (tb_depth B) hcache (base_fma R _ sops (tb_depth B) hcache (shuffle_mult B)) x y c in Ok (Sp z, c)
    end.

  (** registry.h:47-101: one multiplier, with its cache, for each width; the shuffle multiplier and the
      half-shuffle multiplier have caches of their own *)
  Record caches := mkCaches { sh_cache : Z -> hcache; hf_cache : Z -> hcache }.
  Definition cput (f : Z -> hcache) (w : Z) (c : hcache) : Z -> hcache := fun v => if v =? w then c else f v.

  Inductive lin := LNeg | LSmul (s : R).
  Inductive lin2 := LAdd | LSub.
  Inductive fnk := FShuffle | FHalf.
  (** Calls on numbered objects *)
  Inductive scmd :=
  | SNew (x ctx : Z) (free dense : bool) (keys : option (list Z)) (data : list R)
  | SLin (x : Z) (o : lin) (y : Z)
  | SLin2 (x : Z) (o : lin2) (y z : Z)
  | STimes (x y z : Z)
  | SFn (k : fnk) (x y z : Z).
  Definition senv_ := Z -> option sobj.
  Definition sstate := (senv_ * caches)%type.
  Definition so_set (e : senv_) (x : Z) (o : sobj) : senv_ := fun y => if y =? x then Some o else e y.
  (** algebra_base.cpp:87-94, algebra_impl.h:634-652: operands of one algebra and one context; others are refused *)
  Definition alike (a b : sobj) : bool := (so_ctx a =? so_ctx b) && Bool.eqb (so_free a) (so_free b).
  Definition sh_step (k : scmd) (st : sstate) : outcome sstate :=
    let '(e, cs) := st in
    match k with
    | SNew x ctx free dense keys data =>
        let B := ctxs ctx in
        if dense then let! v := construct_impl R B (dops B) keys data in Ok (so_set e x (mkObj ctx free (Dn v)), cs)
        else let! v := construct_impl R B sops keys data in Ok (so_set e x (mkObj ctx free (Sp v)), cs)
    | SLin x o y =>
        match e y with
        | None => UB
        | Some a =>
            let! d := match o with LNeg => td_neg R req (bof a) (so_data a) | LSmul s => td_smul R req (bof a) s (so_data a) end in
            Ok (so_set e x (mkObj (so_ctx a) (so_free a) d), cs)
        end
    | SLin2 x o y z =>
        match e y, e z with
        | Some a, Some b =>
            if alike a b then
              let! d := match o with LAdd => td_add R req (bof a) (so_data a) (so_data b) | LSub => td_sub R req (bof a) (so_data a) (so_data b) end in
              Ok (so_set e x (mkObj (so_ctx a) (so_free a) d), cs)
            else Throw
        | _, _ => UB
        end
    | STimes x y z =>
        match e y, e z with
        | Some a, Some b =>
            if alike a b then
              if so_free a then
                let! d := td_mul R req (bof a) (so_data a) (so_data b) in Ok (so_set e x (mkObj (so_ctx a) true d), cs)
              else
                let w := tb_width (bof a) in
                let! (d, c) := times_data (bof a) (so_data a) (so_data b) (sh_cache cs w) in
                Ok (so_set e x (mkObj (so_ctx a) false d), mkCaches (cput (sh_cache cs) w c) (hf_cache cs))
            else Throw
        | _, _ => UB
        end
    | SFn k x y z =>
        match e y, e z with
        | Some a, Some b =>
            let w := tb_width (bof a) in
            match k with
            | FShuffle =>
                let! (d, c) := fn_data shuffle_mult (bof a) (bof b) (so_data a) (so_data b) (sh_cache cs w) in
                Ok (so_set e x (mkObj (so_ctx a) (so_free a) d), mkCaches (cput (sh_cache cs) w c) (hf_cache cs))
            | FHalf =>
                let! (d, c) := fn_data half_mult (bof a) (bof b) (so_data a) (so_data b) (hf_cache cs w) in
                Ok (so_set e x (mkObj (so_ctx a) (so_free a) d), mkCaches (sh_cache cs) (cput (hf_cache cs) w c))
            end
        | _, _ => UB
        end
    end.
  Definition sh_run (p : list scmd) (st : sstate) : outcome sstate := for_ p st sh_step.
  Definition sh_start : sstate := (fun _ => None, mkCaches (fun _ => []) (fun _ => [])).
End Objects.
