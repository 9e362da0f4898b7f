(** What programs over Lie and tensor objects should compute, and which programs the theorems cover.
    All objects are read as functions from words to scalars (non-commutative polynomials). *)
From Verif Require Export LieObjModel LhSpec HallSpec LieSpec Shuffle Dynkin T2lLemmas Dual.
Open Scope Z_scope.

(** The tree of a key of a Hall set, by following parents down to letters. *)
Inductive named (H : hall_set) : Z -> tree -> Prop :=
| named_letter k : k_degree k = 1 -> named H k (Leaf (k_index k + 1))
| named_bracket k a b s t : k_degree k <> 1 -> hs_parents H k = Ok (a, b) -> named H a s -> named H b t -> named H k (Node s t).

Section Spec.
  Variable R : qalg.
  Notation tensor := (tens R Z).
  (** Width and depth of each context of the process, the dimension of its Lie algebra, and the elements of its
      Hall basis in order. *)
  Variables width depth dims : Z -> Z.
  Variable trees : Z -> Z -> tree.
  Notation dn c := (Z.to_nat (depth c)).
  Definition cutc (c : Z) (f : tensor) : tensor := trunc R (width c) (dn c) f.
  (** The Lie element with given coordinates: a combination of iterated commutators. *)
  Definition combo (c : Z) (co : Z -> R) : tensor := fun u => sum (zrange (dims c)) (fun i => rmul (co i) (texpand R (trees c i) u)).
  (** Coordinates from construction data: dense data are the values in order; of several entries for one key the
      last counts, entries beyond the dimension are ignored. *)
  Definition coords (c : Z) (keys : option (list Z)) (data : list R) (i : Z) : R :=
    match keys with
    | None => nth (Z.to_nat i) data r0
    | Some ks => fold_left (fun acc e => if fst e =? i then snd e else acc) (firstn (Z.to_nat (dims c)) (combine ks data)) r0
    end.
  (** The projection onto Lie elements: a word of n letters goes to its right-normed bracket over n. *)
  Definition project (c : Z) (x : tensor) : tensor :=
    fun v => sum (words_upto (width c) (depth c)) (fun u => rmul (x u) (rmul (qinv (length u)) (rnorm R u v))).
  (** exp(x1) exp(x2) ... *)
  Definition exps {R : qalg} (n : nat) (xs : list (tens R Z)) : tens R Z := fold_left (fun g x => conv g (texp n x)) xs tone.
  (** the derivative of the above in the directions y1, y2, ... *)
  Definition dexps (n : nat) (xys : list (tensor * tensor)) : tensor :=
    fun u => snd (exps (R := dual R) n (map (fun xy : tensor * tensor => fun v => (fst xy v, snd xy v)) xys) u).

  (** the derivative of exp at x in direction y *)
  Definition dexp1 (n : nat) (x y : tensor) : tensor := fun u => snd (texp (R := dual R) n (fun v => (x v, y v)) u).
  (** What the derivative over several intervals is computed to be: r := r exp(x_i) + dexp_(x_i)(y_i).  The factor
      exp(x_1) ... exp(x_(i-1)) of the last summand is missing. *)
  Definition dsteps (n : nat) (xys : list (tensor * tensor)) : tensor :=
    fold_left (fun r (xy : tensor * tensor) u => radd (conv r (texp n (fst xy)) u) (dexp1 n (fst xy) (snd xy) u)) xys tzero.

  (** An object: its context and algebra, its storage, the element it stands for. *)
  Record vobj := mkV { v_ctx : Z; v_lie : bool; v_dense : bool; v_val : tensor }.
  Definition venv := Z -> option vobj.
  Definition vset (e : venv) (x : Z) (o : vobj) : venv := fun y => if y =? x then Some o else e y.
  Definition vstart : venv := fun _ => None.
  Definition val (e : venv) (y : Z) : tensor := match e y with Some a => v_val a | None => tzero end.
  Definition von1 (e : venv) (x y : Z) (f : vobj -> vobj) : venv := match e y with Some a => vset e x (f a) | None => e end.
  Definition von2 (e : venv) (x y z : Z) (f : vobj -> vobj -> tensor) : venv :=
    match e y, e z with Some a, Some b => vset e x (mkV (v_ctx a) (v_lie a) (v_dense a) (f a b)) | _, _ => e end.
  Definition rowval (c : Z) (row : option (list Z) * list R) : tensor := combo c (coords c (fst row) (snd row)).
  Definition vstep (k : lcmd R) (e : venv) : venv :=
    match k with
    | LNew _ x c true dense keys data => vset e x (mkV c true dense (combo c (coords c keys data)))
    | LNew _ x c false dense keys data => vset e x (mkV c false dense (cutc c (fun u => given R (width c) (dn c) keys data (pos (width c) u))))
    | LLin _ x o y => von1 e x y (fun a => mkV (v_ctx a) (v_lie a) (v_dense a) (fun u => match o with LNeg _ => ropp (v_val a u) | LSmul _ s => rmul (v_val a u) s end))
    | LLin2 _ x o y z => von2 e x y z (fun a b u => match o with LAdd => radd (v_val a u) (v_val b u) | LSub => rsub (v_val a u) (v_val b u) end)
    | LTimes _ x y z => von2 e x y z (fun a b => cutc (v_ctx a) (if v_lie a then comm (v_val a) (v_val b) else conv (v_val a) (v_val b)))
    | LExp _ x y => von1 e x y (fun a => mkV (v_ctx a) false (v_dense a) (cutc (v_ctx a) (texp (dn (v_ctx a)) (v_val a))))
    | LLog _ x y => von1 e x y (fun a => mkV (v_ctx a) false (v_dense a) (cutc (v_ctx a) (tlog1p (dn (v_ctx a)) (nocst R (v_val a)))))
    | LToTensor _ x c y => von1 e x y (fun a => mkV c false (v_dense a) (cutc c (v_val a)))
    | LToLie _ x c y => von1 e x y (fun a => mkV c true (v_dense a) (project c (v_val a)))
    | LCbh _ x c ys dense => vset e x (mkV c true dense (cutc c (tlog (dn c) (exps (dn c) (map (val e) ys)))))
    | LCbh2 _ x c y z => von1 e x y (fun a => mkV c true (v_dense a) (cutc c (tlog (dn c) (conv (texp (dn c) (val e y)) (texp (dn c) (val e z))))))
    | LSig _ x c dense rows => vset e x (mkV c false dense (cutc c (exps (dn c) (map (rowval c) rows))))
    | LLogSig _ x c dense rows => vset e x (mkV c true dense (cutc c (tlog (dn c) (exps (dn c) (map (rowval c) rows)))))
    | LDeriv _ x c dense info => vset e x (mkV c false dense (cutc c (dexps (dn c) (map (fun yz => (val e (fst yz), val e (snd yz))) info))))
    end.
  Definition vrun (p : list (lcmd R)) (e : venv) : venv := fold_left (fun e k => vstep k e) p e.

  (** An object may be used in context [c]: it is of this context, or of one of the same width, and if it is stored
      sparsely and of another context, of no greater depth. *)
  Definition usable (c : Z) (a : vobj) : Prop := v_ctx a = c \/ (width (v_ctx a) = width c /\ (v_dense a = true \/ depth (v_ctx a) <= depth c)).
  Definition is_lie (e : venv) (y : Z) (P : vobj -> Prop) : Prop := exists a, e y = Some a /\ v_lie a = true /\ P a.
  Definition row_ok (dim : Z) (row : option (list Z) * list R) : Prop :=
    match fst row with None => True | Some ks => length ks = length (snd row) /\ Forall (fun i => 0 <= i < dim) ks end.
  (** Operands exist, are of the algebra asked for and usable; operators get operands of one context and one algebra;
      keys are in range.  A derivative is taken over at most one interval, from Lie elements which, if of the context
      itself, are stored as the result is: see the [_refuted] theorems. *)
  Definition vmay (good : Z -> Prop) (k : lcmd R) (e : venv) : Prop :=
    match k with
    | LNew _ x c lie dense keys data => good c /\ row_ok (if lie then dims c else words_below (width c) (S (dn c))) (keys, data)
    | LLin _ x _ y => e y <> None
    | LLin2 _ x _ y z | LTimes _ x y z => exists a b, e y = Some a /\ e z = Some b /\ v_ctx a = v_ctx b /\ v_lie a = v_lie b
    | LExp _ x y | LLog _ x y => exists a, e y = Some a /\ v_lie a = false
    | LToTensor _ x c y => good c /\ is_lie e y (usable c)
    | LToLie _ x c y => good c /\ exists a, e y = Some a /\ v_lie a = false /\ usable c a
    | LCbh _ x c ys dense => good c /\ Forall (fun y => is_lie e y (usable c)) ys
    | LCbh2 _ x c y z => good c /\ is_lie e y (usable c) /\ is_lie e z (usable c)
    | LSig _ x c dense rows | LLogSig _ x c dense rows => good c /\ Forall (row_ok (dims c)) rows
    | LDeriv _ x c dense info => good c /\ (length info <= 1)%nat /\
        Forall (fun yz => is_lie e (fst yz) (fun a => usable c a /\ (v_ctx a = c -> v_dense a = dense)) /\ is_lie e (snd yz) (fun a => usable c a /\ (v_ctx a = c -> v_dense a = dense))) info
    end.
  Fixpoint vcovered (good : Z -> Prop) (p : list (lcmd R)) (e : venv) : Prop :=
    match p with [] => True | k :: p => vmay good k e /\ vcovered good p (vstep k e) end.

  (** What can be seen of a Lie object that stands for the element t: iteration and subscripts give its coordinates. *)
  Definition lie_shows (req : R -> R -> bool) (L : lctx) (c : Z) (d : tdata R) (t : tensor) : Prop := exists co, (forall u, t u = combo c co u) /\
    (exists l, ld_items R req L d = Ok l /\ (forall a b l1 l2, l = l1 ++ a :: l2 -> In b l2 -> fst a < fst b) /\
      (forall i x, In (i, x) l -> 0 <= i < dims c /\ x = co i) /\ (forall i, 0 <= i < dims c -> ~ In i (map fst l) -> co i = r0)) /\
    (forall i, 0 <= i < dims c -> is_dense R d = false \/ i < td_dimension R d -> ld_get R req L d i = Ok (co i)).
  (** An object shows what is expected of it. *)
  Definition vsees (req : R -> R -> bool) (ctxs : Z -> lctx) (o : lobj R) (t : vobj) : Prop :=
    lo_ctx o = v_ctx t /\ lo_lie o = v_lie t /\ is_dense R (lo_data o) = v_dense t /\
    if v_lie t then lie_shows req (ctxs (v_ctx t)) (v_ctx t) (lo_data o) (v_val t)
    else shows R (width (v_ctx t)) (dn (v_ctx t)) req (fun c => lc_t (ctxs c)) (Some (mkImpl (lo_ctx o) (lo_data o))) (v_val t).
End Spec.
(** A context of the process: width, depth at least 1, small enough for packed keys and 64-bit sizes, with the
    tensor basis and the Hall set of this width and depth; [dims] and [trees] describe the Hall set. *)
Definition lie_context (width depth dims : Z -> Z) (trees : Z -> Z -> tree) (ctxs : Z -> lctx) (c : Z) : Prop :=
  packs (width c) (depth c) /\ sized (width c) (depth c) /\ 1 <= depth c /\
  KeyModel.tensor_basis (width c) (depth c) = Ok (lc_t (ctxs c)) /\ new_hall_set (width c) (depth c) = Ok (lc_h (ctxs c)) /\
  vb_size (hall_vb (ctxs c)) (-1) = Ok (dims c) /\
  forall i, 0 <= i < dims c -> exists k, vb_key (hall_vb (ctxs c)) i = Ok k /\ named (lc_h (ctxs c)) k (trees c i).
