(** What a program over free tensor objects should compute, and which programs the theorems cover. *)
From Verif Require Export LhModel LalFun.
Open Scope Z_scope.

Section Spec.
  Variable R : qalg.
  Variables (w : Z) (N : nat).
  Variable req : R -> R -> bool.
  Notation tensor := (tens R Z).
  (** Truncated: zero on words longer than N or with other letters. *)
  Definition trunc (f : tensor) : tensor := fun u => if inside w N u then f u else r0.
  Definition nocst (f : tensor) : tensor := fun u => match u with [] => r0 | _ => f u end.
  (** The value that construction data gives to position i: dense data are the values in order; of
      several entries for one key the last counts, and entries beyond the dimension are ignored. *)
  Definition given (keys : option (list Z)) (data : list R) (i : Z) : R :=
    match keys with
    | None => nth (Z.to_nat i) data r0
    | Some ks => fold_left (fun acc e => if fst e =? i then snd e else acc) (firstn (Z.to_nat (words_below w (S N))) (combine ks data)) r0
    end.

  Definition senv := Z -> tensor.
  Definition sset (e : senv) (x : Z) (t : tensor) : senv := fun y => if y =? x then t else e y.
  Definition sem1 (o : op1 R) (a : tensor) : tensor :=
    match o with
    | Copy _ => a
    | Neg _ => fun u => ropp (a u)
    | Smul _ s => fun u => rmul (a u) s
    | Sdiv _ s inv => fun u => rmul (a u) inv
    | Exp _ => trunc (texp N a)
    | Log _ => trunc (tlog1p N (nocst a))
    | Antipode _ => anti a
    end.
  Definition sem2 (o : op2) (a b : tensor) : tensor :=
    match o with
    | Plus => fun u => radd (a u) (b u)
    | Minus => fun u => rsub (a u) (b u)
    | Times => trunc (conv a b)
    end.
  Definition isem1 (o : iop1 R) (a : tensor) : tensor :=
    match o with ISmul _ s => fun u => rmul (a u) s | ISdiv _ s inv => fun u => rmul (a u) inv end.
  Definition isem2 (o : iop2 R) (a b : tensor) : tensor :=
    match o with
    | IAdd _ => fun u => radd (a u) (b u)
    | ISub _ => fun u => rsub (a u) (b u)
    | IMul _ => trunc (conv a b)
    | AddSmul _ s => fun u => radd (a u) (rmul (b u) s)
    | SubSmul _ s => fun u => rsub (a u) (rmul (b u) s)
    | AddSdiv _ s inv => fun u => radd (a u) (rmul (b u) inv)
    | SubSdiv _ s inv => fun u => rsub (a u) (rmul (b u) inv)
    | MulSmul _ s => trunc (conv a (fun u => rmul (b u) s))
    | MulSdiv _ s inv => trunc (conv a (fun u => rmul (b u) inv))
    | Fmexp _ => trunc (conv a (texp N (nocst b)))
    end.
  Definition sstep (k : cmd R) (e : senv) : senv :=
    match k with
    | New _ x c dense keys data => sset e x (trunc (fun u => given keys data (pos w u)))
    | Op1 _ x o y => sset e x (sem1 o (e y))
    | Op2 _ x o y z => sset e x (sem2 o (e y) (e z))
    | Iop1 _ x o => sset e x (isem1 o (e x))
    | Iop2 _ x o y => sset e x (isem2 o (e x) (e y))
    | AddMul _ x y z => sset e x (fun u => radd (e x u) (trunc (conv (e y) (e z)) u))
    | SubMul _ x y z => sset e x (fun u => rsub (e x u) (trunc (conv (e y) (e z)) u))
    end.
  Definition srun (p : list (cmd R)) (e : senv) : senv := fold_left (fun e k => sstep k e) p e.

  (** ** Covered programs
      What is known of an object from the calls made so far: null, a sparse tensor, a dense tensor,
      or a dense tensor which an in-place product may have cleared. *)
  Inductive kind := KNull | KSparse | KDense | KCleared.
  Definition kdense (k : kind) : bool := match k with KDense | KCleared => true | _ => false end.
  Definition fresh (k : kind) : kind := match k with KNull => KNull | KSparse => KSparse | _ => KDense end.
  Definition cleared (k : kind) : kind := match k with KNull => KNull | KSparse => KSparse | _ => KCleared end.
  Definition null (k : kind) : bool := match k with KNull => true | _ => false end.
  Definition kenv := Z -> kind.
  Definition kset (e : kenv) (x : Z) (k : kind) : kenv := fun y => if y =? x then k else e y.
  Notation isz s := (req s r0).

  (** Scalars divided by must be invertible; operations on null objects are limited to those the API
      gives a meaning; a cleared dense tensor is not used in [+] or [-]; no [x -= x] on sparse tensors; no
      antipode of a dense tensor that is zero, or of one with more than 65535 letters and words of 3. *)
  Definition may1 (o : op1 R) (a : kind) (t : tensor) : Prop :=
    match o with
    | Sdiv _ s inv => rmul s inv = r1
    | Exp _ => a <> KNull
    | Antipode _ => kdense a = true -> (exists u, t u <> r0) /\ (w < 2 ^ 16 \/ (N <= 2)%nat)
    | _ => True
    end.
  Definition may2 (o : op2) (a b : kind) : Prop :=
    match o with
    | Times => a <> KNull /\ b <> KNull
    | _ => match b with KNull => True | _ => match a with KNull => False | KSparse => True | KDense => b <> KCleared | KCleared => False end end
    end.
  Definition imay1 (o : iop1 R) (a : kind) : Prop := match o with ISdiv _ s inv => rmul s inv = r1 | _ => True end.
  Definition imay2 (o : iop2 R) (same : bool) (a b : kind) : Prop :=
    match o with
    | IAdd _ => b = KNull \/ a <> KNull
    | ISub _ => b = KNull \/ (a <> KNull /\ (same = true -> kdense a = true))
    | IMul _ => a <> KNull /\ b <> KNull
    | AddSmul _ s | SubSmul _ s | MulSmul _ s => b = KNull \/ s = r0 \/ a <> KNull
    | AddSdiv _ s inv | SubSdiv _ s inv | MulSdiv _ s inv => rmul s inv = r1 /\ (b = KNull \/ a <> KNull)
    | Fmexp _ => True
    end.
  Definition may (c0 : Z) (k : cmd R) (e : kenv) (t : senv) : Prop :=
    match k with
    | New _ x c dense keys data => c = c0 /\ match keys with None => True | Some ks => length ks = length data /\ Forall (fun i => 0 <= i < words_below w (S N)) ks end
    | Op1 _ x o y => may1 o (e y) (t y)
    | Op2 _ x o y z => may2 o (e y) (e z)
    | Iop1 _ x o => imay1 o (e x)
    | Iop2 _ x o y => imay2 o (x =? y) (e x) (e y)
    | AddMul _ x y z | SubMul _ x y z => e y = KNull \/ e z = KNull \/ e x <> KNull
    end.
  Definition kind1 (o : op1 R) (a : kind) : kind :=
    match o with Exp _ | Log _ | Antipode _ => fresh a | Smul _ s => if isz s then fresh a else a | _ => a end.
  Definition kind2 (o : op2) (a b : kind) : kind := match o with Times => fresh a | _ => a end.
  Definition ikind2 (o : iop2 R) (a b : kind) : kind :=
    match o with IMul _ | MulSmul _ _ | MulSdiv _ _ _ => cleared a | Fmexp _ => if null b then a else fresh a | _ => a end.
  Definition kstep (k : cmd R) (e : kenv) : kenv :=
    match k with
    | New _ x c dense keys data => kset e x (if dense then KDense else KSparse)
    | Op1 _ x o y => kset e x (kind1 o (e y))
    | Op2 _ x o y z => kset e x (kind2 o (e y) (e z))
    | Iop1 _ x o => e
    | Iop2 _ x o y => kset e x (ikind2 o (e x) (e y))
    | AddMul _ x y z | SubMul _ x y z => e
    end.
  Fixpoint covered (c0 : Z) (p : list (cmd R)) (e : kenv) (t : senv) : Prop :=
    match p with [] => True | k :: p => may c0 k e t /\ covered c0 p (kstep k e) (sstep k t) end.
  (** What can be seen of an object that stands for the tensor t: iteration gives the coefficients of
      words, in basis order; those not given are zero; [[]] gives coefficients, except past the end of
      the data of a dense tensor. *)
  Definition shows (ctxs : Z -> tbasis) (h : handle R) (t : tensor) : Prop :=
    (exists l, h_items R req ctxs h = Ok l /\
      (forall a b l1 l2, l = l1 ++ a :: l2 -> In b l2 -> fst a < fst b) /\
      (forall i x, In (i, x) l -> exists u, inside w N u = true /\ i = pos w u /\ x = t u) /\
      (forall u, inside w N u = true -> ~ In (pos w u) (map fst l) -> t u = r0)) /\
    (forall u, inside w N u = true -> h_dense R h = false \/ pos w u < h_dimension R h -> h_get R req ctxs h (pos w u) = Ok (t u)) /\
    (h_is_zero R req h = true <-> forall u, t u = r0).
  (** The same program, up to the storage of the objects it makes. *)
  Definition same_cmd (c c' : cmd R) : Prop :=
    match c, c' with
    | New _ x k _ ks data, New _ x' k' _ ks' data' => x = x' /\ k = k' /\ ks = ks' /\ data = data'
    | New _ _ _ _ _ _, _ => False
    | _, _ => c = c'
    end.
  Definition krun (p : list (cmd R)) (e : kenv) : kenv := fold_left (fun e k => kstep k e) p e.
End Spec.
(** The scalars are a Q-algebra with decidable equality; context [c0] has width w and depth at least 1,
    small enough for its words to fit packed keys and 64-bit sizes. *)
Definition setting (R : qalg) (req : R -> R -> bool) (w N : Z) (ctxs : Z -> tbasis) (c0 : Z) : Prop :=
  (forall x y, req x y = true <-> x = y) /\ (r1 : R) <> r0 /\ packs w N /\ sized w N /\ 1 <= N /\ KeyModel.tensor_basis w N = Ok (ctxs c0).
