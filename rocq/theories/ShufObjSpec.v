(** What a program over tensor and shuffle tensor objects should compute, and which programs the
    theorems cover. *)
From Verif Require Export ShufModel LhSpec Shuffle.
Open Scope Z_scope.

Section Spec.
  Variable R : qalg.
  Notation tensor := (tens R Z).
  (** Width and depth of each context of the process. *)
  Variables width depth : Z -> Z.
  Notation dn c := (Z.to_nat (depth c)).
  (** Half of the shuffle product: the first letter comes from the left factor. *)
  Definition half (a b : tensor) : tensor := fun s => match s with [] => r0 | x :: s' => shuf (dl x a) b s' end.

  (** An object: its context and algebra, its storage, the tensor it stands for. *)
  Record tobj := mkT { t_ctx : Z; t_free : bool; t_kind : kind; t_val : tensor }.
  Definition tenv := Z -> option tobj.
  Definition tset (e : tenv) (x : Z) (o : tobj) : tenv := fun y => if y =? x then Some o else e y.
  Definition tstart : tenv := fun _ => None.
  Definition on1 (e : tenv) (x y : Z) (k : kind -> kind) (f : tobj -> tensor) : tenv :=
    match e y with Some a => tset e x (mkT (t_ctx a) (t_free a) (k (t_kind a)) (f a)) | None => e end.
  Definition on2 (e : tenv) (x y z : Z) (k : kind -> kind) (f : tobj -> tobj -> tensor) : tenv :=
    match e y, e z with Some a, Some b => tset e x (mkT (t_ctx a) (t_free a) (k (t_kind a)) (f a b)) | _, _ => e end.
  (** Truncated at the depth of the context of [a]. *)
  Definition cut (a : tobj) (f : tensor) : tensor := trunc R (width (t_ctx a)) (dn (t_ctx a)) f.
  Definition tstep (k : scmd R) (e : tenv) : tenv :=
    match k with
    | SNew _ x c free dense keys data =>
        tset e x (mkT c free (if dense then KDense else KSparse) (trunc R (width c) (dn c) (fun u => given R (width c) (dn c) keys data (pos (width c) u))))
    | SLin _ x (LNeg _) y => on1 e x y (fun k => k) (fun a u => ropp (t_val a u))
    | SLin _ x (LSmul _ s) y => on1 e x y (fun k => k) (fun a u => rmul (t_val a u) s)
    | SLin2 _ x LAdd y z => on2 e x y z fresh (fun a b u => radd (t_val a u) (t_val b u))
    | SLin2 _ x LSub y z => on2 e x y z fresh (fun a b u => rsub (t_val a u) (t_val b u))
    | STimes _ x y z => on2 e x y z fresh (fun a b => cut a (if t_free a then conv (t_val a) (t_val b) else shuf (t_val a) (t_val b)))
    | SFn _ FShuffle x y z => on2 e x y z cleared (fun a b => cut a (shuf (t_val a) (t_val b)))
    | SFn _ FHalf x y z => on2 e x y z cleared (fun a b => cut a (half (t_val a) (t_val b)))
    end.
  Definition trun (p : list (scmd R)) (e : tenv) : tenv := fold_left (fun e k => tstep k e) p e.

  (** The result of one of the two functions, stored densely, is used in a dense [+] or [-] only if it is not zero. *)
  Definition solid (a : tobj) : Prop := t_kind a <> KCleared \/ exists u, t_val a u <> r0.
  (** Operands exist; operators get operands of one context and one algebra; the functions get operands of
      one width, the right one of no smaller depth; shuffle products are truncated at 33 letters or fewer. *)
  Definition smay (good : Z -> Prop) (k : scmd R) (e : tenv) : Prop :=
    match k with
    | SNew _ x c free dense keys data => good c /\ match keys with None => True | Some ks => length ks = length data /\ Forall (fun i => 0 <= i < words_below (width c) (S (dn c))) ks end
    | SLin _ x _ y => e y <> None
    | SLin2 _ x _ y z => exists a b, e y = Some a /\ e z = Some b /\ t_ctx a = t_ctx b /\ t_free a = t_free b /\ (kdense (t_kind a) = true -> solid a /\ solid b)
    | STimes _ x y z => exists a b, e y = Some a /\ e z = Some b /\ t_ctx a = t_ctx b /\ t_free a = t_free b /\ (t_free a = false -> depth (t_ctx a) <= 33)
    | SFn _ _ x y z => exists a b, e y = Some a /\ e z = Some b /\ width (t_ctx a) = width (t_ctx b) /\ depth (t_ctx a) <= depth (t_ctx b) /\ depth (t_ctx a) <= 33
    end.
  Fixpoint scovered (good : Z -> Prop) (p : list (scmd R)) (e : tenv) : Prop :=
    match p with [] => True | k :: p => smay good k e /\ scovered good p (tstep k e) end.
  (** An object shows what is expected of it. *)
  Definition handle_of (o : sobj R) : handle R := Some (mkImpl (so_ctx R o) (so_data R o)).
  Definition sees (req : R -> R -> bool) (ctxs : Z -> tbasis) (o : sobj R) (t : tobj) : Prop :=
    so_ctx R o = t_ctx t /\ so_free R o = t_free t /\ h_dense R (handle_of o) = kdense (t_kind t) /\
    shows R (width (t_ctx t)) (dn (t_ctx t)) req ctxs (handle_of o) (t_val t).
End Spec.
(** A context of the process: width, depth at least 1, small enough for packed keys and 64-bit sizes. *)
Definition context (width depth : Z -> Z) (ctxs : Z -> tbasis) (c : Z) : Prop :=
  packs (width c) (depth c) /\ sized (width c) (depth c) /\ 1 <= depth c /\ KeyModel.tensor_basis (width c) (depth c) = Ok (ctxs c).
