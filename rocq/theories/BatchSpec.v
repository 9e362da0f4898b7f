(** What a call on arrays with batch dimensions should do, without loops or odometers. *)
From Verif Require Export BatchModel.
Open Scope Z_scope.

(** [I] is a valid index into an array of shape [sh]. *)
Definition in_box (sh I : list Z) : Prop := Forall2 (fun n i => 0 <= i < n) sh I.
(** Cell at which the one-dimensional piece of [a] with batch index [I] starts. *)
Definition start (sz : Z) (a : nparr) (I : list Z) : Z := (np_data a + dot I (np_strides a)) / sz.
(** An array of batch shape [sh] whose last dimension has [n] consecutive elements, inside a
    block of [len] cells. *)
Record usable (sz : Z) (sh : list Z) (a : nparr) (n len : Z) : Prop := {
  us_shape : np_shape a = sh ++ [n];
  us_strides : exists bs, np_strides a = bs ++ [sz] /\ length bs = length sh;
  us_cells : forall I, in_box sh I ->
    (sz | np_data a + dot I (np_strides a)) /\ 0 <= start sz a I /\ start sz a I + n <= len }.
(** The pieces do not overlap. *)
Definition separate (sz : Z) (sh : list Z) (a : nparr) (n : Z) : Prop :=
  forall I J, in_box sh I -> in_box sh J -> I <> J -> start sz a I + n <= start sz a J \/ start sz a J + n <= start sz a I.
(** A piece of memory on its own. *)
Definition piece {R} (b : buf R) (c n : Z) : buf R := mkbuf n (fun k => bat b (c + k)).

(** [r] is memory [ob] after each piece [I] of [out] was replaced by [f I]. *)
Definition batch_result {R} (sz : Z) (sh : list Z) (out : nparr) (n : Z) (ob r : buf R) (f : list Z -> buf R -> Prop) : Prop :=
  blen r = blen ob /\
  (forall I, in_box sh I -> exists p, f I p /\ blen p = n /\ forall k, 0 <= k < n -> bat r (start sz out I + k) = bat p k) /\
  (forall k, (forall I, in_box sh I -> ~ (start sz out I <= k < start sz out I + n)) -> bat r k = bat ob k).

(** Position of an index in row-major order. *)
Fixpoint ravel (sh I : list Z) : Z :=
  match sh, I with m :: sh', i :: I' => i * zprod sh' + ravel sh' I' | _, _ => 0 end.
(** A one-dimensional array covering its block. *)
Definition vec (sz n : Z) : nparr := mkNp 0 [n] [sz].

(** Stacks of tensors (arrays in C order). *)
Definition stack_ok {R} (a : stack R) : Prop :=
  Forall (fun n => 0 <= n) (s_shape a) /\ 0 <= s_dim a /\ blen (s_mem a) = zprod (s_shape a) * s_dim a.
(** The tensor with batch index [I]. *)
Definition s_at {R} (a : stack R) (I : list Z) : dtensor R :=
  mkT (piece (s_mem a) (ravel (s_shape a) I * s_dim a) (s_dim a)) (s_basis a).
Definition same_tensor {R} (p q : dtensor R) : Prop :=
  t_basis p = t_basis q /\ blen (t_data p) = blen (t_data q) /\ forall k, 0 <= k < blen (t_data q) -> bat (t_data p) k = bat (t_data q) k.
(** [s_op] on stacks is [op] on every item. *)
Definition itemwise {R} (sh : list Z) (op : list Z -> outcome (dtensor R)) (res : outcome (stack R)) : Prop :=
  (forall I, in_box sh I -> exists t, op I = Ok t) ->
  exists r, res = Ok r /\ s_shape r = sh /\ stack_ok r /\ forall I, in_box sh I -> exists t, op I = Ok t /\ same_tensor t (s_at r I).
(** All items are tensors of width [w] and depth [D]. *)
Definition tensor_stack {R} (w : Z) (D : nat) (a : stack R) : Prop :=
  stack_ok a /\ s_basis a = tensor_basis w (Z.of_nat D) /\ s_dim a = words_below w (S D).
