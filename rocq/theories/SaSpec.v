(** What programs of scalar arrays do.  There is no memory management here: regions of elements stay for
    ever; a region is alive as long as it was given by the caller or some array owns it. *)
From Verif Require Export SaModel.
Open Scope nat_scope.

Section Spec.
  Variables T V : Type.
  Variable zero : T -> V.

  (** Elements of one type; [rg_given]: memory of the caller *)
  Record region := mkRegion { rg_given : bool; rg_ty : T; rg_vals : list V }.
  Inductive access := AConst | AMut | AOwn.
  (** An array: nothing, or [n] elements of a region from [off] on; nowhere if empty or moved away *)
  Inductive array := Nothing | Array (obj : bool) (t : T) (k : access) (place : option (nat * nat)) (n : nat).
  Record world := mkWorld { regions : list region; arrays : list (option array) }.

  Definition owns (r : nat) (a : option array) : bool :=
    match a with Some (Array _ _ AOwn (Some (r', _)) _) => Nat.eqb r r' | _ => false end.
  Definition alive (w : world) (r : nat) : Prop :=
    exists g, nth_error (regions w) r = Some g /\ (rg_given g = true \/ exists x a, nth_error (arrays w) x = Some a /\ owns r a = true).

  Definition is (w : world) (x : nat) (a : array) : Prop := nth_error (arrays w) x = Some (Some a).
  Definition with_new (w : world) (a : array) : world := mkWorld (regions w) (arrays w ++ [Some a]).
  Definition with_array (w : world) (x : nat) (a : option array) : world := mkWorld (regions w) (put x a (arrays w)).
  (** the elements of a region, from [off] on *)
  Definition elements (w : world) (r off n : nat) (l : list V) : Prop :=
    exists g, nth_error (regions w) r = Some g /\ l = firstn n (skipn off (rg_vals g)).

  (** [does w c w' o]: the command [c], rightly used, leads to [w'] and replies [o].  Rightly used:
      arrays that exist; elements only of regions alive and of arrays that have not been moved away;
      memory of the caller as it is; copy assignment only from arrays that own their elements and are not
      moved away, or from Nothing. *)
  Inductive does (w : world) : cmd T V -> world -> reply V -> Prop :=
  | D_null : does w (CNull T V) (with_new w Nothing) (RDone V)
  | D_alloc t n : 0 < n -> does w (CAlloc T V t n) (mkWorld (regions w ++ [mkRegion false t (repeat (zero t) n)]) (arrays w ++ [Some (Array true t AOwn (Some (length (regions w), 0)) n)])) (RDone V)
  | D_empty t : does w (CAlloc T V t 0) (with_new w (Array true t AConst None 0)) (RDone V)
  | D_memory obj const r off n g : nth_error (regions w) r = Some g -> rg_given g = true -> off + n <= length (rg_vals g) ->
      does w (CBorrowMem T V obj const (rg_ty g) r off n) (with_new w (Array obj (rg_ty g) (if const then AConst else AMut) (Some (r, off)) n)) (RDone V)
  (** A copy shares the elements. *)
  | D_copy x a : is w x a -> does w (CCopy T V x) (with_new w a) (RDone V)
  (** The array moved from is nowhere. *)
  | D_move_nothing x : is w x Nothing -> does w (CMove T V x) (with_new w Nothing) (RDone V)
  | D_move x obj t k p n : is w x (Array obj t k p n) -> does w (CMove T V x) (with_new (with_array w x (Some (Array obj t k None n))) (Array obj t k p n)) (RDone V)
  | D_drop x a : is w x a -> does w (CDrop T V x) (with_array w x None) (RDone V)
  (** Copy assignment: new elements, equal to the others' *)
  | D_assign_self x a : is w x a -> does w (CAssign T V x x) w (RDone V)
  | D_assign_nothing x y a : is w x a -> is w y Nothing -> does w (CAssign T V x y) w (RDone V)
  | D_assign x y a obj t r off n l : x <> y -> is w x a -> is w y (Array obj t AOwn (Some (r, off)) n) -> elements w r off n l ->
      does w (CAssign T V x y) (mkWorld (regions w ++ [mkRegion false t l]) (put x (Some (Array obj t AOwn (Some (length (regions w), 0)) n)) (arrays w))) (RDone V)
  (** Move assignment takes the elements; arrays that own nothing keep theirs. *)
  | D_move_self x a : is w x a -> does w (CMoveAssign T V x x) w (RDone V)
  | D_take x y a obj t p n : x <> y -> is w x a -> is w y (Array obj t AOwn p n) -> does w (CMoveAssign T V x y) (with_array (with_array w x (Some (Array obj t AOwn p n))) y (Some (Array obj t AOwn None n))) (RDone V)
  | D_take_view x y a b : x <> y -> is w x a -> is w y b -> (forall obj t p n, b <> Array obj t AOwn p n) -> does w (CMoveAssign T V x y) (with_array w x (Some b)) (RDone V)
  | D_get x i obj t k r off n g v : is w x (Array obj t k (Some (r, off)) n) -> alive w r -> i < n -> nth_error (regions w) r = Some g -> nth_error (rg_vals g) (off + i) = Some v ->
      does w (CGet T V x i) w (RValue V v)
  | D_get_beyond x i obj t k p n : is w x (Array obj t k p n) -> n <= i -> does w (CGet T V x i) w (RError V)
  | D_set x i v obj t k r off n g : is w x (Array obj t k (Some (r, off)) n) -> k <> AConst -> alive w r -> i < n -> nth_error (regions w) r = Some g ->
      does w (CSet T V x i v) (mkWorld (put r (mkRegion (rg_given g) (rg_ty g) (put (off + i) v (rg_vals g))) (regions w)) (arrays w)) (RDone V)
  | D_set_const x i v obj t p n : is w x (Array obj t AConst p n) -> does w (CSet T V x i v) w (RError V)
  | D_set_beyond x i v obj t k p n : is w x (Array obj t k p n) -> n <= i -> does w (CSet T V x i v) w (RError V)
  (** Slices and borrowed arrays share the elements. *)
  | D_slice const x b e obj t k p n : is w x (Array obj t k p n) -> b <= e <= n -> (k = AOwn -> p <> None) -> (const = true \/ k <> AConst) ->
      does w (CSlice T V const x b e) (with_new w (Array obj t (if const then AConst else AMut) (match p with Some (r, off) => Some (r, off + b) | None => None end) (e - b))) (RDone V)
  | D_slice_beyond const x b e obj t k p n : is w x (Array obj t k p n) -> n < e -> does w (CSlice T V const x b e) w (RError V)
  | D_slice_gone const x b e obj t n : is w x (Array obj t AOwn None n) -> does w (CSlice T V const x b e) w (RError V)
  | D_slice_const x b e obj t p n : is w x (Array obj t AConst p n) -> does w (CSlice T V false x b e) w (RError V)
  | D_borrow const x obj t k p n : is w x (Array obj t k p n) -> (k = AOwn -> p <> None) -> (const = true \/ k <> AConst) ->
      does w (CBorrow T V const x) (with_new w (Array obj t (if const then AConst else AMut) p n)) (RDone V)
  | D_borrow_const x obj t p n : is w x (Array obj t AConst p n) -> does w (CBorrow T V false x) w (RError V)
  | D_borrow_gone const x obj t n : is w x (Array obj t AOwn None n) -> does w (CBorrow T V const x) w (RError V).
  Inductive does_all : world -> list (cmd T V) -> world -> list (reply V) -> Prop :=
  | DA_nil w : does_all w [] w []
  | DA_cons w c w' o l w'' os : does w c w' o -> does_all w' l w'' os -> does_all w (c :: l) w'' (o :: os).

  (** Memory of the caller, before the program *)
  Definition start (given : list (T * list V)) : world := mkWorld (map (fun g => mkRegion true (fst g) (snd g)) given) [].
  Definition start_memory (given : list (T * list V)) : state T V := (map (fun g => Some (mkBlock T V (fst g) (snd g) None)) given, []).
  (** Memory holds exactly the regions alive. *)
  Definition holds (w : world) (m : mem T V) : Prop :=
    length m = length (regions w) /\
    forall r g, nth_error (regions w) r = Some g ->
      (alive w r -> exists c, nth_error m r = Some (Some (mkBlock T V (rg_ty g) (rg_vals g) c))) /\ (~ alive w r -> nth_error m r = Some None).
  (** Lending memory of the caller for writing *)
  Definition lends_writable (r : nat) (c : cmd T V) : Prop := match c with CBorrowMem _ _ _ false _ r' _ _ => r' = r | _ => False end.
End Spec.
