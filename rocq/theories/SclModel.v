(** Scalars: scalars/include/roughpy/scalars/scalar.h:110-489, 569-596,
    scalars/src/scalar.cpp:46-363, 403-462, scalars/src/scalar/arithmetic.cpp,
    scalars/src/scalar/comparison.cpp:298-312, scalars/src/scalar/type_promotion.cpp:20-180.

    Types are the integers of 32 and 64 bits, float, double, rationals and polynomials; other
    sizes, half floats and scalars made from interfaces are left out.  Values and what is done
    with them are parameters.  Memory is a list of cells, each holding a value of a type or,
    once freed, nothing. *)
From Coq Require Export ZArith List Bool Lia.
From Verif Require Export Outcome.
Export ListNotations.
Open Scope Z_scope.

Inductive sty := I32 | I64 | F32 | F64 | SRat | SPol.
Definition sty_eq_dec (a b : sty) : {a = b} + {a <> b}.
Proof. decide equality. Defined.
(** scalar.h:110-140 [content_type_of]: stored in the scalar itself *)
Definition inline (t : sty) : bool := match t with SRat | SPol => false | _ => true end.
(** type_promotion.cpp:20-143 [compute_type_promotion]: the left operand of type [d], the right
    one of type [s] *)
Definition promote (d s : sty) : sty :=
  match d with
  | I32 => s
  | I64 => match s with I32 => I64 | _ => s end
  | F32 => match s with I32 | I64 => F32 | _ => s end
  | F64 => match s with SRat | SPol => s | _ => F64 end
  | SRat => match s with SPol => SPol | _ => SRat end
  | SPol => SPol
  end.
Inductive sop := Add | Sub | Mul.

Section Scl.
  Variable V : Type.
  (** scalar_convert_copy for one value; [None] where it returns false *)
  Variable conv : sty -> sty -> V -> option V.
  (** T += T and so on, of two values (that a value may be added to itself in place is left out) *)
  Variable op : sop -> sty -> V -> V -> V.
  (** T /= R (arithmetic.cpp:238-269) *)
  Variable quot : sty -> V -> sty -> V -> outcome V.
  (** T(0) *)
  Variable zero : sty -> V.
  (** all 8 bytes that hold the value are 0 *)
  Variable bits0 : sty -> V -> bool.
  (** comparison.cpp:46-60 [is_zero]; 280-296 [eq_impl] *)
  Variable is0 : sty -> V -> bool.
  Variable eqv : sty -> V -> sty -> V -> bool.

  Definition cell : Type := option (sty * V).
  Definition mem : Type := list cell.
  (** What a scalar holds: the value, a pointer to it, or a pointer to memory of its own. *)
  Inductive content :=
  | CTrivial (v : V) | CConstTrivial (v : V) | COpaque (p : option nat) | CConstOpaque (p : option nat) | COwned (p : option nat).
  (** [Null] has no type.  [obj]: the type is given by a type object, not a description. *)
  Inductive scalar := Null | Scl (obj : bool) (t : sty) (c : content).

  Fixpoint put (p : nat) (c : cell) (m : mem) : mem := match p, m with O, _ :: m' => c :: m' | S p', x :: m' => x :: put p' c m' | _, [] => [] end.
  (** the value of type [t] at an address; none there, or one of another type: undefined *)
  Definition load (m : mem) (t : sty) (p : nat) : outcome V :=
    match nth_error m p with Some (Some (t', v)) => if sty_eq_dec t t' then Ok v else UB | _ => UB end.
  Definition store (m : mem) (t : sty) (p : nat) (v : V) : outcome mem := let! _ := load m t p in Ok (put p (Some (t, v)) m).
  (** scalar.h:415-419 *)
  Definition fast_is_zero (s : scalar) : bool :=
    match s with
    | Null => true
    | Scl _ t (CTrivial v) | Scl _ t (CConstTrivial v) => bits0 t v
    | Scl _ _ (COpaque p) | Scl _ _ (CConstOpaque p) | Scl _ _ (COwned p) => match p with None => true | Some _ => false end
    end.
  (** scalar.cpp:456-462 [type_info]: an empty word counts as a type object at address 0 *)
  Definition type_info (s : scalar) : outcome sty := match s with Null => UB | Scl _ t _ => Ok t end.
  (** scalar.cpp:383-398 [pointer], read as type [t] *)
  Definition value (m : mem) (t : sty) (s : scalar) : outcome V :=
    match s with
    | Null => UB
    | Scl _ t' (CTrivial v) | Scl _ t' (CConstTrivial v) => if sty_eq_dec t t' then Ok v else UB
    | Scl _ _ (COpaque (Some p)) | Scl _ _ (CConstOpaque (Some p)) | Scl _ _ (COwned (Some p)) => load m t p
    | _ => UB
    end.
  (** scalar.cpp:400-437 [mut_pointer], written as type [t] *)
  Definition write (m : mem) (t : sty) (s : scalar) (v : V) : outcome (mem * scalar) :=
    match s with
    | Null => Throw
    | Scl o t' (CTrivial _) => if sty_eq_dec t t' then Ok (m, Scl o t' (CTrivial v)) else UB
    | Scl _ _ (COpaque (Some p)) | Scl _ _ (COwned (Some p)) => let! m' := store m t p v in Ok (m', s)
    | Scl _ _ (COpaque None) | Scl _ _ (COwned None) => Throw
    | Scl _ _ (CConstTrivial _) | Scl _ _ (CConstOpaque _) => Throw
    end.
  (** scalar.cpp:46-61 [allocate_data] and what follows it: a cell with a value *)
  Definition allocate (m : mem) (obj : bool) (t : sty) (v : V) : outcome (mem * scalar) :=
    if obj then Ok (m ++ [Some (t, v)], Scl true t (COwned (Some (length m)))) else UB.
  (** scalar.cpp:93-102 Scalar(TypeInfo) *)
  Definition make (m : mem) (t : sty) (v : V) : outcome (mem * scalar) :=
    if inline t then Ok (m, Scl false t (CTrivial v)) else allocate m true t v.
  (** scalar.cpp:245-269 ~Scalar *)
  Definition destroy (m : mem) (s : scalar) : outcome mem :=
    match s with
    | Scl o t (COwned (Some p)) => if o then let! _ := load m t p in Ok (put p None m) else UB
    | _ => Ok m
    end.
  (** The value converted; [d] stays where the conversion fails (nobody looks). *)
  Definition convert_or (d : V) (from to : sty) (v : V) : V := match conv from to v with Some w => w | None => d end.
  (** scalar.cpp:143-170 [copy_from_opaque_pointer]; a missing pointer is read *)
  Definition copy_pointer (m : mem) (o : bool) (t : sty) (p : option nat) : outcome (mem * scalar) :=
    match p with
    | None => UB
    | Some p =>
        let! v := load m t p in
        if inline t then Ok (m, Scl o t (CTrivial v)) else allocate m o t (convert_or (zero t) t t v)
    end.
  Definition copy_owned (m : mem) (o : bool) (t : sty) (p : option nat) : outcome (mem * scalar) :=
    match p with None => UB | Some p => let! v := load m t p in allocate m o t (convert_or (zero t) t t v) end.
  (** scalar.cpp:172-210 Scalar(const Scalar&) *)
  Definition copy (m : mem) (s : scalar) : outcome (mem * scalar) :=
    match s with
    | Null => Ok (m, Null)
    | Scl o t c =>
        if fast_is_zero s then
          Ok (m, Scl o t match c with CTrivial _ => CTrivial (zero t) | CConstTrivial _ => CConstTrivial (zero t) | COpaque _ => COpaque None | CConstOpaque _ => CConstOpaque None | COwned _ => COwned None end)
        else match c with
          | CTrivial _ | CConstTrivial _ => Ok (m, s)
          | COpaque p | CConstOpaque p => copy_pointer m o t p
          | COwned p => copy_owned m o t p
          end
    end.
  (** scalar.cpp:271-325 operator=(const Scalar&), of another scalar *)
  Definition assign (m : mem) (s other : scalar) : outcome (mem * scalar) :=
    if fast_is_zero s then
      match other with
      | Null => UB
      | Scl o t (CTrivial v) => Ok (m, Scl o t (CTrivial v))
      | Scl o t (CConstTrivial v) => Ok (m, Scl o t (CConstTrivial v))
      | Scl o t (COpaque p) | Scl o t (CConstOpaque p) => copy_pointer m o t p
      | Scl o t (COwned p) => copy_owned m o t p
      end
    else
      let! t := type_info s in
      let! t' := type_info other in
      let! v := value m t' other in
      let! old := value m t s in
      write m t s (convert_or old t' t v).
  (** scalar.h:358-406 operator=(const T&) with the int 0 *)
  Definition assign_zero (m : mem) (s : scalar) : outcome (mem * scalar) :=
    match s with
    | Null => Ok (m, Scl false I32 (CTrivial (zero I32)))
    | Scl o t c =>
        match conv I32 t (zero I32) with
        | None => Throw
        | Some z =>
            match c with
            | CTrivial _ => Ok (m, Scl o t (CTrivial z))
            | CConstTrivial _ => Ok (m, Scl o t (CConstTrivial z))
            | COpaque (Some p) | COwned (Some p) => let! m' := store m t p z in Ok (m', s)
            | COpaque None | COwned None => UB
            | CConstOpaque _ => Throw
            end
        end
    end.
  (** scalar.h:483-489 *)
  Definition change_type (m : mem) (s : scalar) (t' : sty) : outcome (mem * scalar) :=
    let! t := type_info s in
    let! v := value m t s in
    let! r := make m t' (convert_or (zero t') t t' v) in
    let! m' := destroy (fst r) s in
    Ok (m', snd r).
  (** type_promotion.cpp:158-180 [compute_dest_type] *)
  Definition dest_type (s : scalar) (t t' : sty) : sty :=
    match s with Scl _ _ (COpaque _) | Scl _ _ (CConstOpaque _) => t | _ => promote t t' end.
  (** arithmetic.cpp:135-155: the inner function; the temporary is a copy of the value *)
  Definition arith (o : sop) (m : mem) (s other : scalar) : outcome (mem * scalar) :=
    let! t := type_info s in
    let! t' := type_info other in
    let! w := value m t' other in
    let! _ := match s with Scl _ _ (CConstTrivial _) | Scl _ _ (CConstOpaque _) | Scl _ _ (COpaque None) | Scl _ _ (COwned None) => Throw | _ => Ok tt end in
    let! v := value m t s in
    write m t s (op o t v (if sty_eq_dec t t' then w else convert_or (zero t) t' t w)).
  (** arithmetic.cpp:157-178: the outer one *)
  Definition inplace (o : sop) (m : mem) (s other : scalar) : outcome (mem * scalar) :=
    let! t := type_info s in
    let! t' := type_info other in
    if sty_eq_dec t t' then arith o m s other
    else
      let out := dest_type s t t' in
      let! r := if sty_eq_dec out t then Ok (m, s) else change_type m s out in
      arith o (fst r) (snd r) other.
  (** arithmetic.cpp:182-212 operator+=, -=, *= *)
  Definition op_assign (o : sop) (m : mem) (s other : scalar) : outcome (mem * scalar) :=
    match o with
    | Mul => if fast_is_zero s || fast_is_zero other then assign_zero m s else inplace o m s other
    | _ => if fast_is_zero other then Ok (m, s) else inplace o m s other
    end.
  (** scalar.h:569-589 operator+, -, * *)
  Definition binary (o : sop) (m : mem) (a b : scalar) : outcome (mem * scalar) :=
    let! r := copy m a in op_assign o (fst r) (snd r) b.
  (** arithmetic.cpp:271-318 operator/=.  The denominator is read where it is; the numerator is
      written as what it was before its type changed. *)
  Definition div_assign (m : mem) (s other : scalar) : outcome (mem * scalar) :=
    if fast_is_zero other then Throw
    else
      let! t := type_info s in
      let! t' := type_info other in
      let! w := value m t' other in
      let! r := if sty_eq_dec t t' then Ok (m, s) else change_type m s (dest_type s t t') in
      let! _ := match snd r with Scl _ _ (CConstTrivial _) | Scl _ _ (CConstOpaque _) | Scl _ _ (COpaque None) | Scl _ _ (COwned None) => Throw | _ => Ok tt end in
      let! v := value (fst r) t (snd r) in
      let! q := quot t v t' w in
      write (fst r) t (snd r) q.
  (** arithmetic.cpp:51-99 operator-: the function that should negate is empty *)
  Definition negate (m : mem) (s : scalar) : outcome (mem * scalar) :=
    let! t := type_info s in
    if fast_is_zero s then Ok (m, Null)
    else match s with
      | Null => UB
      | Scl _ _ (CTrivial _) | Scl _ _ (CConstTrivial _) => Ok (m, Scl false t (CTrivial (zero t)))
      | _ => allocate m true t (zero t)
      end.
  (** scalar.cpp:338-359 *)
  Definition is_zero (m : mem) (s : scalar) : outcome bool :=
    if fast_is_zero s then Ok true
    else match s with
      | Null => Ok true
      | Scl _ t (CTrivial v) | Scl _ t (CConstTrivial v) => Ok (bits0 t v)
      | Scl _ t _ => let! v := value m t s in Ok (is0 t v)
      end.
  (** comparison.cpp:305-311 operator== *)
  Definition equal (m : mem) (a b : scalar) : outcome bool :=
    if fast_is_zero a then is_zero m b
    else if fast_is_zero b then is_zero m a
    else
      let! t := type_info a in let! v := value m t a in
      let! t' := type_info b in let! w := value m t' b in
      Ok (eqv t v t' w).

  (** Programs: scalars held in a list, memory of elements below, memory of scalars after it.
      An exception leaves everything as it was. *)
  Inductive cmd :=
  | DoView (const : bool) (t : sty) (p : nat)   (* a coefficient of an element (scalar_traits.h:37-83) *)
  | DoNumber (t : sty) (v : V)                  (* Scalar(const T&) of a number, scalar.h:247-264 *)
  | DoCopy (i : nat)
  | DoBinary (o : sop) (i j : nat)
  | DoAssignOp (o : sop) (i j : nat)
  | DoAssign (i j : nat)
  | DoDivide (i j : nat)
  | DoNegate (i : nat)
  | DoDrop (i : nat).
  Definition state : Type := mem * list scalar.
  Fixpoint set_at {A} (i : nat) (x : A) (l : list A) : list A := match i, l with O, _ :: l' => x :: l' | S i', y :: l' => y :: set_at i' x l' | _, [] => [] end.
  Definition recover (st : state) (o : outcome state) : outcome state := match o with Throw => Ok st | _ => o end.
  Definition step (st : state) (c : cmd) : outcome state :=
    let '(m, env) := st in
    let get i := nth i env Null in
    let push (r : outcome (mem * scalar)) := recover st (let! x := r in Ok (fst x, env ++ [snd x])) in
    let update i (r : outcome (mem * scalar)) := recover st (let! x := r in Ok (fst x, set_at i (snd x) env)) in
    match c with
    | DoView c t p => push (Ok (m, Scl true t (if c then CConstOpaque (Some p) else COpaque (Some p))))
    | DoNumber t v => if inline t then push (Ok (m, Scl false t (CTrivial v))) else UB
    | DoCopy i => push (copy m (get i))
    | DoBinary o i j => push (binary o m (get i) (get j))
    | DoAssignOp o i j => update i (op_assign o m (get i) (get j))
    | DoAssign i j => if (i =? j)%nat then Ok st else update i (assign m (get i) (get j))
    | DoDivide i j => update i (div_assign m (get i) (get j))
    | DoNegate i => push (negate m (get i))
    | DoDrop i => let! m' := destroy m (get i) in Ok (m', set_at i Null env)
    end.
  Fixpoint run (st : state) (l : list cmd) : outcome state := match l with [] => Ok st | c :: l => let! st' := step st c in run st' l end.
End Scl.
Arguments CTrivial {V}. Arguments CConstTrivial {V}. Arguments COpaque {V}. Arguments CConstOpaque {V}. Arguments COwned {V}.
Arguments Null {V}. Arguments Scl {V}. Arguments put {V}. Arguments load {V}. Arguments store {V}. Arguments fast_is_zero {V}. Arguments type_info {V}. Arguments value {V}. Arguments write {V}.
Arguments allocate {V}. Arguments make {V}. Arguments destroy {V}. Arguments convert_or {V}. Arguments copy_pointer {V}. Arguments copy_owned {V}. Arguments copy {V}. Arguments assign {V}.
Arguments assign_zero {V}. Arguments change_type {V}. Arguments dest_type {V}. Arguments arith {V}. Arguments inplace {V}. Arguments op_assign {V}. Arguments binary {V}. Arguments div_assign {V}.
Arguments negate {V}. Arguments is_zero {V}. Arguments equal {V}. Arguments step {V}. Arguments run {V}. Arguments recover {V}.
Arguments DoView {V}. Arguments DoNumber {V}. Arguments DoCopy {V}. Arguments DoBinary {V}. Arguments DoAssignOp {V}. Arguments DoAssign {V}. Arguments DoDivide {V}. Arguments DoNegate {V}. Arguments DoDrop {V}.
