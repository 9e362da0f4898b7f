(** What a user expects of scalars. *)
From Verif Require Export SclModel.
Open Scope Z_scope.

(** The common type of two: the later in int32, int64, float, double, rational, polynomial. *)
Definition rank (t : sty) : nat := match t with I32 => 0 | I64 => 1 | F32 => 2 | F64 => 3 | SRat => 4 | SPol => 5 end%nat.
Definition common (t t' : sty) : sty := if (rank t <? rank t')%nat then t' else t.

Section SclSpec.
  Variable V : Type.
  Notation mem := (mem V).
  Notation scalar := (scalar V).

  (** The first [n] cells belong to elements (their coefficients), the rest to scalars. *)
  Definition at_cell (m : mem) (t : sty) (p : nat) : Prop := exists v, nth_error m p = Some (Some (t, v)).
  (** A scalar without a type; one that holds its value; one that refers to a coefficient; one
      that has a cell of its own.  Constant inline scalars are never made. *)
  Definition good (n : nat) (m : mem) (s : scalar) : Prop :=
    match s with
    | Null => True
    | Scl _ t (CTrivial _) => inline t = true
    | Scl o t (COpaque (Some p)) | Scl o t (CConstOpaque (Some p)) => o = true /\ (p < n)%nat /\ at_cell m t p
    | Scl o t (COwned (Some p)) => o = true /\ (n <= p)%nat /\ at_cell m t p
    | _ => False
    end.
  (** The type and the value of a scalar. *)
  Definition holds (m : mem) (s : scalar) (t : sty) (v : V) : Prop :=
    match s with
    | Null => False
    | Scl _ t' (CTrivial w) | Scl _ t' (CConstTrivial w) => t' = t /\ w = v
    | Scl _ t' (COpaque (Some p)) | Scl _ t' (CConstOpaque (Some p)) | Scl _ t' (COwned (Some p)) => t' = t /\ nth_error m p = Some (Some (t, v))
    | _ => False
    end.
  Definition owned (s : scalar) : option nat := match s with Scl _ _ (COwned p) => p | _ => None end.
  (** The coefficient a scalar refers to. *)
  Definition target (s : scalar) : option nat := match s with Scl _ _ (COpaque p) | Scl _ _ (CConstOpaque p) => p | _ => None end.
  Definition constant (s : scalar) : Prop := match s with Scl _ _ (CConstTrivial _) | Scl _ _ (CConstOpaque _) => True | _ => False end.
  (** Nothing that was there before has changed, but for some cells. *)
  Definition unchanged (m m' : mem) (but : nat -> Prop) : Prop := forall p, (p < length m)%nat -> ~ but p -> nth_error m' p = nth_error m p.

  (** *** Sound memory: all scalars are good, no two own the same cell, every cell in use is a
      coefficient or owned, and coefficients are in use. *)
  Record sound_memory (n : nat) (m : mem) (env : list scalar) : Prop := {
    sm_good : Forall (good n m) env;
    sm_unique : forall i j p, owned (nth i env Null) = Some p -> owned (nth j env Null) = Some p -> i = j;
    sm_no_leak : forall p c, (n <= p)%nat -> nth_error m p = Some (Some c) -> exists i, owned (nth i env Null) = Some p;
    sm_elements : forall p, (p < n)%nat -> exists t, at_cell m t p }.

  (** *** Meaning of values: in some ring. *)
  Variable conv : sty -> sty -> V -> option V.
  Variable op : sop -> sty -> V -> V -> V.
  Variable zero : sty -> V.
  Variable bits0 is0 : sty -> V -> bool.
  Variable eqv : sty -> V -> sty -> V -> bool.
  Variable R : Type.
  Variable rop : sop -> R -> R -> R.
  Variable r0 : R.
  Variable den : sty -> V -> R.
  Record sound_values : Prop := {
    (* conversions keep the value where they succeed, and do succeed from a type to itself, to
       the common type of two, and for 0 *)
    sv_conv : forall t t' v w, conv t t' v = Some w -> den t' w = den t v;
    sv_self : forall t v, conv t t v <> None;
    sv_left : forall t t' v, conv t (common t t') v <> None;
    sv_right : forall t t' v, conv t' (common t t') v <> None;
    sv_zero_conv : forall t, conv I32 t (zero I32) <> None;
    sv_zero : forall t, den t (zero t) = r0;
    sv_bits : forall t v, bits0 t v = true -> den t v = r0;
    sv_op : forall o t v w, den t (op o t v w) = rop o (den t v) (den t w);
    sv_add0 : forall x, rop Add x r0 = x;
    sv_sub0 : forall x, rop Sub x r0 = x;
    sv_mul0 : forall x, rop Mul x r0 = r0 /\ rop Mul r0 x = r0 }.
  (** Comparison is that of the values, and only the value 0 has zero bits (there is no -0.0). *)
  Record sound_equal : Prop := {
    se_eqv : forall t v t' w, eqv t v t' w = true <-> den t v = den t' w;
    se_is0 : forall t v, is0 t v = true <-> den t v = r0;
    se_bits : forall t v, inline t = true -> bits0 t v = true <-> den t v = r0 }.
  (** *** Commands that are given scalars with a type, and coefficients that exist; division only
      by what needs no other type, of numbers that can be divided. *)
  Variable quot : sty -> V -> sty -> V -> outcome V.
  Definition typed (s : scalar) : Prop := s <> Null.
  Definition permitted (n : nat) (st : mem * list scalar) (c : cmd V) : Prop :=
    let '(m, env) := st in
    let get i := nth i env Null in
    match c with
    | DoView _ t p => (p < n)%nat /\ at_cell m t p
    | DoNumber t _ => inline t = true
    | DoCopy i => True
    | DoBinary _ i _ => typed (get i)
    | DoAssignOp _ i _ => (i < length env)%nat /\ typed (get i)
    | DoAssign i j => (i < length env)%nat /\ typed (get j)
    | DoDivide i j => (i < length env)%nat /\ typed (get i) /\ forall t v t' w, holds m (get i) t v -> holds m (get j) t' w -> common t t' = t /\
        forall x, x = v \/ x = convert_or conv (zero t) t t v -> quot t x t' w <> UB /\ quot t x t' w <> NoFuel
    | DoNegate i => typed (get i)
    | DoDrop i => True
    end.
  (** A condition on every step of a run. *)
  Fixpoint along (P : (mem * list scalar) -> cmd V -> Prop) (stp : (mem * list scalar) -> cmd V -> outcome (mem * list scalar)) (st : mem * list scalar) (l : list (cmd V)) : Prop :=
    match l with [] => True | c :: l => P st c /\ forall st', stp st c = Ok st' -> along P stp st' l end.

  (** The value of a scalar; one without a type counts as 0. *)
  Definition means (m : mem) (s : scalar) (y : R) : Prop := match s with Null => y = r0 | _ => exists t v, holds m s t v /\ y = den t v end.

  (** *** The ideal: coefficients, and scalars that are values or refer to coefficients. *)
  Inductive ideal := Val (y : R) | View (const : bool) (p : nat).
  Definition istate : Type := list R * list (option ideal).
  Definition ivalue (st : istate) (i : nat) : R := match nth i (snd st) None with None => r0 | Some (Val y) => y | Some (View _ p) => nth p (fst st) r0 end.
  Definition iwrite (st : istate) (i : nat) (y : R) : istate :=
    match nth i (snd st) None with
    | Some (View true _) => st
    | Some (View false p) => (set_at p y (fst st), snd st)
    | _ => (fst st, set_at i (Some (Val y)) (snd st))
    end.
  Definition ipush (st : istate) (x : option ideal) : istate := (fst st, snd st ++ [x]).
  Definition istep (st : istate) (c : cmd V) : istate :=
    match c with
    | DoView b _ p => ipush st (Some (View b p))
    | DoNumber t v => ipush st (Some (Val (den t v)))
    | DoCopy i => ipush st match nth i (snd st) None with None => None | _ => Some (Val (ivalue st i)) end
    | DoBinary o i j => ipush st (Some (Val (rop o (ivalue st i) (ivalue st j))))
    | DoAssignOp o i j => iwrite st i (rop o (ivalue st i) (ivalue st j))
    | DoAssign i j => iwrite st i (ivalue st j)
    | DoDrop i => (fst st, set_at i None (snd st))
    | DoDivide _ _ | DoNegate _ => st
    end.
  (** Programs that do not divide or negate, where what is written into a coefficient, or
      assigned to a scalar, can be held by its type. *)
  Definition tracked (st : mem * list scalar) (c : cmd V) : Prop :=
    let '(m, env) := st in
    let fits i j := forall t v t' w, holds m (nth i env Null) t v -> holds m (nth j env Null) t' w -> common t t' = t in
    match c with
    | DoAssignOp _ i j => target (nth i env Null) = None \/ fits i j
    | DoAssign i j => fits i j
    | DoDivide _ _ | DoNegate _ => False
    | _ => True
    end.
End SclSpec.
Arguments at_cell {V}. Arguments good {V}. Arguments holds {V}. Arguments owned {V}. Arguments target {V}. Arguments constant {V}. Arguments unchanged {V}. Arguments sound_memory {V}.
Arguments sound_values {V} conv op zero bits0 {R}. Arguments sound_equal {V} bits0 is0 eqv {R}. Arguments permitted {V}. Arguments along {V}. Arguments means {V R}. Arguments tracked {V}.
Arguments istep {V R}. Arguments Val {R}. Arguments View {R}. Arguments ivalue {R}. Arguments iwrite {R}. Arguments ipush {R}. Arguments typed {V}.
Arguments sv_conv {V conv op zero bits0 R rop r0 den}. Arguments sv_self {V conv op zero bits0 R rop r0 den}. Arguments sv_left {V conv op zero bits0 R rop r0 den}. Arguments sv_right {V conv op zero bits0 R rop r0 den}. Arguments sv_zero_conv {V conv op zero bits0 R rop r0 den}. Arguments sv_zero {V conv op zero bits0 R rop r0 den}. Arguments sv_bits {V conv op zero bits0 R rop r0 den}. Arguments sv_op {V conv op zero bits0 R rop r0 den}. Arguments sv_add0 {V conv op zero bits0 R rop r0 den}. Arguments sv_sub0 {V conv op zero bits0 R rop r0 den}. Arguments sv_mul0 {V conv op zero bits0 R rop r0 den}. 
Arguments se_eqv {V bits0 is0 eqv R r0 den}. Arguments se_is0 {V bits0 is0 eqv R r0 den}. Arguments se_bits {V bits0 is0 eqv R r0 den}. 
