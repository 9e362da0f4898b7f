(** Property theorems C73, C74: the Scalar class. *)
From Verif Require Import SclModel SclSpec SclOps SclVal SclRef SclTop.
Open Scope Z_scope.

(** a + b, a - b, a * b: the value in the ring, held by the result itself, in the common type of
    the operands unless one of them is 0; nothing else changes. *)
Theorem C73_binary : forall (V : Type) conv op zero bits0 (R : Type) rop r0 den n o (m : mem V) a b t v y,
  @sound_values V conv op zero bits0 R rop r0 den -> (n <= length m)%nat -> good n m a -> good n m b -> holds m a t v -> means r0 den m b y ->
  exists m' r t2 v2, binary conv op zero bits0 o m a b = Ok (m', r) /\ holds m' r t2 v2 /\ den t2 v2 = rop o (den t v) y /\
    (forall t' w, holds m b t' w -> (t2 = t \/ t2 = common t t') /\ (den t v <> r0 -> den t' w <> r0 -> t2 = common t t')) /\
    good n m' r /\ target r = None /\ unchanged m m' (fun _ => False).
Proof. exact top_binary. Qed.
Print Assumptions C73_binary.
(** a += b and so on: the value goes where a is.  A scalar that refers to a coefficient changes
    it, keeps its type and still refers to it. *)
Theorem C73_assign_op : forall (V : Type) conv op zero bits0 (R : Type) rop r0 den n o (m : mem V) s other t v y,
  @sound_values V conv op zero bits0 R rop r0 den -> (n <= length m)%nat -> good n m s -> good n m other ->
  s = other \/ (forall p, owned s = Some p -> owned other <> Some p) -> holds m s t v -> means r0 den m other y -> ~ constant s ->
  target s = None \/ (forall t' w, holds m other t' w -> common t t' = t) ->
  exists m' s' t2 v2, op_assign conv op zero bits0 o m s other = Ok (m', s') /\ holds m' s' t2 v2 /\ den t2 v2 = rop o (den t v) y /\
    (forall t' w, holds m other t' w -> (t2 = t \/ t2 = common t t') /\ (target s <> None -> t2 = t) /\ (target s = None -> den t v <> r0 -> den t' w <> r0 -> t2 = common t t')) /\
    good n m' s' /\ target s' = target s /\ unchanged m m' (fun p => owned s = Some p \/ target s = Some p).
Proof. exact top_assign_op. Qed.
Print Assumptions C73_assign_op.
(** Constant scalars are never changed: all but adding or subtracting 0 is refused. *)
Theorem C73_constant : forall (V : Type) conv op zero bits0 n o (m : mem V) s other, (n <= length m)%nat -> good n m s -> good n m other -> constant s ->
  (op_assign conv op zero bits0 o m s other = Throw \/ op_assign conv op zero bits0 o m s other = Ok (m, s)) /\
  (fast_is_zero bits0 other = false -> op_assign conv op zero bits0 o m s other = Throw) /\
  (other <> Null -> assign conv zero bits0 m s other = Throw).
Proof. exact top_constant. Qed.
Print Assumptions C73_constant.
(** Copies have the value, and share no memory with anything. *)
Theorem C73_copy : forall (V : Type) conv op zero bits0 (R : Type) rop r0 den n (m : mem V) s t v,
  @sound_values V conv op zero bits0 R rop r0 den -> (n <= length m)%nat -> good n m s -> holds m s t v ->
  exists m' r v', copy conv zero bits0 m s = Ok (m', r) /\ holds m' r t v' /\ den t v' = den t v /\ good n m' r /\ target r = None /\
    (forall p, owned r = Some p -> (length m <= p)%nat) /\ unchanged m m' (fun _ => False).
Proof. exact top_copy. Qed.
Print Assumptions C73_copy.
Theorem C73_assign : forall (V : Type) conv op zero bits0 (R : Type) rop r0 den n (m : mem V) s other t' w,
  @sound_values V conv op zero bits0 R rop r0 den -> (n <= length m)%nat -> good n m s -> good n m other -> holds m other t' w -> ~ constant s ->
  (forall t v, holds m s t v -> common t t' = t) ->
  exists m' s' t2 v2, assign conv zero bits0 m s other = Ok (m', s') /\ holds m' s' t2 v2 /\ den t2 v2 = den t' w /\ good n m' s' /\ target s' = target s /\
    unchanged m m' (fun p => owned s = Some p \/ target s = Some p).
Proof. exact top_assign. Qed.
Print Assumptions C73_assign.
(** a == b says whether the values are equal, whatever the types. *)
Theorem C73_equal : forall (V : Type) conv op zero bits0 (R : Type) rop r0 den, @sound_values V conv op zero bits0 R rop r0 den -> forall n is0 eqv (m : mem V) a b x y,
  sound_equal bits0 is0 eqv r0 den -> good n m a -> good n m b -> means r0 den m a x -> means r0 den m b y ->
  exists e, equal bits0 is0 eqv m a b = Ok e /\ (e = true <-> x = y).
Proof. exact equal_value. Qed.
Print Assumptions C73_equal.
(** a /= b of one type. *)
Theorem C73_divide : forall (V : Type) conv zero bits0 quot n (m : mem V) s other t v w q, (n <= length m)%nat -> good n m s -> good n m other -> holds m s t v -> holds m other t w -> ~ constant s ->
  fast_is_zero bits0 other = false -> quot t v t w = Ok q ->
  exists m' s', div_assign conv quot zero bits0 m s other = Ok (m', s') /\ holds m' s' t q /\ good n m' s' /\ target s' = target s /\ unchanged m m' (fun p => owned s = Some p \/ target s = Some p).
Proof. exact top_divide. Qed.
Print Assumptions C73_divide.
(** Every program of these commands that does not divide or negate, and writes only what fits:
    all scalars and all coefficients have the values of the ideal. *)
Theorem C73_programs : forall (V : Type) conv op quot zero bits0 (R : Type) rop r0 den, @sound_values V conv op zero bits0 R rop r0 den -> forall n (m : mem V) l cs,
  sound_memory n m [] -> (length cs = n /\ forall p, (p < n)%nat -> exists t v, nth_error m p = Some (Some (t, v)) /\ den t v = nth p cs r0) ->
  along (fun x c => permitted conv zero quot n x c /\ tracked x c) (step conv op quot zero bits0) (m, []) l ->
  let st := fold_left (istep rop r0 den) l (cs, []) in
  exists m' env', run conv op quot zero bits0 (m, []) l = Ok (m', env') /\ sound_memory n m' env' /\
    (forall p, (p < n)%nat -> exists t v, nth_error m' p = Some (Some (t, v)) /\ den t v = nth p (fst st) r0) /\
    (forall i, means r0 den m' (nth i env' Null) (ivalue r0 st i)).
Proof. exact program_values. Qed.
Print Assumptions C73_programs.
Example C73_ex : sound_values dconv dop dzero dbits0 drop (0, 0) dden /\ sound_equal dbits0 dbits0 deqv (0, 0) dden /\ sound_memory 2 dmem [] /\
  along (fun x c => permitted dconv dzero dquot 2 x c /\ tracked x c) dstep (dmem, []) dprog /\
  drun (dmem, []) dprog = Ok ([Some (F64, (5, 0)); Some (SPol, (1, 2)); None; Some (SPol, (-2, 6))],
    [dview F64 0; Scl true SPol (CConstOpaque (Some 1%nat)); dnum I64 2; Null; Scl true SPol (COwned (Some 3%nat)); Scl true F64 (CTrivial (5, 0))]).
Proof. split; [exact d_sound|]. split; [exact d_equal|]. split; [exact d_sm|]. split; [exact d_prog_ok|]. vm_compute. reflexivity. Qed.
Example C73_ex_one : good 2 dmem (dview F64 0) /\ holds dmem (dview F64 0) F64 (3, 0) /\ good 2 dmem (dview SPol 1) /\ means (0, 0) dden dmem (dview SPol 1) (1, 2) /\
  dbin Mul dmem (dview F64 0) (dview SPol 1) = Ok (dmem ++ [Some (SPol, (3, 6))], Scl true SPol (COwned (Some 2%nat))) /\
  dset Add dmem (dview F64 0) (dnum I64 2) = Ok ([Some (F64, (5, 0)); Some (SPol, (1, 2))], dview F64 0) /\
  ddiv dmem (dview F64 0) (dnum F64 3) = Ok ([Some (F64, (1, 0)); Some (SPol, (1, 2))], dview F64 0) /\
  equal dbits0 dbits0 deqv dmem (dview F64 0) (dnum I32 3) = Ok true.
Proof. repeat split; try (eexists; reflexivity); try (exists SPol, (1, 2); repeat split; fail); vm_compute; auto. Qed.
(** -a is 0, or has no type, for every a. *)
Theorem C73_negate_refuted : forall (V : Type) zero bits0 n (m : mem V) s t v, (n <= length m)%nat -> good n m s -> holds m s t v ->
  exists m' r, negate zero bits0 m s = Ok (m', r) /\ (r = Null \/ holds m' r t (zero t)).
Proof. exact top_negate. Qed.
Print Assumptions C73_negate_refuted.
(** What does not fit the type of a coefficient counts as 0 when it is added to it. *)
Theorem C73_fits_refuted : dset Add dmem (dview F64 0) (dview SPol 1) = Ok (dmem, dview F64 0).
Proof. reflexivity. Qed.
(** Dividing a coefficient by a number of another type leaves the coefficient as it is. *)
Theorem C73_divide_refuted : ddiv dmem (dview F64 0) (dnum I64 3) = Ok (dmem, Scl false F64 (CTrivial (1, 0))).
Proof. reflexivity. Qed.
(** A value that is 0 but has bits that are not (-0.0) is not equal to 0. *)
Theorem C73_negative_zero_refuted : forall (V : Type) bits0 is0 eqv (m : mem V) v z, bits0 F64 v = false -> bits0 F64 z = true ->
  equal bits0 is0 eqv m (Scl false F64 (CTrivial v)) (Scl false F64 (CTrivial z)) = Ok false.
Proof. intros V bits0 is0 eqv m v z Hv Hz. unfold equal, is_zero. cbn [fast_is_zero]. rewrite Hv, Hz. reflexivity. Qed.
(** The sum with 0 keeps the type of the left operand. *)
Theorem C73_type_refuted : dbin Add dmem (dnum I64 1) (dnum F64 0) = Ok (dmem, dnum I64 1) /\ common I64 F64 = F64.
Proof. split; reflexivity. Qed.

(** *** C74: for every program, no undefined behaviour; afterwards every scalar has its memory, no
    two share it, nothing is lost, and coefficients are still there with their types. *)
Theorem C74_safe : forall (V : Type) conv op quot zero bits0 n l (m : mem V) env, sound_memory n m env -> along (permitted conv zero quot n) (step conv op quot zero bits0) (m, env) l ->
  exists m' env', run conv op quot zero bits0 (m, env) l = Ok (m', env') /\ sound_memory n m' env'.
Proof. exact run_sound. Qed.
Print Assumptions C74_safe.
(** When all scalars are gone so is their memory. *)
Theorem C74_no_leak : forall (V : Type) conv op quot zero bits0 n l (m : mem V) env m' env', sound_memory n m env -> along (permitted conv zero quot n) (step conv op quot zero bits0) (m, env) l ->
  run conv op quot zero bits0 (m, env) l = Ok (m', env') -> Forall (fun s => s = Null) env' -> forall p c, (n <= p)%nat -> nth_error m' p = Some c -> c = None.
Proof. exact no_leak_top. Qed.
Print Assumptions C74_no_leak.
Example C74_ex : along (permitted dconv dzero dquot 2) dstep (dmem, []) dprog2 /\
  drun (dmem, []) dprog2 = Ok ([Some (F64, (3, 0)); Some (SPol, (1, 2)); None; None; None], [Null; Null; Null; Null]).
Proof. split; [exact d_prog2_ok|vm_compute; reflexivity]. Qed.
(** A scalar without a type on the left of + is read through a null pointer; the negative of 0 is one. *)
Theorem C74_null_refuted : drun (dmem, []) [DoNumber F64 (0, 0); DoNegate 0; DoNumber F64 (1, 0); DoBinary Add 1 2] = UB.
Proof. reflexivity. Qed.
(** Division that changes the type writes it as the old one. *)
Theorem C74_divide_refuted : drun (dmem, []) [DoNumber I64 (6, 0); DoNumber F64 (3, 0); DoDivide 0 1] = UB.
Proof. reflexivity. Qed.
