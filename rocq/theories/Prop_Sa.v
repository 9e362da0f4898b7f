(** Property theorem C78: arrays of scalars.  [does_all w prog w' os]: the program, rightly used, leads from
    [w] to [w'] with the replies [os], in worlds without any memory management (SaSpec); [run] is the code,
    over memory with counted references, where reading freed memory, freeing twice and the like are [UB]. *)
From Coq Require Import ZArith.
From Verif Require Import SaModel SaSpec SaProofs SaTop SaMore SaEx.
Open Scope nat_scope.

(** Programs reply as said, nothing undefined happens, and memory holds the elements of exactly those
    regions that are the caller's or owned by some array. *)
Theorem C78_programs : forall (T V : Type) (ty_eqb : T -> T -> bool), (forall a b, ty_eqb a b = true <-> a = b) -> forall (zero : T -> V) given prog w os,
  does_all T V zero (start T V given) prog w os -> exists s, run T V ty_eqb zero (start_memory T V given) prog = Ok (s, os) /\ holds T V w (fst s).
Proof. exact sa_programs. Qed.
Print Assumptions C78_programs.
(** Once all arrays are gone, all memory taken is freed. *)
Theorem C78_freed : forall (T V : Type) (ty_eqb : T -> T -> bool), (forall a b, ty_eqb a b = true <-> a = b) -> forall (zero : T -> V) given prog w os,
  does_all T V zero (start T V given) prog w os -> (forall x a, nth_error (arrays T V w) x = Some a -> a = None) ->
  exists s, run T V ty_eqb zero (start_memory T V given) prog = Ok (s, os) /\ forall r, length given <= r -> r < length (fst s) -> nth_error (fst s) r = Some None.
Proof. exact sa_all_freed. Qed.
Print Assumptions C78_freed.
(** Memory lent for reading only is as it was. *)
Theorem C78_lent : forall (T V : Type) (ty_eqb : T -> T -> bool), (forall a b, ty_eqb a b = true <-> a = b) -> forall (zero : T -> V) given prog w os r t l,
  does_all T V zero (start T V given) prog w os -> nth_error given r = Some (t, l) -> (forall c, In c prog -> ~ lends_writable T V r c) ->
  exists s, run T V ty_eqb zero (start_memory T V given) prog = Ok (s, os) /\ nth_error (fst s) r = Some (Some (mkBlock T V t l None)).
Proof. exact sa_lent. Qed.
Print Assumptions C78_lent.
Example C78_example : does_all _ _ s_zero (start _ _ s_given) s_prog s_world s_replies /\ (forall x a, nth_error (arrays _ _ s_world) x = Some a -> a = None) /\
  (forall c, In c s_prog -> ~ lends_writable _ _ 0 c) /\
  run _ _ s_eqb s_zero (start_memory _ _ s_given) s_prog = Ok (([Some (mkBlock _ _ tt [5; 6; 7]%Z None); None; None], [None; None; None; None; None; None; None]), s_replies).
Proof. exact (conj s_does (conj s_dropped (conj s_lent s_run))). Qed.

(** An array assigned from another has elements of its own. *)
Theorem C78_assigned_apart : forall (T V : Type) (ty_eqb : T -> T -> bool), (forall a b, ty_eqb a b = true <-> a = b) -> forall (zero : T -> V) t n i v, i < n ->
  exists s, run T V ty_eqb zero ([], []) [CAlloc T V t n; CNull T V; CAssign T V 1 0; CSet T V 1 i v; CGet T V 0 i; CGet T V 1 i] = Ok (s, [RDone V; RDone V; RDone V; RDone V; RValue V (zero t); RValue V v]).
Proof. exact assigned_apart. Qed.
Print Assumptions C78_assigned_apart.
(** One constructed as a copy has not. *)
Theorem C78_copies_apart_refuted : forall (T V : Type) (ty_eqb : T -> T -> bool), (forall a b, ty_eqb a b = true <-> a = b) -> forall (zero : T -> V) t n i v, i < n ->
  exists s, run T V ty_eqb zero ([], []) [CAlloc T V t n; CCopy T V 0; CSet T V 1 i v; CGet T V 0 i] = Ok (s, [RDone V; RDone V; RDone V; RValue V v]).
Proof. exact copies_share. Qed.
Print Assumptions C78_copies_apart_refuted.
(** Assigning an array of nothing leaves the elements. *)
Theorem C78_assign_nothing_refuted : forall (T V : Type) (ty_eqb : T -> T -> bool), (forall a b, ty_eqb a b = true <-> a = b) -> forall (zero : T -> V) t n i, i < n ->
  exists s, run T V ty_eqb zero ([], []) [CAlloc T V t n; CNull T V; CAssign T V 0 1; CGet T V 0 i] = Ok (s, [RDone V; RDone V; RDone V; RValue V (zero t)]).
Proof. exact assign_null_keeps. Qed.
Print Assumptions C78_assign_nothing_refuted.
(** Assigning from a borrowed array does not copy it: an error for arrays borrowed for reading, undefined for
    others; and from lent memory of a fundamental type, the array assigned cannot be read, and its memory is
    never freed. *)
Theorem C78_assign_borrowed_refuted : forall (T V : Type) (ty_eqb : T -> T -> bool) (zero : T -> V) t n, 0 < n ->
  (exists s, run T V ty_eqb zero ([], []) [CAlloc T V t n; CBorrow T V true 0; CNull T V; CAssign T V 2 1] = Ok (s, [RDone V; RDone V; RDone V; RError V])) /\
  run T V ty_eqb zero ([], []) [CAlloc T V t n; CBorrow T V false 0; CNull T V; CAssign T V 2 1] = UB.
Proof. exact (fun T V ty_eqb zero t n H => conj (assign_const_view T V ty_eqb zero t n H) (assign_mut_view T V ty_eqb zero t n H)). Qed.
Print Assumptions C78_assign_borrowed_refuted.
Theorem C78_assign_lent_refuted : forall (T V : Type) (ty_eqb : T -> T -> bool), (forall a b, ty_eqb a b = true <-> a = b) -> forall (zero : T -> V) t v const,
  run T V ty_eqb zero (start_memory T V [(t, [v])]) [CBorrowMem T V false const t 0 0 1; CNull T V; CAssign T V 1 0; CGet T V 1 0] = UB /\
  exists e os, run T V ty_eqb zero (start_memory T V [(t, [v])]) [CBorrowMem T V false const t 0 0 1; CNull T V; CAssign T V 1 0; CDrop T V 0; CDrop T V 1] =
    Ok (([Some (mkBlock T V t [v] None); Some (mkBlock T V t [v] (Some 1))], e), os).
Proof. exact assign_lent. Qed.
Print Assumptions C78_assign_lent_refuted.
(** An element of an array of nothing is undefined, not an error. *)
Theorem C78_index_nothing_refuted : forall (T V : Type) (ty_eqb : T -> T -> bool) (zero : T -> V) i, run T V ty_eqb zero ([], []) [CNull T V; CGet T V 0 i] = UB.
Proof. exact index_null. Qed.
Print Assumptions C78_index_nothing_refuted.
(** Making an array of a fundamental type by its type information, of any size, and dropping it is
    undefined. *)
Theorem C78_alloc_info_refuted : forall (T V : Type) (zero : T -> V) (m : mem T V) t n, (let! (m, a) := alloc_info T V zero m t n in destroy T V m a) = UB.
Proof. exact alloc_info_undefined. Qed.
Print Assumptions C78_alloc_info_refuted.
