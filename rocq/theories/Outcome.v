(** Outcomes of C++ computations, and checked machine arithmetic. *)
From Coq Require Export ZArith Lia List Bool.
Export ListNotations.
Open Scope Z_scope.

(** Result of running a piece of C++ code.
    [Ok a]      : returned normally with [a];
    [Throw]     : a C++ exception (or a Python error) was raised;
    [UB]        : undefined behaviour (signed overflow, bad shift, out-of-bounds
                  access, use of an invalid iterator or dead object);
    [NoFuel]    : the step budget given to a loop model ran out.  A theorem that
                  says "terminates" exhibits a budget for which this is not the
                  answer; one that says "diverges" shows this is the answer for
                  every budget. *)
Inductive outcome (A : Type) : Type :=
| Ok (a : A) | Throw | UB | NoFuel.
Arguments Ok {A} a.
Arguments Throw {A}.
Arguments UB {A}.
Arguments NoFuel {A}.

Definition bind {A B} (x : outcome A) (f : A -> outcome B) : outcome B :=
  match x with Ok a => f a | Throw => Throw | UB => UB | NoFuel => NoFuel end.

Notation "'let!' x := e 'in' k" := (bind e (fun x => k))
  (at level 200, x pattern, right associativity).

Definition is_ok {A} (x : outcome A) : Prop := exists a, x = Ok a.

Lemma bind_ok {A B} (x : outcome A) (f : A -> outcome B) b :
  bind x f = Ok b <-> exists a, x = Ok a /\ f a = Ok b.
Proof.
  destruct x; simpl; split; try (intros (a' & H & _); discriminate); try discriminate.
  - intros H; eauto.
  - intros (a' & [= <-] & H); exact H.
Qed.

(** 32-bit signed integers: [dyadic_multiplier_t = int], [dyadic_depth_t = int]
    (core/include/roughpy/core/types.hpp). *)
Definition INT_MAX : Z := 2147483647.
Definition INT_MIN : Z := -2147483648.
Definition in_i32 (z : Z) : bool := (INT_MIN <=? z) && (z <=? INT_MAX).
Definition i32 (z : Z) : outcome Z := if in_i32 z then Ok z else UB.

Lemma i32_ok z : INT_MIN <= z <= INT_MAX -> i32 z = Ok z.
Proof.
  intros H; unfold i32, in_i32.
  destruct (INT_MIN <=? z) eqn:E1; [|apply Z.leb_gt in E1; lia].
  destruct (z <=? INT_MAX) eqn:E2; [reflexivity|apply Z.leb_gt in E2; lia].
Qed.

Lemma i32_inv z r : i32 z = Ok r -> r = z /\ INT_MIN <= z <= INT_MAX.
Proof.
  unfold i32, in_i32; destruct (INT_MIN <=? z) eqn:E1; simpl; [|discriminate].
  destruct (z <=? INT_MAX) eqn:E2; [|discriminate].
  intros [= <-]; apply Z.leb_le in E1, E2; auto.
Qed.
