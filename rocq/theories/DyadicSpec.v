(** Specification vocabulary for dyadics: numbers and half-open point sets.
    Nothing here refers to the algorithms of the model. *)
From Coq Require Import ZArith QArith Qround Qpower.
Open Scope Z_scope.

(** The rational number k / 2^n. *)
Definition dy (k n : Z) : Q := (inject_Z k * Qpower 2 (- n))%Q.

(** Point sets.  [clopen_pts k n] is [k/2^n, (k+1)/2^n);
    [opencl_pts k n] is ((k-1)/2^n, k/2^n]. *)
Definition clopen_pts (k n : Z) (x : Q) : Prop := (dy k n <= x /\ x < dy (k + 1) n)%Q.
Definition opencl_pts (k n : Z) (x : Q) : Prop := (dy (k - 1) n < x /\ x <= dy k n)%Q.

(** Sizes for which the 32-bit arithmetic is safe. *)
Definition small (z : Z) : Prop := - 2 ^ 30 <= z <= 2 ^ 30.

(** A list of dyadic cells (multiplier, power), all of clopen type, lying end to
    end from [x] to [y]. *)
Fixpoint end_to_end (x y : Q) (l : list (Z * Z)) : Prop :=
  match l with
  | nil => (x == y)%Q
  | cons (k, n) l' => (x == dy k n)%Q /\ end_to_end (dy (k + 1) n) y l'
  end.

(** Largest multiple of 2^-n not above x. *)
Definition grid_floor (x : Q) (n : Z) : Q := dy (Qfloor (x * Qpower 2 n)) n.
