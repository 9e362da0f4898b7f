(** Vocabulary for monomials and polynomials. *)
From Coq Require Export Sorting.Sorted.
From Verif Require Export PolyModel.
Open Scope Z_scope.

(** Equality of monomials as lists of (indeterminate, exponent) is decidable. *)
Definition mono_dec (a b : mono) : {a = b} + {a <> b}.
Proof. apply list_eq_dec. intros [x e] [x' e']. destruct (Z.eq_dec x x'); [destruct (Z.eq_dec e e'); [left; congruence|]|]; right; congruence. Defined.

(** Monomials list their indeterminates in increasing order. *)
Definition mono_ok (m : mono) : Prop := StronglySorted (fun p q : Z * Z => fst p < fst q) m.
Definition occurs (m : mono) (x : Z) : Prop := exists e, In (x, e) m.
(** The exponent of an indeterminate. *)
Fixpoint expo (m : mono) (x : Z) : Z := match m with [] => 0 | (y, e) :: m => (if x =? y then e else 0) + expo m x end.
(** [m] is the product of [a] and [b]. *)
Definition is_product (a b m : mono) : Prop :=
  mono_ok m /\ (forall x, occurs m x <-> occurs a x \/ occurs b x) /\ forall x, expo m x = expo a x + expo b x.
(** All indeterminates of [b] but the last occur in [a]. *)
Definition mono_safe (a b : mono) : Prop := forall x e, In (x, e) (removelast b) -> occurs a x.

(** The coefficient of a monomial. *)
Fixpoint coeff (p : poly) (m : mono) : Qc := match p with [] => 0 | (k, c) :: p => (if mono_dec k m then c else 0) + coeff p m end%Qc.
(** Polynomials in normal form: monomials in increasing order, no zero coefficients. *)
Definition poly_ok (p : poly) : Prop :=
  StronglySorted (fun s t : mono * Qc => mono_lt (fst s) (fst t) = true) p /\ Forall (fun t => snd t <> 0%Qc) p /\ Forall (fun t => mono_ok (fst t)) p.
(** All terms of [q] but the last are about monomials that [p] has, and cancel none. *)
Definition poly_safe (s : Qc -> Qc) (p q : poly) : Prop :=
  forall m c, In (m, c) (removelast q) -> coeff p m <> 0%Qc /\ (coeff p m + s c)%Qc <> 0%Qc.
(** The product of two monomials (sorted lists), by merging. *)
Fixpoint mtimes (a : mono) : mono -> mono :=
  match a with
  | [] => fun b => b
  | (x, e) :: a' =>
      fix merge (b : mono) : mono :=
        match b with
        | [] => (x, e) :: a'
        | (y, f) :: b' =>
            if x <? y then (x, e) :: mtimes a' ((y, f) :: b')
            else if y <? x then (y, f) :: merge b'
            else (x, e + f) :: mtimes a' b'
        end
  end.
(** The coefficient of [m] in the product: the sum over all pairs of terms. *)
Definition sum_terms (f : mono * Qc -> Qc) (p : poly) : Qc := fold_right (fun t acc => (f t + acc)%Qc) 0%Qc p.
Definition prod_coeff (p q : poly) (m : mono) : Qc :=
  sum_terms (fun s => sum_terms (fun t => if mono_dec (mtimes (fst s) (fst t)) m then (snd s * snd t)%Qc else 0%Qc) q) p.
