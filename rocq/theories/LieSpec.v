(** Lie polynomials inside the tensor algebra: the commutator, the expansion of a
    bracketing, and integer combinations of bracketings. *)
From Coq Require Import Setoid InitialRing.
From Verif Require Import Outcome Alg Words Series Shuffle HallSpec.

(** The ring element of an integer. *)
Definition zr (R : cring) (z : Z) : R := gen_phiZ r0 r1 radd rmul ropp z.

Section Zr.
  Variable R : cring.
  Add Ring Rring_lsz : (rth R).
  Local Open Scope cr_scope.
  Definition rext : ring_eq_ext (@radd R) rmul ropp (@eq R).
  Proof. split; repeat intro; subst; reflexivity. Qed.
  Lemma zr_0 : zr R 0 = 0. Proof. reflexivity. Qed.
  Lemma zr_1 : zr R 1 = 1. Proof. reflexivity. Qed.
  Lemma zr_add a b : zr R (a + b) = zr R a + zr R b.
  Proof. apply (gen_phiZ_add (Eqsth R) rext (rth R)). Qed.
  Lemma zr_mul a b : zr R (a * b) = zr R a * zr R b.
  Proof. apply (gen_phiZ_mul (Eqsth R) rext (rth R)). Qed.
  Lemma zr_opp a : zr R (- a) = - zr R a.
  Proof.
    assert (X := zr_add a (- a)). rewrite Z.add_opp_diag_r, zr_0 in X.
    transitivity (0 - zr R a); [rewrite X at 1|]; ring.
  Qed.
End Zr.

Section Comm.
  Variable (R : cring) (A : Type).
  Add Ring Rring_lsc : (rth R).
  Local Open Scope cr_scope.
  Notation tens := (tens R A).
  Infix "==" := teq (at level 70).
  Lemma conv_ext (a a' b b' : tens) : a == a' -> b == b' -> conv a b == conv a' b'.
  Proof. intros Ha Hb u. apply conv_local; auto. Qed.
  Lemma comm_ext (a a' b b' : tens) : a == a' -> b == b' -> comm a b == comm a' b'.
  Proof. intros Ha Hb u. unfold comm, tsub. rewrite (conv_ext a a' b b' Ha Hb u), (conv_ext b b' a a' Hb Ha u). reflexivity. Qed.
  Lemma comm_add_l (a b c : tens) : comm (tadd a b) c == tadd (comm a c) (comm b c).
  Proof. intros u. unfold comm, tsub. rewrite (conv_add_l _ _ a b c u), (conv_add_r _ _ c a b u). unfold tadd. ring. Qed.
  Lemma comm_scal_l k (a c : tens) : comm (tscal k a) c == tscal k (comm a c).
  Proof. intros u. unfold comm, tsub. rewrite (conv_scal_l _ _ k a c u), (conv_scal_r _ _ k c a u). unfold tscal. ring. Qed.
  Lemma comm_zero_l (c : tens) : comm tzero c == tzero.
  Proof. intros u. unfold comm, tsub. rewrite (conv_zero_l _ _ c u), (conv_zero_r _ _ c u). unfold tzero. ring. Qed.
  Lemma comm_anti (a b : tens) : comm a b == tscal (- (1)) (comm b a).
  Proof. intros u. unfold comm, tsub, tscal. ring. Qed.
  Lemma comm_add_r (a b c : tens) : comm c (tadd a b) == tadd (comm c a) (comm c b).
  Proof. intros u. unfold comm, tsub. rewrite (conv_add_l _ _ a b c u), (conv_add_r _ _ c a b u). unfold tadd. ring. Qed.
  Lemma comm_scal_r k (a c : tens) : comm c (tscal k a) == tscal k (comm c a).
  Proof. intros u. unfold comm, tsub. rewrite (conv_scal_l _ _ k a c u), (conv_scal_r _ _ k c a u). unfold tscal. ring. Qed.
  Lemma comm_same (a : tens) : comm a a == tzero.
  Proof. intros u. unfold comm, tsub, tzero. ring. Qed.
  (** [a,[c,d]] = [[a,c],d] - [[a,d],c] *)
  Lemma jacobi (a c d : tens) : comm a (comm c d) == tsub (comm (comm a c) d) (comm (comm a d) c).
  Proof.
    intros u. unfold comm.
    repeat match goal with
    | |- context [tsub ?x ?y u] => change (tsub x y u) with (x u - y u)
    end.
    rewrite ?(conv_sub_r _ _ _ _ _ u), ?(conv_sub_l _ _ _ _ _ u). unfold tsub.
    rewrite ?(conv_assoc _ _ _ _ _ u). ring.
  Qed.
End Comm.
Arguments comm_ext {R A}.

(** The tensor of a bracketing: letter [l] is the word with the single index [l - 1]
    (tensor words use letters 0..w-1, Lie keys 1..w), a bracket is a commutator. *)
Fixpoint texpand (R : cring) (t : tree) : tens R Z :=
  match t with
  | Leaf l => fun u => match u with [x] => if Z.eqb x (l - 1) then r1 else r0 | _ => r0 end
  | Node a b => comm (texpand R a) (texpand R b)
  end.

(** Integer combinations of bracketings. *)
Definition tlin (R : cring) (l : list (tree * Z)) : tens R Z :=
  fun u => sum l (fun p => rmul (zr R (snd p)) (texpand R (fst p) u)).
