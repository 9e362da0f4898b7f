(** Dual numbers over the scalars: x + y e with e * e = 0.  The e-part of a function of x + y e is its
    derivative at x in direction y. *)
From Coq Require Import Ring.
From Verif Require Import Alg.

Section Dual.
  Variable R : qalg.
  Add Ring Rdual : (rth R).
  Definition dadd (a b : R * R) : R * R := (radd (fst a) (fst b), radd (snd a) (snd b)).
  Definition dmul (a b : R * R) : R * R := (rmul (fst a) (fst b), radd (rmul (fst a) (snd b)) (rmul (snd a) (fst b))).
  Definition dsub (a b : R * R) : R * R := (rsub (fst a) (fst b), rsub (snd a) (snd b)).
  Definition dopp (a : R * R) : R * R := (ropp (fst a), ropp (snd a)).
  Lemma dual_ring : ring_theory (r0, r0) (r1, r0) dadd dmul dsub dopp (@eq (R * R)).
  Proof. constructor; intros; repeat match goal with x : (_ * _)%type |- _ => destruct x end; unfold dadd, dmul, dsub, dopp; cbn [fst snd]; f_equal; ring. Qed.
  Definition dual_cr : cring := mkCR _ _ _ _ _ _ _ dual_ring.
  Lemma dual_rnat n : @rnat dual_cr n = (rnat n, r0).
  Proof. induction n as [|n IH]; [reflexivity|]. cbn [rnat]. rewrite IH. unfold radd at 1. cbn. unfold dadd. cbn [fst snd]. f_equal; ring. Qed.
  Lemma dual_inv n : (0 < n)%nat -> rmul (@rnat dual_cr n) ((qinv n, r0) : dual_cr) = r1.
  Proof. intros H. rewrite dual_rnat. cbn. unfold dmul. cbn [fst snd]. f_equal; [apply qinv_ok; auto|ring]. Qed.
  Definition dual : qalg := mkQA dual_cr (fun n => (qinv n, r0)) dual_inv.
End Dual.
