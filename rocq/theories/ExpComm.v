(** exp(x + y) = exp(x) exp(y) when x and y commute, in the truncated tensor algebra. *)
From Coq Require Import Setoid Morphisms.
From Verif Require Import Alg PowerSeries Series.

Section ExpComm.
  Variable R : qalg.
  Variable A : Type.
  Add Ring Rring_ec : (rth (qr R)).
  Local Open Scope cr_scope.
  Notation tens := (tens (qr R) A).
  Variable n : nat.
  Definition upto (a b : tens) : Prop := forall u, (length u <= n)%nat -> a u = b u.
  Infix "=~" := upto (at level 70).
  Local Instance upto_equiv : Equivalence upto.
  Proof. split; [intros f u _; reflexivity|intros f g H u Hu; symmetry; apply H, Hu|intros f g h H1 H2 u Hu; rewrite H1 by auto; apply H2, Hu]. Qed.
  Local Instance conv_upto : Proper (upto ==> upto ==> upto) conv.
  Proof. intros a a' Ha b b' Hb u Hu. apply conv_local; intros v Hv; [apply Ha|apply Hb]; lia. Qed.
  Local Instance tadd_upto : Proper (upto ==> upto ==> upto) tadd.
  Proof. intros a a' Ha b b' Hb u Hu. unfold tadd. rewrite (Ha u Hu), (Hb u Hu). reflexivity. Qed.
  Lemma teq_upto (a b : tens) : teq a b -> a =~ b. Proof. intros H u _. apply H. Qed.

  Variables x y : tens.
  Hypothesis Hxy : conv x y =~ conv y x.
  Hypothesis Hx0 : x [] = 0.
  Hypothesis Hy0 : y [] = 0.
  Notation f := (invfact R).
  Definition P (i j : nat) : tens := conv (tpow x i) (tpow y j).
  Lemma y_pow i : conv y (tpow x i) =~ conv (tpow x i) y.
  Proof.
    induction i as [|i IH]; cbn [tpow].
    - rewrite (teq_upto _ _ (conv_one_l _ _ y)), (teq_upto _ _ (conv_one_r _ _ y)). reflexivity.
    - rewrite <- (teq_upto _ _ (conv_assoc _ _ _ _ _)), <- Hxy, (teq_upto _ _ (conv_assoc _ _ x y _)), IH, (teq_upto _ _ (conv_assoc _ _ _ _ _)). reflexivity.
  Qed.
  Lemma P_step i j : conv (tadd x y) (P i j) =~ tadd (P (S i) j) (P i (S j)).
  Proof.
    unfold P. rewrite (teq_upto _ _ (conv_add_l _ _ _ _ _)). apply tadd_upto.
    - cbn [tpow]. rewrite (teq_upto _ _ (conv_assoc _ _ x _ _)). reflexivity.
    - cbn [tpow]. rewrite <- (teq_upto _ _ (conv_assoc _ _ y _ _)), y_pow, (teq_upto _ _ (conv_assoc _ _ _ y _)). reflexivity.
  Qed.
  Definition E (k : nat) : tens := fun u => sum (seq 0 (S k)) (fun i => f i * f (k - i)%nat * P i (k - i) u).
  Lemma conv_sum_r (a : tens) {I} (is : list I) (c : I -> R) (g : I -> tens) u :
    conv a (fun v => sum is (fun i => c i * g i v)) u = sum is (fun i => c i * conv a (g i) u).
  Proof.
    induction is as [|i is IH]; cbn [sum].
    - exact (conv_zero_r _ _ a u).
    - rewrite <- IH. transitivity (conv a (tadd (tscal (c i) (g i)) (fun v => sum is (fun i => c i * g i v))) u); [reflexivity|].
      rewrite (conv_add_r _ _ _ _ _ u). unfold tadd. rewrite (conv_scal_r _ _ _ _ _ u). reflexivity.
  Qed.
  Lemma f_step k : @rnat (qr R) (S k) * f (S k) = f k.
  Proof. exact (pder_exp R k). Qed.
  Lemma E_step k : conv (tadd x y) (E k) =~ tscal (rnat (S k)) (E (S k)).
  Proof.
    intros u Hu. unfold E at 1. rewrite conv_sum_r.
    rewrite (sum_ext _ _ _ (fun i => f i * f (k - i)%nat * P (S i) (k - i) u + f i * f (k - i)%nat * P i (S (k - i)) u)).
    2:{ intros i _. change (f i * f (k - i)%nat * conv (tadd x y) (P i (k - i)) u = f i * f (k - i)%nat * P (S i) (k - i) u + f i * f (k - i)%nat * P i (S (k - i)) u). rewrite (P_step i (k - i) u Hu). unfold tadd. ring. }
    rewrite sum_add. unfold tscal, E. rewrite <- sum_mul_l.
    rewrite (sum_ext _ (seq 0 (S (S k))) _ (fun i => rnat i * f i * f (S k - i)%nat * P i (S k - i) u + rnat (S k - i) * f i * f (S k - i)%nat * P i (S k - i) u)).
    2:{ intros i Hi. apply in_seq in Hi. replace (@rnat (qr R) (S k)) with (rnat i + @rnat (qr R) (S k - i)); [ring|]. rewrite <- rnat_add. f_equal. lia. }
    rewrite sum_add. f_equal.
    - rewrite (sum_seq_S _ 0 (S k)), sum_seq_shift. change (@rnat (qr R) 0) with (@r0 (qr R)). rewrite (sum_ext _ (seq 0 (S k)) (fun i => f i * f (k - i)%nat * P (S i) (k - i) u) (fun i => rnat (S i) * f (S i) * f (S k - S i)%nat * P (S i) (S k - S i) u)).
      2:{ intros i _. rewrite f_step. replace (S k - S i)%nat with (k - i)%nat by lia. reflexivity. }
      ring.
    - rewrite (seq_S (S k) 0), sum_app. cbn [sum]. replace (S k - (0 + S k))%nat with 0%nat by lia. change (@rnat (qr R) 0) with (@r0 (qr R)).
      rewrite (sum_ext _ (seq 0 (S k)) _ (fun i => rnat (S k - i) * f i * f (S k - i)%nat * P i (S k - i) u)); [ring|].
      intros i Hi. apply in_seq in Hi. replace (S k - i)%nat with (S (k - i)) by lia. rewrite <- (f_step (k - i)). ring.
  Qed.
  Lemma binomial k : tscal (f k) (tpow (tadd x y) k) =~ E k.
  Proof.
    induction k as [|k IH]; intros u Hu.
    - unfold tscal, E, P. cbn [seq sum tpow Nat.sub]. rewrite (conv_one_l _ _ _ u). cbn [invfact]. ring.
    - apply (qinv_cancel R (S k)); [lia|]. assert (X := E_step k u Hu). unfold tscal in X at 1. rewrite <- X.
      transitivity (conv (tadd x y) (tscal (f k) (tpow (tadd x y) k)) u).
      2:{ apply conv_local; auto. intros v Hv. apply IH. lia. }
      rewrite (conv_scal_r _ _ _ _ _ u). unfold tscal. cbn [tpow]. rewrite <- (f_step k). ring.
  Qed.
  Lemma P_low i j u : (length u < i + j)%nat -> P i j u = 0.
  Proof.
    intros H. unfold P, conv. apply sum_zero. intros k _. destruct (le_lt_dec i (length (firstn k u))) as [H1|H1].
    - rewrite (tpow_low _ _ y) by (auto; rewrite firstn_length in H1; rewrite skipn_length; lia). ring.
    - rewrite (tpow_low _ _ x) by auto. ring.
  Qed.
  Theorem texp_add_comm : texp n (tadd x y) =~ conv (texp n x) (texp n y).
  Proof.
    intros u Hu. unfold texp at 1, tpoly.
    rewrite (sum_ext _ _ _ (fun k => sum (seq 0 (S k)) (fun i => f i * f (k - i)%nat * P i (k - i) u))).
    2:{ intros k _. exact (binomial k u Hu). }
    rewrite (sum_triangle _ n (fun i j => f i * f j * P i j u)).
    transitivity (sum (seq 0 (S n)) (fun i => sum (seq 0 (S n)) (fun j => f i * f j * P i j u))).
    { apply sum_ext. intros i Hi. apply in_seq in Hi. symmetry. apply sum_seq_extend; [lia|]. intros j Hj. rewrite P_low by lia. ring. }
    unfold texp, tpoly.
    transitivity (conv (texp n x) (fun v => sum (seq 0 (S n)) (fun j => f j * tpow y j v)) u); [|reflexivity].
    rewrite conv_sum_r. rewrite sum_swap. apply sum_ext. intros j _. unfold P.
    rewrite <- (sum_ext _ _ (fun i => f j * (f i * conv (tpow x i) (tpow y j) u))); [|intros; ring]. rewrite sum_mul_l. f_equal.
    unfold texp, tpoly, conv. rewrite (sum_ext _ (seq 0 (S n)) _ (fun i => sum (seq 0 (S (length u))) (fun k => f i * tpow x i (firstn k u) * tpow y j (skipn k u)))).
    2:{ intros i _. rewrite <- sum_mul_l. apply sum_ext. intros; ring. }
    rewrite sum_swap. apply sum_ext. intros k _. rewrite sum_mul_r. reflexivity.
  Qed.
End ExpComm.
