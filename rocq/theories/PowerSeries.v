(** Univariate formal power series over a commutative Q-algebra, and the two
    composition identities  log(exp t) = t,  exp(log(1+t)) = 1+t. *)
From Verif Require Import Alg.
From Coq Require Import Setoid Morphisms.

Section PS.
  Variable R : qalg.
  Add Ring Rring : (rth (qr R)).
  Local Open Scope cr_scope.
  Notation K := (car (qr R)).

  Definition ps := nat -> K.
  Definition pseq (f g : ps) : Prop := forall n, f n = g n.
  Infix "==" := pseq (at level 70).
  Global Instance pseq_equiv : Equivalence pseq.
  Proof. split; [intros f n; reflexivity|intros f g H n; symmetry; apply H|intros f g h H1 H2 n; rewrite H1; apply H2]. Qed.

  Definition pmul (f g : ps) : ps := fun n => sum (seq 0 (S n)) (fun i => f i * g (n - i)%nat).
  Definition padd (f g : ps) : ps := fun n => f n + g n.
  Definition pscal (c : K) (f : ps) : ps := fun n => c * f n.
  Definition pone : ps := fun n => match n with O => 1 | _ => 0 end.
  Definition pder (f : ps) : ps := fun n => rnat (S n) * f (S n).
  Fixpoint ppow (f : ps) (k : nat) : ps := match k with O => pone | S k => pmul f (ppow f k) end.

  Global Instance pmul_proper : Proper (pseq ==> pseq ==> pseq) pmul.
  Proof. intros f f' Hf g g' Hg n. unfold pmul. apply sum_ext. intros. rewrite Hf, Hg. reflexivity. Qed.
  Global Instance padd_proper : Proper (pseq ==> pseq ==> pseq) padd.
  Proof. intros f f' Hf g g' Hg n. unfold padd. rewrite Hf, Hg. reflexivity. Qed.
  Global Instance pscal_proper c : Proper (pseq ==> pseq) (pscal c).
  Proof. intros f f' Hf n. unfold pscal. rewrite Hf. reflexivity. Qed.
  Global Instance pder_proper : Proper (pseq ==> pseq) pder.
  Proof. intros f f' Hf n. unfold pder. rewrite Hf. reflexivity. Qed.
  Global Instance ppow_proper : Proper (pseq ==> eq ==> pseq) ppow.
  Proof. intros f f' Hf n ? <-. induction n; cbn [ppow]; [reflexivity|apply pmul_proper; auto]. Qed.

  Lemma pmul_comm f g : pmul f g == pmul g f.
  Proof.
    intros n. unfold pmul. rewrite sum_seq_rev. apply sum_ext. intros k Hk. apply in_seq in Hk.
    replace (n - (n - k))%nat with k by lia. ring.
  Qed.
  Lemma pmul_assoc f g h : pmul (pmul f g) h == pmul f (pmul g h).
  Proof.
    intros n. unfold pmul.
    transitivity (sum (seq 0 (S n)) (fun k => sum (seq 0 (S k)) (fun i => f i * g (k - i)%nat * h (n - (i + (k - i)))%nat))).
    { apply sum_ext. intros k Hk. apply in_seq in Hk. rewrite <- sum_mul_r. apply sum_ext. intros i Hi. apply in_seq in Hi.
      replace (i + (k - i))%nat with k by lia. reflexivity. }
    rewrite (sum_triangle _ n (fun i j => f i * g j * h (n - (i + j))%nat)).
    apply sum_ext. intros i Hi. apply in_seq in Hi. rewrite <- sum_mul_l. apply sum_ext. intros j Hj. apply in_seq in Hj.
    replace (n - i - j)%nat with (n - (i + j))%nat by lia. ring.
  Qed.
  Lemma pmul_one_l f : pmul pone f == f.
  Proof.
    intros n. unfold pmul. rewrite sum_seq_S. rewrite sum_zero.
    - simpl. replace (n - 0)%nat with n by lia. ring.
    - intros k Hk. apply in_seq in Hk. destruct k; [lia|]. simpl. ring.
  Qed.
  Lemma pmul_one_r f : pmul f pone == f.
  Proof. rewrite pmul_comm. apply pmul_one_l. Qed.
  Lemma pmul_add_l f g h : pmul (padd f g) h == padd (pmul f h) (pmul g h).
  Proof. intros n. unfold pmul, padd. rewrite <- sum_add. apply sum_ext. intros; ring. Qed.
  Lemma pmul_add_r f g h : pmul f (padd g h) == padd (pmul f g) (pmul f h).
  Proof. rewrite pmul_comm, pmul_add_l, (pmul_comm g), (pmul_comm h). reflexivity. Qed.
  Lemma pmul_scal_l c f g : pmul (pscal c f) g == pscal c (pmul f g).
  Proof. intros n. unfold pmul, pscal. rewrite <- sum_mul_l. apply sum_ext. intros; ring. Qed.
  Lemma pmul_scal_r c f g : pmul f (pscal c g) == pscal c (pmul f g).
  Proof. rewrite pmul_comm, pmul_scal_l, pmul_comm. reflexivity. Qed.

  (** Leibniz rule. *)
  Lemma pder_mul f g : pder (pmul f g) == padd (pmul (pder f) g) (pmul f (pder g)).
  Proof.
    intros n. unfold pder, padd.
    assert (E : rnat (S n) * pmul f g (S n) =
       sum (seq 0 (S (S n))) (fun i => rnat i * f i * g (S n - i)%nat) +
       sum (seq 0 (S (S n))) (fun i => f i * (rnat (S n - i) * g (S n - i)%nat))).
    { unfold pmul. rewrite <- sum_mul_l, <- sum_add. apply sum_ext. intros i Hi. apply in_seq in Hi.
      assert (Hs : @rnat R (S n) = rnat i + rnat (S n - i)) by (rewrite <- rnat_add; f_equal; lia).
      rewrite Hs. ring. }
    rewrite E. f_equal.
    - rewrite sum_seq_S, sum_seq_shift. unfold pmul. cbn [rnat].
      transitivity (sum (seq 0 (S n)) (fun k => rnat (S k) * f (S k) * g (S n - S k)%nat)).
      { cbn [rnat]. ring. }
      apply sum_ext. intros k Hk. replace (S n - S k)%nat with (n - k)%nat by lia. reflexivity.
    - rewrite sum_seq_last. cbn [Nat.add]. replace (S n - S n)%nat with O by lia.
      unfold pmul. transitivity (sum (seq 0 (S n)) (fun i => f i * (rnat (S n - i) * g (S n - i)%nat))).
      { cbn [rnat]. ring. }
      apply sum_ext. intros k Hk. apply in_seq in Hk.
      replace (S n - k)%nat with (S (n - k)) by lia. reflexivity.
  Qed.
  Lemma pder_one : pder pone == (fun _ => 0).
  Proof. intros n. unfold pder, pone. ring. Qed.
  Lemma pder_pow f k : pder (ppow f (S k)) == pscal (rnat (S k)) (pmul (ppow f k) (pder f)).
  Proof.
    induction k as [|k IH].
    - cbn [ppow]. rewrite pmul_one_r, pmul_one_l. intros n. unfold pscal. cbn [rnat]. ring.
    - change (ppow f (S (S k))) with (pmul f (ppow f (S k))).
      rewrite pder_mul, IH, pmul_scal_r.
      rewrite (pmul_comm (pder f)).
      assert (E : pmul f (pmul (ppow f k) (pder f)) == pmul (ppow f (S k)) (pder f)).
      { cbn [ppow]. rewrite pmul_assoc. reflexivity. }
      rewrite E. intros n. unfold padd, pscal. cbn [rnat]. ring.
  Qed.

  (** Orders: powers of a series without constant term start late. *)
  Lemma ppow_low f k n : f O = 0 -> (n < k)%nat -> ppow f k n = 0.
  Proof.
    intros H0. revert n. induction k as [|k IH]; intros n Hn; [lia|]. cbn [ppow]. unfold pmul.
    apply sum_zero. intros i Hi. apply in_seq in Hi. destruct i.
    - rewrite H0. ring. - rewrite IH by lia. ring.
  Qed.
  Lemma ppow_S_r f k : ppow f (S k) == pmul (ppow f k) f.
  Proof. cbn [ppow]. apply pmul_comm. Qed.

  (** Composition f(g(t)) for g without constant term. *)
  Definition pcomp (f g : ps) : ps := fun n => sum (seq 0 (S n)) (fun k => f k * ppow g k n).
  Lemma pcomp_ext_bound f g n m : g O = 0 -> (n <= m)%nat ->
    pcomp f g n = sum (seq 0 (S m)) (fun k => f k * ppow g k n).
  Proof.
    intros H0 Hle. unfold pcomp. symmetry. apply sum_seq_extend; [lia|].
    intros k Hk. rewrite ppow_low by (auto; lia). ring.
  Qed.

  Lemma qinv_cancel n (x y : K) : (0 < n)%nat -> rnat n * x = rnat n * y -> x = y.
  Proof.
    intros Hn H. transitivity (qinv n * (rnat n * x)).
    - transitivity ((rnat n * @qinv R n) * x); [rewrite (qinv_ok R n Hn); ring|ring].
    - rewrite H. transitivity ((rnat n * @qinv R n) * y); [ring|rewrite (qinv_ok R n Hn); ring].
  Qed.

  (** exp and log(1+t) as series. *)
  Fixpoint invfact (n : nat) : K := match n with O => 1 | S n => qinv (S n) * invfact n end.
  Definition pexp : ps := invfact.
  Definition pexpm1 : ps := fun n => match n with O => 0 | S n => invfact (S n) end.
  Definition plog : ps := fun n => match n with O => 0 | S m => rpow (- (1)) m * qinv (S m) end.
  Definition pvar : ps := fun n => match n with S O => 1 | _ => 0 end.

  Lemma pder_exp : pder pexp == pexp.
  Proof.
    intros n. unfold pder, pexp. cbn [invfact].
    transitivity ((rnat (S n) * @qinv R (S n)) * invfact n); [ring|]. rewrite (qinv_ok R) by lia. ring.
  Qed.
  Lemma pder_expm1 : pder pexpm1 == padd pone pexpm1.
  Proof.
    intros n. transitivity (pder pexp n); [reflexivity|]. rewrite pder_exp.
    unfold padd, pone, pexpm1, pexp. destruct n; cbn [invfact]; ring.
  Qed.
  Lemma pder_log n : pder plog n = rpow (- (1)) n.
  Proof.
    unfold pder, plog. transitivity ((rnat (S n) * @qinv R (S n)) * rpow (- (1)) n); [ring|].
    rewrite (qinv_ok R) by lia. ring.
  Qed.

  (** Derivative of a composition, coefficientwise. *)
  Lemma pder_comp f g n : g O = 0 ->
    pder (pcomp f g) n = sum (seq 0 (S n)) (fun k => rnat (S k) * f (S k) * pmul (ppow g k) (pder g) n).
  Proof.
    intros H0. unfold pder at 1, pcomp. rewrite <- sum_mul_l.
    rewrite sum_seq_S, sum_seq_shift.
    transitivity (sum (seq 0 (S n)) (fun k => f (S k) * pder (ppow g (S k)) n)).
    { transitivity (0 + sum (seq 0 (S n)) (fun k => f (S k) * pder (ppow g (S k)) n)); [|ring].
      f_equal.
      - cbn [ppow pone]. ring.
      - apply sum_ext. intros k _. unfold pder. ring. }
    apply sum_ext. intros k _. rewrite pder_pow. unfold pscal. ring.
  Qed.

  (** log(exp t) = t *)
  Theorem log_exp_series : pcomp plog pexpm1 == pvar.
  Proof.
    assert (H0 : pexpm1 O = 0) by reflexivity.
    intros [|n].
    { unfold pcomp. cbn. ring. }
    apply (qinv_cancel (S n)); [lia|].
    change (rnat (S n) * pcomp plog pexpm1 (S n)) with (pder (pcomp plog pexpm1) n).
    rewrite pder_comp by auto.
    transitivity (sum (seq 0 (S n)) (fun k => rpow (- (1)) k * (ppow pexpm1 k n + ppow pexpm1 (S k) n))).
    { apply sum_ext. intros k _. change (rnat (S k) * plog (S k)) with (pder plog k). rewrite pder_log.
      f_equal.
      assert (E : pmul (ppow pexpm1 k) (pder pexpm1) == padd (ppow pexpm1 k) (ppow pexpm1 (S k))).
      { etransitivity; [apply pmul_proper; [reflexivity|apply pder_expm1]|].
        etransitivity; [apply pmul_add_r|]. apply padd_proper; [apply pmul_one_r|symmetry; apply ppow_S_r]. }
      apply E. }
    assert (T : forall m, sum (seq 0 (S m)) (fun k => rpow (- (1)) k * (ppow pexpm1 k n + ppow pexpm1 (S k) n))
       = pone n + rpow (- (1)) m * ppow pexpm1 (S m) n).
    { induction m as [|m IH].
      - simpl seq. cbn [sum rpow]. cbn [ppow]. ring.
      - rewrite sum_seq_last, IH. cbn [Nat.add rpow]. ring. }
    rewrite T, ppow_low by (auto; lia).
    unfold pone, pvar. destruct n; cbn [rnat]; ring.
  Qed.

  (** exp(log(1+t)) = 1+t *)
  Theorem exp_log_series : pcomp pexp plog == padd pone pvar.
  Proof.
    assert (H0 : plog O = 0) by reflexivity.
    set (F := pcomp pexp plog).
    assert (DF : forall n, pder F n = pmul F (pder plog) n).
    { intros n. unfold F. rewrite pder_comp by auto.
      transitivity (sum (seq 0 (S n)) (fun k => invfact k * pmul (ppow plog k) (pder plog) n)).
      { apply sum_ext. intros k _. change (rnat (S k) * pexp (S k)) with (pder pexp k). rewrite pder_exp. reflexivity. }
      unfold pmul at 2.
      transitivity (sum (seq 0 (S n)) (fun i => sum (seq 0 (S n)) (fun k => invfact k * ppow plog k i) * pder plog (n - i)%nat)).
      - transitivity (sum (seq 0 (S n)) (fun k => sum (seq 0 (S n)) (fun i => invfact k * ppow plog k i * pder plog (n - i)%nat))).
        + apply sum_ext. intros k _. unfold pmul. rewrite <- sum_mul_l. apply sum_ext. intros; ring.
        + rewrite sum_swap. apply sum_ext. intros i _. rewrite <- sum_mul_r. reflexivity.
      - apply sum_ext. intros i Hi. apply in_seq in Hi. f_equal.
        rewrite (pcomp_ext_bound pexp plog i n) by (auto; lia). reflexivity. }
    assert (REC : forall n, pder F (S n) + pder F n = F (S n)).
    { intros n. rewrite !DF. unfold pmul. rewrite sum_seq_last. cbn [Nat.add].
      replace (S n - S n)%nat with O by lia. rewrite pder_log. cbn [rpow].
      rewrite (sum_ext (qr R) (seq 0 (S n)) (fun i => F i * pder plog (S n - i)%nat)
        (fun i => - (F i * pder plog (n - i)%nat))).
      - rewrite sum_opp. ring.
      - intros i Hi. apply in_seq in Hi. rewrite !pder_log. replace (S n - i)%nat with (S (n - i)) by lia. cbn [rpow]. ring. }
    assert (F0 : F O = 1).
    { unfold F, pcomp. cbn. ring. }
    assert (F1 : F 1%nat = 1).
    { apply (qinv_cancel 1%nat); [lia|]. change (rnat 1%nat * F 1%nat) with (pder F O). rewrite DF.
      unfold pmul. cbn [seq sum]. cbn [Nat.sub]. rewrite pder_log, F0. cbn [rnat rpow]. ring. }
    assert (F2 : forall n, F (S (S n)) = 0).
    { induction n as [|n IH].
      - apply (qinv_cancel 2%nat); [lia|]. change (rnat 2%nat * F 2%nat) with (pder F 1%nat).
        assert (E := REC 0%nat). rewrite F1 in E.
        assert (E0 : pder F O = 1) by (unfold pder; rewrite F1; cbn [rnat]; ring).
        rewrite E0 in E. transitivity ((pder F 1%nat + 1) - 1); [ring|]. rewrite E. cbn [rnat]. ring.
      - apply (qinv_cancel (S (S (S n)))); [lia|].
        change (rnat (S (S (S n))) * F (S (S (S n)))) with (pder F (S (S n))).
        assert (E := REC (S n)). rewrite IH in E.
        assert (E0 : pder F (S n) = 0) by (unfold pder; rewrite IH; ring).
        rewrite E0 in E. transitivity (pder F (S (S n)) + 0); [ring|]. rewrite E. ring. }
    intros [|[|n]]; unfold padd, pone, pvar.
    - rewrite F0; ring. - rewrite F1; ring. - rewrite F2; ring.
  Qed.
End PS.
