(** The derivative of the exponential: the e-part of exp(x + y e) is exp(x) times the series of iterated
    commutators of x with y. *)
From Coq Require Import Arith List Lia Ring Setoid Morphisms.
From Verif Require Import Alg PowerSeries Series Shuffle Dual.
Import ListNotations.

Section Dexp.
  Variable R : qalg.
  Variable K : Type.
  Add Ring Rde : (rth R).
  Notation tensor := (tens R K).
  Variables x y : tensor.
  Notation D := (dual R).
  Definition xy : tens D K := fun v => (x v, y v).
  Fixpoint adp (d : nat) : tensor := match d with O => y | S d => comm x (adp d) end.
  Notation e := (invfact R).
  Definition sg (d : nat) : R := rpow (ropp r1) d.
  Definition cc (d j : nat) : R := rmul (rmul (sg d) (e (S d))) (e j).
  Definition T (j d : nat) : tensor := conv (tpow x j) (adp d).

  Lemma cv_ext (a a' b b' : tensor) u : (forall v, a v = a' v) -> (forall v, b v = b' v) -> conv a b u = conv a' b' u.
  Proof. intros Ha Hb. apply conv_local; auto. Qed.
  Lemma dsum {A} (l : list A) (f : A -> D) : @sum D A l f = (sum l (fun a => fst (f a)), sum l (fun a => snd (f a))).
  Proof. induction l as [|a l IH]; [reflexivity|]. cbn [sum]. rewrite IH. reflexivity. Qed.
  Lemma dconv (f g : tens D K) u : @conv D K f g u = (conv (fun v => fst (f v)) (fun v => fst (g v)) u, radd (conv (fun v => fst (f v)) (fun v => snd (g v)) u) (conv (fun v => snd (f v)) (fun v => fst (g v)) u)).
  Proof. unfold conv. rewrite dsum. f_equal. rewrite <- sum_add. reflexivity. Qed.
  Lemma dpow_fst k : forall u, fst (@tpow D K xy k u) = tpow x k u.
  Proof.
    induction k as [|k IH]; intros u; cbn [tpow].
    - destruct u; reflexivity.
    - rewrite dconv. cbn [fst]. apply cv_ext; auto.
  Qed.
  Definition P (k : nat) : tensor := fun u => snd (@tpow D K xy k u).
  Lemma P_0 u : P 0 u = r0. Proof. destruct u; reflexivity. Qed.
  Lemma P_S k u : P (S k) u = radd (conv (P k) x u) (conv (tpow x k) y u).
  Proof.
    unfold P. change (tpow xy (S k) u) with (@conv D K xy (tpow xy k) u). rewrite (tpow_comm D K xy k u), dconv. cbn [snd].
    rewrite (cv_ext (fun v => fst (tpow xy k v)) (tpow x k) (fun v => snd (xy v)) y) by (auto using dpow_fst). change (fun v => fst (xy v)) with x. ring.
  Qed.
  Lemma T_x j d u : conv (T j d) x u = rsub (T (S j) d u) (T j (S d) u).
  Proof.
    unfold T. rewrite (conv_assoc R K (tpow x j) (adp d) x u). cbn [adp]. unfold comm.
    rewrite (conv_sub_r R K (tpow x j) (conv x (adp d)) (conv (adp d) x) u). unfold tsub.
    assert (E : conv (tpow x (S j)) (adp d) u = conv (tpow x j) (conv x (adp d)) u).
    { rewrite <- (conv_assoc R K (tpow x j) x (adp d) u). apply cv_ext; [|auto]. intros v. apply (tpow_comm R K x j v). }
    rewrite E. ring.
  Qed.
  Lemma e_S k : rmul (rnat (S k)) (e (S k)) = e k.
  Proof. cbn [invfact]. transitivity (rmul (rmul (rnat (S k)) (@qinv R (S k))) (e k)); [ring|]. rewrite (qinv_ok R) by lia. ring. Qed.
  Lemma sg_S d : sg (S d) = ropp (sg d). Proof. unfold sg. cbn [rpow]. ring. Qed.
  Lemma rnat_add a b : @rnat R (a + b) = radd (rnat a) (rnat b).
  Proof. induction a as [|a IH]; cbn [rnat Nat.add]; [ring|]. rewrite IH. ring. Qed.
  Lemma Q_eq k : forall u, rmul (e k) (P k u) = sum (seq 0 k) (fun d => rmul (cc d (k - 1 - d)) (T (k - 1 - d) d u)).
  Proof.
    induction k as [|k IH]; intros u; [rewrite P_0; cbn; ring|].
    assert (Main : rmul (rnat (S k)) (rmul (e (S k)) (P (S k) u)) = rmul (rnat (S k)) (sum (seq 0 (S k)) (fun d => rmul (cc d (k - d)) (T (k - d) d u)))).
    { transitivity (rmul (e k) (P (S k) u)); [rewrite <- (e_S k); ring|]. rewrite P_S.
      assert (E1 : rmul (e k) (conv (P k) x u) = sum (seq 0 k) (fun d => rmul (cc d (k - 1 - d)) (conv (T (k - 1 - d) d) x u))).
      { transitivity (conv (tscal (e k) (P k)) x u); [symmetry; apply (conv_scal_l R K (e k) (P k) x u)|].
        rewrite (cv_ext (tscal (e k) (P k)) (fun v => sum (seq 0 k) (fun d => rmul (cc d (k - 1 - d)) (T (k - 1 - d) d v))) x x) by (auto; intros v; apply IH).
        unfold conv. rewrite (sum_ext R (seq 0 k) _ (fun d => sum (seq 0 (S (length u))) (fun i => rmul (rmul (cc d (k - 1 - d)) (T (k - 1 - d) d (firstn i u))) (x (skipn i u))))).
        - rewrite sum_swap. apply sum_ext. intros i _. rewrite <- sum_mul_r. reflexivity.
        - intros d _. rewrite <- sum_mul_l. apply sum_ext. intros i _. ring. }
      transitivity (radd (rmul (e k) (conv (P k) x u)) (rmul (e k) (T k 0 u))); [unfold T; cbn [adp]; ring|]. rewrite E1. clear E1 IH.
      rewrite (sum_ext R (seq 0 k) _ (fun d => rsub (rmul (rnat (k - d)) (rmul (cc d (k - d)) (T (k - d) d u))) (rmul (cc d (k - 1 - d)) (T (k - 1 - d) (S d) u)))).
      2:{ intros d Hd. apply in_seq in Hd. rewrite T_x. replace (S (k - 1 - d)) with (k - d)%nat by lia. unfold cc. rewrite <- (e_S (k - 1 - d)). replace (S (k - 1 - d)) with (k - d)%nat by lia. ring. }
      rewrite sum_sub.
      assert (E2 : sum (seq 0 k) (fun d => rmul (rnat (k - d)) (rmul (cc d (k - d)) (T (k - d) d u))) = sum (seq 0 (S k)) (fun d => rmul (rnat (k - d)) (rmul (cc d (k - d)) (T (k - d) d u)))).
      { rewrite sum_seq_last. replace (k - (0 + k))%nat with 0%nat by lia. cbn [rnat]. ring. }
      rewrite E2.
      assert (E3 : sum (seq 0 (S k)) (fun d => rmul (rnat (S d)) (rmul (cc d (k - d)) (T (k - d) d u))) = rsub (rmul (e k) (T k 0 u)) (sum (seq 0 k) (fun d => rmul (cc d (k - 1 - d)) (T (k - 1 - d) (S d) u)))).
      { rewrite sum_seq_S. rewrite sum_seq_shift. rewrite (sum_ext R (seq 0 k) _ (fun d => ropp (rmul (cc d (k - 1 - d)) (T (k - 1 - d) (S d) u)))).
        - rewrite sum_opp. rewrite Nat.sub_0_r. unfold cc at 1. assert (E := e_S 0). unfold sg. cbn [rpow].
          transitivity (rsub (rmul (rmul (rmul (rnat 1) (e 1)) (e k)) (T k 0 u)) (sum (seq 0 k) (fun d => rmul (cc d (k - 1 - d)) (T (k - 1 - d) (S d) u)))); [ring|].
          rewrite E. cbn [invfact]. ring.
        - intros d Hd. apply in_seq in Hd. replace (k - S d)%nat with (k - 1 - d)%nat by lia. unfold cc. rewrite sg_S. rewrite <- (e_S (S d)). ring. }
      transitivity (radd (sum (seq 0 (S k)) (fun d => rmul (rnat (k - d)) (rmul (cc d (k - d)) (T (k - d) d u)))) (sum (seq 0 (S k)) (fun d => rmul (rnat (S d)) (rmul (cc d (k - d)) (T (k - d) d u))))).
      { rewrite E3. ring. }
      rewrite <- sum_add, <- sum_mul_l. apply sum_ext. intros d Hd. apply in_seq in Hd. assert (Er : @rnat R (S k) = radd (rnat (k - d)) (rnat (S d))) by (rewrite <- rnat_add; f_equal; lia). rewrite Er. ring. }
    transitivity (rmul (@qinv R (S k)) (rmul (rnat (S k)) (rmul (e (S k)) (P (S k) u)))).
    { transitivity (rmul (rmul (rnat (S k)) (@qinv R (S k))) (rmul (e (S k)) (P (S k) u))); [rewrite (qinv_ok R) by lia; ring|ring]. }
    rewrite Main. transitivity (rmul (rmul (rnat (S k)) (@qinv R (S k))) (sum (seq 0 (S k)) (fun d => rmul (cc d (k - d)) (T (k - d) d u)))); [ring|].
    rewrite (qinv_ok R) by lia. transitivity (sum (seq 0 (S k)) (fun d => rmul (cc d (k - d)) (T (k - d) d u))); [ring|]. apply sum_ext. intros d _. replace (S k - 1 - d)%nat with (k - d)%nat by lia. reflexivity.
  Qed.

  (** The series. *)
  Definition dser (n : nat) : tensor := fun u => sum (seq 0 (S n)) (fun d => rmul (rmul (sg d) (e (S d))) (adp d u)).
  Hypothesis x0 : x [] = r0.
  Hypothesis y0 : y [] = r0.
  Lemma adp_low d : forall u, (length u <= d)%nat -> adp d u = r0.
  Proof.
    induction d as [|d IH]; intros u Hu; cbn [adp]; [destruct u; [auto|cbn in Hu; lia]|].
    unfold comm, tsub, conv. rewrite !(sum_zero R); [ring| |].
    - intros i Hi. apply in_seq in Hi. destruct (Nat.eq_dec i (length u)) as [->|].
      + rewrite skipn_all, x0. ring.
      + rewrite IH; [ring|]. rewrite firstn_length. lia.
    - intros i Hi. apply in_seq in Hi. destruct i as [|i]; [cbn [firstn]; rewrite x0; ring|]. rewrite IH; [ring|]. rewrite skipn_length. lia.
  Qed.
  Lemma T_low j d u : (length u <= j + d)%nat -> T j d u = r0.
  Proof.
    intros Hu. unfold T, conv. apply sum_zero. intros i Hi. apply in_seq in Hi. destruct (Nat.lt_ge_cases i j) as [Hj|Hj].
    - rewrite (tpow_low R K x j) by (auto; rewrite firstn_length; lia). ring.
    - rewrite adp_low by (rewrite skipn_length; lia). ring.
  Qed.
  Theorem dexp_eq n u : (length u <= n)%nat -> snd (@texp D K n xy u) = conv (texp n x) (dser n) u.
  Proof.
    intros Hu. unfold texp, tpoly. rewrite dsum. cbn [snd].
    assert (I : forall k, invfact D k = (e k, r0)).
    { induction k as [|k IH]; [reflexivity|]. cbn [invfact]. rewrite IH. cbn. unfold dmul. cbn [fst snd]. f_equal. ring. }
    rewrite (sum_ext R (seq 0 (S n)) _ (fun k => sum (seq 0 k) (fun d => rmul (cc d (k - 1 - d)) (T (k - 1 - d) d u)))).
    2:{ intros k _. rewrite <- Q_eq. rewrite I. change (radd (rmul (e k) (snd (@tpow D K xy k u))) (rmul r0 (fst (@tpow D K xy k u))) = rmul (e k) (P k u)). unfold P. ring. }
    assert (S1 : conv (fun w => sum (seq 0 (S n)) (fun k => rmul (e k) (tpow x k w))) (dser n) u = sum (seq 0 (S n)) (fun j => sum (seq 0 (S n)) (fun d => rmul (cc d j) (T j d u)))).
    { unfold T, conv. rewrite (sum_ext R (seq 0 (S (length u))) _ (fun i => sum (seq 0 (S n)) (fun j => sum (seq 0 (S n)) (fun d => rmul (cc d j) (rmul (tpow x j (firstn i u)) (adp d (skipn i u))))))).
      - rewrite sum_swap. apply sum_ext. intros j _. rewrite sum_swap. apply sum_ext. intros d _. rewrite <- sum_mul_l. reflexivity.
      - intros i _. rewrite <- sum_mul_r. apply sum_ext. intros j _. unfold dser. rewrite <- sum_mul_l. apply sum_ext. intros d _. unfold cc. ring. }
    transitivity (conv (fun w => sum (seq 0 (S n)) (fun k => rmul (e k) (tpow x k w))) (dser n) u); [|reflexivity]. rewrite S1. clear S1.
    rewrite (sum_seq_S R 0 n (fun k => sum (seq 0 k) (fun d => rmul (cc d (k - 1 - d)) (T (k - 1 - d) d u)))).
    transitivity (sum (seq 1 n) (fun k => sum (seq 0 k) (fun d => rmul (cc d (k - 1 - d)) (T (k - 1 - d) d u)))).
    { generalize (sum (seq 1 n) (fun k => sum (seq 0 k) (fun d => rmul (cc d (k - 1 - d)) (T (k - 1 - d) d u)))). intros r. cbn [seq sum]. ring. }
    rewrite sum_seq_shift.
    transitivity (sum (seq 0 n) (fun j => sum (seq 0 n) (fun d => rmul (cc d j) (T j d u)))).
    - assert (G : forall (f : nat -> nat -> R), sum (seq 0 n) (fun k => sum (seq 0 (S k)) (fun d => f d (k - d)%nat)) = sum (seq 0 n) (fun j => sum (seq 0 n) (fun d => if (j + d <? n)%nat then f d j else r0))).
      { intros f.
        transitivity (sum (seq 0 n) (fun k => sum (seq 0 n) (fun d => sum (seq 0 n) (fun j => if (j + d =? k)%nat then f d j else r0)))).
        - apply sum_ext. intros k Hk. apply in_seq in Hk.
          replace n with (S k + (n - S k))%nat at 1 by lia. rewrite seq_app, sum_app. rewrite (sum_zero R (seq (0 + S k) (n - S k))).
          2:{ intros d Hd. apply in_seq in Hd. apply sum_zero. intros j _. destruct (Nat.eqb_spec (j + d) k); [lia|reflexivity]. }
          transitivity (sum (seq 0 (S k)) (fun d => f d (k - d)%nat)); [reflexivity|]. transitivity (sum (seq 0 (S k)) (fun d => sum (seq 0 n) (fun j => if (j + d =? k)%nat then f d j else r0))); [|ring].
          apply sum_ext. intros d Hd. apply in_seq in Hd. rewrite (sum_single R (seq 0 n) _ (k - d)%nat).
          + destruct (Nat.eqb_spec (k - d + d) k); [reflexivity|lia].
          + apply seq_NoDup.
          + apply in_seq. lia.
          + intros j Hj Nj. destruct (Nat.eqb_spec (j + d) k); [lia|reflexivity].
        - rewrite (sum_swap R (seq 0 n) (seq 0 n) (fun k d => sum (seq 0 n) (fun j => if (j + d =? k)%nat then f d j else r0))).
          transitivity (sum (seq 0 n) (fun d => sum (seq 0 n) (fun j => if (j + d <? n)%nat then f d j else r0))); [|apply sum_swap].
          apply sum_ext. intros d Hd. rewrite (sum_swap R (seq 0 n) (seq 0 n)). apply sum_ext. intros j Hj. apply in_seq in Hd. apply in_seq in Hj.
          destruct (Nat.ltb_spec (j + d) n) as [H|H].
          + rewrite (sum_single R (seq 0 n) _ (j + d)%nat); [rewrite Nat.eqb_refl; reflexivity|apply seq_NoDup|apply in_seq; lia|]. intros k _ Nk. destruct (Nat.eqb_spec (j + d) k); [congruence|reflexivity].
          + apply sum_zero. intros k Hk. apply in_seq in Hk. destruct (Nat.eqb_spec (j + d) k); [lia|reflexivity]. }
      rewrite (sum_ext R (seq 0 n) _ (fun k => sum (seq 0 (S k)) (fun d => (fun d j => rmul (cc d j) (T j d u)) d (k - d)%nat))).
      + rewrite (G (fun d j => rmul (cc d j) (T j d u))). apply sum_ext. intros j _. apply sum_ext. intros d _. destruct (Nat.ltb_spec (j + d) n); [reflexivity|]. rewrite T_low by lia. ring.
      + intros k _. apply sum_ext. intros d _. replace (S k - 1 - d)%nat with (k - d)%nat by lia. reflexivity.
    - rewrite sum_seq_last. rewrite (sum_zero R (seq 0 (S n)) (fun d => rmul (cc d (0 + n)) (T (0 + n) d u))).
      2:{ intros d _. rewrite T_low by lia. ring. }
      transitivity (sum (seq 0 n) (fun j => sum (seq 0 (S n)) (fun d => rmul (cc d j) (T j d u)))); [|ring].
      apply sum_ext. intros j _. rewrite sum_seq_last. rewrite (T_low j (0 + n)) by lia. ring.
  Qed.
End Dexp.
