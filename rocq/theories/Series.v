(** Formal non-commutative series: functions from words to scalars, with the
    concatenation product; exponential, logarithm, antipode.  This file is pure
    mathematics (the specification side); it mentions no code. *)
From Verif Require Import Alg PowerSeries.
From Coq Require Import Setoid Morphisms.

Section Series.
  Variable R : cring.
  Variable A : Type.
  Add Ring Rring : (rth R).
  Local Open Scope cr_scope.

  Definition tens := list A -> R.
  Definition teq (a b : tens) : Prop := forall w, a w = b w.
  Infix "==" := teq (at level 70).
  Global Instance teq_equiv : Equivalence teq.
  Proof. split; [intros f n; reflexivity|intros f g H n; symmetry; apply H|intros f g h H1 H2 n; rewrite H1; apply H2]. Qed.

  (** Concatenation product: sum over all ways to cut the word in two. *)
  Definition conv (a b : tens) : tens :=
    fun w => sum (seq 0 (S (length w))) (fun k => a (firstn k w) * b (skipn k w)).
  Definition tone : tens := fun w => match w with [] => 1 | _ => 0 end.
  Definition tzero : tens := fun _ => 0.
  Definition tadd (a b : tens) : tens := fun w => a w + b w.
  Definition tsub (a b : tens) : tens := fun w => a w - b w.
  Definition tscal (c : R) (a : tens) : tens := fun w => c * a w.
  (** Left derivative: strip a first letter. *)
  Definition dl (x : A) (a : tens) : tens := fun w => a (x :: w).

  Lemma conv_nil a b : conv a b [] = a [] * b [].
  Proof. unfold conv. cbn. ring. Qed.
  Lemma conv_cons a b x w : conv a b (x :: w) = a [] * b (x :: w) + conv (dl x a) b w.
  Proof.
    unfold conv. cbn [length]. rewrite sum_seq_S, sum_seq_shift. cbn [firstn skipn]. reflexivity.
  Qed.

  (** The product at [w] only looks at words no longer than [w]. *)
  Lemma conv_local a a' b b' w :
    (forall u, (length u <= length w)%nat -> a u = a' u) ->
    (forall u, (length u <= length w)%nat -> b u = b' u) -> conv a b w = conv a' b' w.
  Proof.
    intros Ha Hb. unfold conv. apply sum_ext. intros k Hk. rewrite Ha, Hb; [reflexivity| |].
    - rewrite skipn_length. lia. - rewrite firstn_length. lia.
  Qed.
  Global Instance conv_proper : Proper (teq ==> teq ==> teq) conv.
  Proof. intros a a' Ha b b' Hb w. apply conv_local; auto. Qed.
  Global Instance tadd_proper : Proper (teq ==> teq ==> teq) tadd.
  Proof. intros a a' Ha b b' Hb w. unfold tadd. rewrite Ha, Hb. reflexivity. Qed.
  Global Instance tsub_proper : Proper (teq ==> teq ==> teq) tsub.
  Proof. intros a a' Ha b b' Hb w. unfold tsub. rewrite Ha, Hb. reflexivity. Qed.
  Global Instance tscal_proper c : Proper (teq ==> teq) (tscal c).
  Proof. intros a a' Ha w. unfold tscal. rewrite Ha. reflexivity. Qed.

  Lemma conv_add_l a b c : conv (tadd a b) c == tadd (conv a c) (conv b c).
  Proof. intros w. unfold conv, tadd. rewrite <- sum_add. apply sum_ext; intros; ring. Qed.
  Lemma conv_add_r a b c : conv a (tadd b c) == tadd (conv a b) (conv a c).
  Proof. intros w. unfold conv, tadd. rewrite <- sum_add. apply sum_ext; intros; ring. Qed.
  Lemma conv_sub_l a b c : conv (tsub a b) c == tsub (conv a c) (conv b c).
  Proof. intros w. unfold conv, tsub. rewrite <- sum_sub. apply sum_ext; intros; ring. Qed.
  Lemma conv_sub_r a b c : conv a (tsub b c) == tsub (conv a b) (conv a c).
  Proof. intros w. unfold conv, tsub. rewrite <- sum_sub. apply sum_ext; intros; ring. Qed.
  Lemma conv_scal_l c a b : conv (tscal c a) b == tscal c (conv a b).
  Proof. intros w. unfold conv, tscal. rewrite <- sum_mul_l. apply sum_ext; intros; ring. Qed.
  Lemma conv_scal_r c a b : conv a (tscal c b) == tscal c (conv a b).
  Proof. intros w. unfold conv, tscal. rewrite <- sum_mul_l. apply sum_ext; intros; ring. Qed.
  Lemma conv_zero_l b : conv tzero b == tzero.
  Proof. intros w. unfold conv, tzero. apply sum_zero; intros; ring. Qed.
  Lemma conv_zero_r b : conv b tzero == tzero.
  Proof. intros w. unfold conv, tzero. apply sum_zero; intros; ring. Qed.
  Lemma conv_one_l a : conv tone a == a.
  Proof.
    intros [|x w]; [rewrite conv_nil; cbn; ring|].
    rewrite conv_cons. cbn [tone].
    assert (E : conv (dl x tone) a w = 0).
    { unfold conv. apply sum_zero. intros; unfold dl; cbn; ring. }
    rewrite E. ring.
  Qed.
  Lemma conv_one_r a : conv a tone == a.
  Proof.
    intros w. revert a. induction w as [|x w IH]; intros a.
    - rewrite conv_nil; cbn; ring.
    - rewrite conv_cons, IH. cbn. unfold dl. ring.
  Qed.
  Lemma conv_assoc a b c : conv (conv a b) c == conv a (conv b c).
  Proof.
    intros w. revert a. induction w as [|x w IH]; intros a.
    - rewrite !conv_nil. ring.
    - rewrite !conv_cons, conv_nil.
      assert (E : conv (dl x (conv a b)) c w
        = a [] * conv (dl x b) c w + conv (conv (dl x a) b) c w).
      { transitivity (conv (tadd (tscal (a []) (dl x b)) (conv (dl x a) b)) c w).
        - apply conv_local; auto. intros u _. unfold dl at 1. rewrite conv_cons. reflexivity.
        - rewrite (conv_add_l _ _ _ w). unfold tadd. rewrite (conv_scal_l _ _ _ w). reflexivity. }
      rewrite E, IH. unfold dl. ring.
  Qed.

  (** Powers and nilpotency. *)
  Fixpoint tpow (x : tens) (n : nat) : tens :=
    match n with O => tone | S n => conv x (tpow x n) end.
  Global Instance tpow_proper : Proper (teq ==> eq ==> teq) tpow.
  Proof. intros f f' Hf n ? <-. induction n; cbn [tpow]; [reflexivity|apply conv_proper; auto]. Qed.
  Lemma tpow_comm x n : conv x (tpow x n) == conv (tpow x n) x.
  Proof.
    induction n as [|n IH]; cbn [tpow].
    - rewrite conv_one_l, conv_one_r. reflexivity.
    - rewrite conv_assoc, IH. reflexivity.
  Qed.
  Lemma tpow_add x n m : tpow x (n + m) == conv (tpow x n) (tpow x m).
  Proof.
    induction n as [|n IH]; cbn [tpow Nat.add].
    - rewrite conv_one_l. reflexivity. - rewrite IH, conv_assoc. reflexivity.
  Qed.
  Lemma tpow_low x n w : x [] = 0 -> (length w < n)%nat -> tpow x n w = 0.
  Proof.
    intros H0. revert w. induction n as [|n IH]; intros w Hw; [lia|].
    cbn [tpow]. unfold conv. apply sum_zero. intros k Hk. apply in_seq in Hk.
    destruct k.
    - cbn [firstn]. rewrite H0. ring.
    - rewrite IH; [ring|]. rewrite skipn_length. lia.
  Qed.
  Lemma tpow_local x y n w : (forall u, (length u <= length w)%nat -> x u = y u) -> tpow x n w = tpow y n w.
  Proof.
    revert w. induction n as [|n IH]; intros w H; cbn [tpow]; [reflexivity|].
    apply conv_local; [auto|]. intros u Hu. apply IH. intros v Hv. apply H. lia.
  Qed.

  (** Evaluate a univariate polynomial (coefficients of degree <= N) at a series. *)
  Definition tpoly (N : nat) (f : nat -> R) (x : tens) : tens :=
    fun w => sum (seq 0 (S N)) (fun k => f k * tpow x k w).
  Lemma tpoly_bound N f x w : x [] = 0 -> (length w <= N)%nat ->
    tpoly N f x w = tpoly (length w) f x w.
  Proof.
    intros H0 Hl. unfold tpoly. apply sum_seq_extend; [lia|].
    intros k Hk. rewrite tpow_low by (auto; lia). ring.
  Qed.
  Lemma tpoly_local N f x y w : (forall u, (length u <= length w)%nat -> x u = y u) -> tpoly N f x w = tpoly N f y w.
  Proof. intros H. unfold tpoly. apply sum_ext. intros. rewrite (tpow_local x y) by auto. reflexivity. Qed.
  Lemma tpoly_nil N f x : x [] = 0 -> tpoly N f x [] = f O.
  Proof.
    intros H0. rewrite tpoly_bound by (auto; cbn; lia). unfold tpoly. cbn. ring.
  Qed.

  (** Antipode: reverse the word and sign by its length. *)
  Definition anti (a : tens) : tens := fun w => rpow (- (1)) (length w) * a (rev w).
  Global Instance anti_proper : Proper (teq ==> teq) anti.
  Proof. intros a b H w. unfold anti. rewrite H. reflexivity. Qed.
  Lemma anti_anti a : anti (anti a) == a.
  Proof.
    intros w. unfold anti. rewrite rev_length, rev_involutive.
    transitivity ((rpow (- (1)) (length w) * rpow (- (1)) (length w)) * a w); [ring|].
    rewrite rpow_m1_sq. ring.
  Qed.
  Lemma anti_conv a b : anti (conv a b) == conv (anti b) (anti a).
  Proof.
    intros w. unfold anti at 1, conv at 1. rewrite rev_length, <- sum_mul_l, sum_seq_rev.
    unfold conv. apply sum_ext. intros k Hk. apply in_seq in Hk. unfold anti.
    rewrite firstn_length, skipn_length. replace (Nat.min k (length w)) with k by lia.
    rewrite firstn_rev, skipn_rev.
    replace (length w - (length w - k))%nat with k by lia.
    assert (E : rpow (- (1)) (length w) = rpow (- (1)) k * @rpow R (- (1)) (length w - k)).
    { rewrite <- rpow_add. f_equal. lia. }
    rewrite E. ring.
  Qed.
  Lemma anti_one : anti tone == tone.
  Proof.
    intros [|x w]; unfold anti; cbn [length rpow rev tone]; [ring|].
    destruct (rev w ++ [x]) eqn:E; [apply app_eq_nil in E; destruct E; discriminate|]. cbn [tone]. ring.
  Qed.
  Lemma anti_tpow x n : anti (tpow x n) == tpow (anti x) n.
  Proof.
    induction n as [|n IH]; cbn [tpow]; [apply anti_one|].
    rewrite anti_conv, IH, <- tpow_comm. reflexivity.
  Qed.
  Lemma anti_tpoly N f x : anti (tpoly N f x) == tpoly N f (anti x).
  Proof.
    intros w. unfold anti at 1, tpoly. rewrite <- sum_mul_l. apply sum_ext. intros k _.
    rewrite <- (anti_tpow x k w). unfold anti. ring.
  Qed.
End Series.
Arguments teq {R A}. Arguments conv {R A}. Arguments tone {R A}. Arguments tzero {R A}.
Arguments tadd {R A}. Arguments tsub {R A}. Arguments tscal {R A}. Arguments dl {R A}.
Arguments tpow {R A}. Arguments tpoly {R A}. Arguments anti {R A}.

Section ExpLog.
  Variable R : qalg.
  Variable A : Type.
  Add Ring Rring2 : (rth (qr R)).
  Local Open Scope cr_scope.
  Infix "==" := teq (at level 70).
  Notation tens := (tens (qr R) A).

  (** exp(x) = sum_{k<=N} x^k/k!   and   log(1+y) = sum_{1<=k<=N} (-1)^(k+1)/k y^k. *)
  Definition texp (N : nat) (x : tens) : tens := tpoly N (invfact R) x.
  Definition tlog1p (N : nat) (y : tens) : tens := tpoly N (plog R) y.
  Definition tlog (N : nat) (g : tens) : tens := tlog1p N (tsub g tone).

  (** Evaluation is multiplicative. *)
  Lemma tpoly_mul (N : nat) (f g : nat -> R) (x : tens) w : x [] = 0 -> (length w <= N)%nat ->
    tpoly N (pmul R f g) x w = conv (tpoly N f x) (tpoly N g x) w.
  Proof.
    intros H0 Hw.
    transitivity (sum (seq 0 (S N)) (fun i => sum (seq 0 (S N)) (fun j => f i * g j * tpow x (i + j) w))).
    - unfold tpoly.
      transitivity (sum (seq 0 (S N)) (fun k => sum (seq 0 (S k)) (fun i => f i * g (k - i)%nat * tpow x (i + (k - i)) w))).
      { apply sum_ext. intros k Hk. unfold pmul. rewrite <- sum_mul_r. apply sum_ext. intros i Hi. apply in_seq in Hi.
        replace (i + (k - i))%nat with k by lia. reflexivity. }
      rewrite (sum_triangle _ N (fun i j => f i * g j * tpow x (i + j) w)).
      apply sum_ext. intros i Hi. apply in_seq in Hi. symmetry. apply sum_seq_extend; [lia|].
      intros j Hj. rewrite tpow_low by (auto; lia). ring.
    - unfold conv at 1, tpoly.
      transitivity (sum (seq 0 (S N)) (fun i => sum (seq 0 (S N)) (fun j => sum (seq 0 (S (length w)))
         (fun k => f i * g j * (tpow x i (firstn k w) * tpow x j (skipn k w)))))).
      { apply sum_ext. intros i _. apply sum_ext. intros j _. rewrite (tpow_add _ _ x i j w). unfold conv.
        rewrite sum_mul_l. reflexivity. }
      transitivity (sum (seq 0 (S (length w))) (fun k => sum (seq 0 (S N)) (fun i => sum (seq 0 (S N)) (fun j =>
           f i * g j * (tpow x i (firstn k w) * tpow x j (skipn k w)))))).
      { rewrite sum_swap. rewrite (sum_ext _ (seq 0 (S N)) _ (fun j => sum (seq 0 (S (length w))) (fun k =>
          sum (seq 0 (S N)) (fun i => f i * g j * (tpow x i (firstn k w) * tpow x j (skipn k w)))))).
        2:{ intros j _. rewrite sum_swap. reflexivity. }
        rewrite sum_swap. apply sum_ext. intros k _. rewrite sum_swap. reflexivity. }
      apply sum_ext. intros k _. rewrite <- sum_mul_r. apply sum_ext. intros i _. rewrite <- sum_mul_l.
      apply sum_ext. intros j _. ring.
  Qed.
  Lemma tpoly_one N (x : tens) w : x [] = 0 -> (length w <= N)%nat -> tpoly N (pone R) x w = tone w.
  Proof.
    intros H0 Hw. unfold tpoly. rewrite sum_seq_S, sum_zero.
    - cbn. ring. - intros k Hk. apply in_seq in Hk. destruct k; [lia|]. cbn. ring.
  Qed.
  Lemma tpoly_pow N (g : nat -> R) (x : tens) k w : x [] = 0 -> (length w <= N)%nat ->
    tpoly N (ppow R g k) x w = tpow (tpoly N g x) k w.
  Proof.
    intros H0. revert w. induction k as [|k IH]; intros w Hw; cbn [ppow tpow].
    - apply tpoly_one; auto.
    - rewrite tpoly_mul by auto. apply conv_local; [reflexivity|]. intros u Hu. apply IH. lia.
  Qed.
  Lemma tpoly_comp N (f g : nat -> R) (x : tens) w : x [] = 0 -> g O = 0 -> (length w <= N)%nat ->
    tpoly N (pcomp R f g) x w = tpoly N f (tpoly N g x) w.
  Proof.
    intros H0 Hg Hw. unfold tpoly at 1.
    transitivity (sum (seq 0 (S N)) (fun n => sum (seq 0 (S N)) (fun k => f k * (ppow R g k n * tpow x n w)))).
    { apply sum_ext. intros n Hn. apply in_seq in Hn. rewrite (pcomp_ext_bound R f g n N) by (auto; lia).
      rewrite <- sum_mul_r. apply sum_ext; intros; ring. }
    rewrite sum_swap. unfold tpoly at 1. apply sum_ext. intros k _. rewrite sum_mul_l.
    rewrite <- tpoly_pow by auto. reflexivity.
  Qed.

  Theorem texp_tlog N (g : tens) w : g [] = 1 -> (length w <= N)%nat -> texp N (tlog N g) w = g w.
  Proof.
    intros Hg Hw. unfold texp, tlog, tlog1p.
    assert (H0 : tsub g tone [] = 0) by (unfold tsub, tone; rewrite Hg; ring).
    rewrite <- (tpoly_comp N (invfact R) (plog R)) by (auto; reflexivity).
    transitivity (tpoly N (padd R (pone R) (pvar R)) (tsub g tone) w).
    { unfold tpoly. apply sum_ext. intros k _. f_equal. apply (exp_log_series R). }
    destruct N as [|N].
    { destruct w; [|cbn in Hw; lia]. unfold tpoly, padd, pone, pvar. cbn. rewrite Hg. ring. }
    unfold tpoly. rewrite sum_seq_S, sum_seq_S, sum_zero.
    - cbn [tpow]. rewrite (conv_one_r _ _ _ w). unfold padd, pone, pvar, tsub. ring.
    - intros k Hk. apply in_seq in Hk. destruct k as [|[|k]]; try lia. unfold padd, pone, pvar. ring.
  Qed.
  Lemma texp_nil N (x : tens) : x [] = 0 -> texp N x [] = 1.
  Proof. intros. unfold texp. rewrite tpoly_nil by auto. reflexivity. Qed.
  Lemma tlog_nil N (g : tens) : g [] = 1 -> tlog N g [] = 0.
  Proof. intros. unfold tlog, tlog1p. rewrite tpoly_nil; [reflexivity|]. unfold tsub, tone. rewrite H; ring. Qed.
  Theorem tlog_texp N (x : tens) w : x [] = 0 -> (length w <= N)%nat -> tlog N (texp N x) w = x w.
  Proof.
    intros H0 Hw. unfold tlog, tlog1p.
    transitivity (tpoly N (plog R) (tpoly N (pexpm1 R) x) w).
    { apply tpoly_local. intros u Hu. unfold tsub, texp, tpoly.
      rewrite !(sum_seq_S _ 0 N). rewrite (sum_ext _ (seq 1 N) (fun k => pexpm1 R k * tpow x k u) (fun k => invfact R k * tpow x k u)).
      - cbn [tpow invfact pexpm1]. ring.
      - intros k Hk. apply in_seq in Hk. destruct k; [lia|reflexivity]. }
    rewrite <- tpoly_comp by (auto; reflexivity).
    transitivity (tpoly N (pvar R) x w).
    { unfold tpoly. apply sum_ext. intros k _. f_equal. apply (log_exp_series R). }
    destruct N as [|N].
    { destruct w; [|cbn in Hw; lia]. unfold tpoly, pvar. cbn. rewrite H0. ring. }
    unfold tpoly. rewrite sum_seq_S, sum_seq_S, sum_zero.
    - cbn [tpow]. rewrite (conv_one_r _ _ _ w). unfold pvar. ring.
    - intros k Hk. apply in_seq in Hk. destruct k as [|[|k]]; try lia. unfold pvar. ring.
  Qed.
End ExpLog.
Arguments texp {R A}. Arguments tlog {R A}. Arguments tlog1p {R A}.
