(** The Moebius function: specification, and the code that computes it. *)
From Coq Require Import Znumtheory Permutation ZifyBool.
From Verif Require Import Outcome.

(** 64-bit signed integers ([npy_intp]). *)
Definition I64_MAX : Z := 9223372036854775807.
Definition I64_MIN : Z := -9223372036854775808.
Definition i64 (z : Z) : outcome Z := if (I64_MIN <=? z) && (z <=? I64_MAX) then Ok z else UB.
Lemma i64_ok z : I64_MIN <= z <= I64_MAX -> i64 z = Ok z.
Proof. intros H. unfold i64. replace ((I64_MIN <=? z) && (z <=? I64_MAX)) with true by lia. reflexivity. Qed.

(** ** Model *)

(** lie_basis.c:1722-1727 [mobius_values_cache] *)
Definition mobius_values_cache : list Z :=
  [0; 1; -1; -1; 0; -1; 1; -1; 0; 0; 1; -1; 0; -1; 1; 1; 0; -1; 0; -1; 0;
   1; 1; -1; 0; 0; 1; 0; 0; -1; -1; -1].

(** lie_basis.c:1757-1766: the loop over odd divisors; [None] is the early
    [return 0], [Some (n, count)] normal exit.  [d * d] is [int32_t] arithmetic
    and may overflow. *)
Fixpoint mobius_loop (fuel : nat) (n d cnt : Z) : outcome (option (Z * Z)) :=
  match fuel with
  | O => NoFuel
  | S fuel =>
    let! dd := i32 (d * d) in
    if dd <=? n then
      if n mod d =? 0 then
        let n' := n / d in
        if n' mod d =? 0 then Ok None
        else mobius_loop fuel n' (d + 2) (cnt + 1)
      else mobius_loop fuel n (d + 2) cnt
    else Ok (Some (n, cnt))
  end.

(** lie_basis.c:1743-1772: the part after the table lookup. *)
Definition mobius_slow (fuel : nat) (n : Z) : outcome Z :=
  let finish (x : option (Z * Z)) :=
    match x with
    | None => Ok 0
    | Some (n, cnt) =>
      let cnt := if n >? 1 then cnt + 1 else cnt in
      Ok (if Z.odd cnt then -1 else 1)
    end in
  if Z.even n then
    let n' := Z.shiftr n 1 in
    if Z.even n' then Ok 0 else let! x := mobius_loop fuel n' 3 1 in finish x
  else let! x := mobius_loop fuel n 3 0 in finish x.

(** lie_basis.c:1730-1773 [mobius_func] *)
Definition mobius_func (n : Z) : outcome Z :=
  if n <=? 0 then Ok 0
  else if n <=? 31 then Ok (nth (Z.to_nat n) mobius_values_cache 0)
  else mobius_slow (Z.to_nat n) n.

(** ** Specification *)
Definition product (ps : list Z) : Z := fold_right Z.mul 1 ps.

(** [m] is the Moebius function at [n]: (-1)^k if [n] is a product of [k] distinct
    primes, 0 if the square of a prime divides [n]. *)
Definition is_mobius (n m : Z) : Prop :=
  (exists ps, NoDup ps /\ Forall prime ps /\ n = product ps /\ m = (-1) ^ Z.of_nat (length ps)) \/
  (exists p, prime p /\ (p * p | n) /\ m = 0).

(** ** Facts about primes *)
Lemma prime_gt1 p : prime p -> 1 < p.
Proof. intros [H _]. auto. Qed.

Lemma prime_divisor n : 1 < n -> exists p, prime p /\ (p | n).
Proof.
  intros H. assert (G : forall k : nat, forall n, 1 < n -> n < Z.of_nat k -> exists p, prime p /\ (p | n)).
  { clear n H. induction k as [|k IH]; intros n H1 H2; [lia|].
    destruct (prime_dec n) as [Hp|Hp]; [exists n; split; auto; apply Z.divide_refl|].
    destruct (not_prime_divide n H1 Hp) as (m & Hm & Hd).
    destruct (IH m) as (p & Hpp & Hpd); try lia. exists p. split; auto. eapply Z.divide_trans; eauto. }
  apply (G (Z.to_nat (n + 1))); lia.
Qed.

Lemma prime_div_product p ps : prime p -> Forall prime ps -> (p | product ps) -> In p ps.
Proof.
  intros Hp. induction ps as [|q ps IH]; intros HF Hd; cbn [product fold_right] in *.
  - apply Z.divide_1_r_nonneg in Hd; [|apply prime_gt1 in Hp; lia]. apply prime_gt1 in Hp. lia.
  - inversion HF; subst. apply prime_mult in Hd; auto. destruct Hd as [Hd|Hd].
    + left. symmetry. apply prime_div_prime; auto.
    + right. auto.
Qed.
Lemma product_pos ps : Forall prime ps -> 1 <= product ps.
Proof. induction 1 as [|p ps Hp _ IH]; cbn [product fold_right] in *; [lia|]. apply prime_gt1 in Hp. unfold product in *. nia. Qed.
Lemma product_In p ps : In p ps -> (p | product ps).
Proof.
  induction ps as [|q ps IH]; intros []; cbn [product fold_right].
  - subst. apply Z.divide_factor_l.
  - apply Z.divide_mul_r. auto.
Qed.
Lemma product_perm ps qs : Permutation ps qs -> product ps = product qs.
Proof. induction 1; cbn [product fold_right] in *; unfold product in *; try lia. Qed.

Lemma primes_unique ps qs : NoDup ps -> NoDup qs -> Forall prime ps -> Forall prime qs -> product ps = product qs ->
  length ps = length qs.
Proof.
  intros N1 N2 F1 F2 E. apply Permutation_length. apply NoDup_Permutation; auto. intros x. split; intros Hx.
  - apply prime_div_product; auto; [rewrite Forall_forall in F1; auto|]. rewrite <- E. apply product_In; auto.
  - apply prime_div_product; auto; [rewrite Forall_forall in F2; auto|]. rewrite E. apply product_In; auto.
Qed.
Lemma no_square p ps : NoDup ps -> Forall prime ps -> prime p -> ~ (p * p | product ps).
Proof.
  intros N F Hp Hd.
  assert (Hin : In p ps). { apply prime_div_product; auto. eapply Z.divide_trans; [|exact Hd]. apply Z.divide_factor_l. }
  destruct (in_split _ _ Hin) as (l1 & l2 & ->).
  assert (Ep : product (l1 ++ p :: l2) = p * product (l1 ++ l2)).
  { rewrite (product_perm _ (p :: l1 ++ l2)); [reflexivity|]. apply Permutation_sym, Permutation_middle. }
  rewrite Ep in Hd. apply Z.mul_divide_cancel_l in Hd; [|apply prime_gt1 in Hp; lia].
  apply NoDup_remove_2 in N. apply N. apply prime_div_product; auto.
  apply Forall_app in F. destruct F as [Fa Fb]. inversion Fb; subst. apply Forall_app; auto.
Qed.

Lemma is_mobius_fun n a b : is_mobius n a -> is_mobius n b -> a = b.
Proof.
  intros [(ps & N1 & F1 & E1 & ->)|(p & Hp & Hd & ->)] [(qs & N2 & F2 & E2 & ->)|(q & Hq & Hd' & ->)]; auto.
  - rewrite (primes_unique ps qs); auto. congruence.
  - subst n. exfalso. eapply no_square; eauto.
  - subst n. exfalso. eapply no_square; eauto.
Qed.

(** ** The code computes it *)
Section Loop.
  Variable n0 : Z.
  (** [n] is what is left of [n0] after taking out the distinct primes [ps]. *)
  Definition minv (n d : Z) (ps : list Z) : Prop :=
    NoDup ps /\ Forall prime ps /\ n0 = product ps * n /\ 1 <= n /\ Z.odd n = true /\
    (forall p, prime p -> (p | n) -> d <= p) /\ (forall p, In p ps -> ~ (p | n)).

  Lemma minv_finish n d ps : minv n d ps -> 3 <= d -> n < d * d ->
    is_mobius n0 (if Z.odd (if n >? 1 then Z.of_nat (length ps) + 1 else Z.of_nat (length ps)) then -1 else 1).
  Proof.
    intros (N & F & E & Hn & Ho & Hp & Hni) Hd Hlt. left.
    assert (Hpow : forall k, (-1) ^ Z.of_nat k = if Z.odd (Z.of_nat k) then -1 else 1).
    { induction k as [|k IH]; [reflexivity|]. rewrite Nat2Z.inj_succ, Z.pow_succ_r, IH by lia. rewrite Z.odd_succ, <- Z.negb_odd.
      destruct (Z.odd (Z.of_nat k)); reflexivity. }
    destruct (n >? 1) eqn:E1.
    - assert (Hpr : prime n).
      { destruct (prime_dec n) as [|Hnp]; auto. exfalso.
        destruct (not_prime_divide n) as (m & Hm & (q & Hq)); [lia|auto|].
        destruct (prime_divisor m) as (p & Hpp & Hpd); [lia|].
        assert (1 < q) by nia. destruct (prime_divisor q) as (p' & Hpp' & Hpd'); [lia|].
        assert (d <= p) by (apply Hp; auto; eapply Z.divide_trans; eauto; exists q; auto).
        assert (d <= p') by (apply Hp; auto; eapply Z.divide_trans; eauto; exists m; lia).
        apply Z.divide_pos_le in Hpd, Hpd'; nia. }
      exists (n :: ps). split; [|split; [|split]].
      + constructor; auto. intros Hin. apply (Hni n Hin). apply Z.divide_refl.
      + constructor; auto.
      + cbn [product fold_right]. unfold product in E. lia.
      + rewrite Hpow. cbn [length]. replace (Z.of_nat (S (length ps))) with (Z.of_nat (length ps) + 1) by lia. reflexivity.
    - exists ps. split; [auto|]. split; [auto|]. split; [|rewrite Hpow; reflexivity]. assert (n = 1) by lia. subst n. lia.
  Qed.

  Lemma odd_divisor a b : Z.odd b = true -> (a | b) -> Z.odd a = true.
  Proof. intros Hb (q & ->). rewrite Z.odd_mul in Hb. apply andb_true_iff in Hb. tauto. Qed.

  Lemma mobius_loop_ok fuel : forall n d ps, minv n d ps -> 3 <= d -> Z.odd d = true ->
    n < 46339 * 46339 -> (d <= 46339) -> (Z.to_nat (n + 2 - d) < fuel)%nat ->
    (exists m cnt, mobius_loop fuel n d (Z.of_nat (length ps)) = Ok (Some (m, cnt)) /\
       is_mobius n0 (if Z.odd (if m >? 1 then cnt + 1 else cnt) then -1 else 1)) \/
    (mobius_loop fuel n d (Z.of_nat (length ps)) = Ok None /\ is_mobius n0 0).
  Proof.
    induction fuel as [|fuel IH]; intros n d ps Hinv H3 Hod Hn Hd Hf; [lia|].
    cbn [mobius_loop].
    - rewrite i32_ok by (unfold INT_MIN, INT_MAX; nia). cbn [bind].
      destruct (d * d <=? n) eqn:E1.
      + assert (Hdn : d < n) by nia.
        assert (Hd2 : d + 2 <= 46339).
        { assert (d < 46339) by nia. assert (d <> 46338) by (intros ->; discriminate Hod). lia. }
        destruct (n mod d =? 0) eqn:E2.
        * apply Z.eqb_eq in E2. apply Z.mod_divide in E2; [|lia]. destruct E2 as (q & Hq).
          assert (Edq : n / d = q) by (rewrite Hq; apply Z.div_mul; lia). rewrite Edq.
          destruct Hinv as (N & F & E & Hn1 & Ho & Hp & Hni).
          assert (Hpr : prime d).
          { destruct (prime_dec d) as [|Hnp]; auto. exfalso.
            destruct (not_prime_divide d) as (m & Hm & Hmd); [lia|auto|].
            destruct (prime_divisor m) as (p & Hpp & Hpd); [lia|].
            assert (d <= p). { apply Hp; auto. eapply Z.divide_trans; [exact Hpd|]. eapply Z.divide_trans; [exact Hmd|]. exists q; lia. }
            apply Z.divide_pos_le in Hpd; lia. }
          destruct (q mod d =? 0) eqn:E3.
          -- right. split; [reflexivity|]. right. exists d. split; auto. split; auto.
             apply Z.eqb_eq in E3. apply Z.mod_divide in E3; [|lia]. destruct E3 as (r & Hr).
             exists (product ps * r). rewrite E, Hq, Hr. ring.
          -- assert (Hndq : ~ (d | q)). { intros Hx. apply Z.mod_divide in Hx; lia. }
             specialize (IH q (d + 2) (d :: ps)).
             cbn [length] in IH. replace (Z.of_nat (S (length ps))) with (Z.of_nat (length ps) + 1) in IH by lia.
             assert (Hq1 : 1 <= q) by nia. assert (Hqn : q <= n) by nia.
             assert (Hoq : Z.odd q = true) by (eapply odd_divisor; [exact Ho|exists d; lia]).
             apply IH; try lia.
             ++ split; [constructor; auto; intros Hin; apply (Hni d Hin); exists q; auto|].
                split; [constructor; auto|]. split; [cbn [product fold_right]; unfold product in E; rewrite E, Hq; ring|].
                split; [auto|]. split; [auto|]. split.
                ** intros p Hpp Hpq. assert (d <= p) by (apply Hp; auto; eapply Z.divide_trans; [exact Hpq|exists d; lia]).
                   assert (p <> d) by (intros ->; auto).
                   assert (Z.odd p = true) by (eapply odd_divisor; eauto).
                   destruct (Z.eq_dec p (d + 1)); [|lia]. subst p. rewrite Z.odd_add in *. rewrite Hod in *. discriminate.
                ** intros p [<-|Hin] Hx; [auto|]. apply (Hni p Hin). eapply Z.divide_trans; [exact Hx|exists d; lia].
             ++ replace (d + 2) with (d + 1 + 1) by lia. rewrite !Z.odd_add, Hod. reflexivity.
        * assert (Hnd : ~ (d | n)). { intros Hx. apply Z.mod_divide in Hx; lia. }
          destruct Hinv as (N & F & E & Hn1 & Ho & Hp & Hni).
          apply (IH n (d + 2) ps); try lia.
          -- do 5 (split; [auto|]). split; [|auto].
             intros p Hpp Hpq. assert (d <= p) by (apply Hp; auto).
             assert (p <> d) by (intros ->; auto).
             assert (Z.odd p = true) by (apply (odd_divisor p n); auto).
             destruct (Z.eq_dec p (d + 1)); [|lia]. subst p. rewrite Z.odd_add in *. rewrite Hod in *. discriminate.
          -- replace (d + 2) with (d + 1 + 1) by lia. rewrite !Z.odd_add, Hod. reflexivity.
      + left. exists n, (Z.of_nat (length ps)). split; [reflexivity|]. eapply minv_finish; eauto. lia.
  Qed.
End Loop.

Lemma mobius_slow_ok n : 1 <= n < 46339 * 46339 -> exists m, mobius_slow (Z.to_nat n) n = Ok m /\ is_mobius n m.
Proof.
  intros Hn.
  assert (P2 : prime 2) by exact prime_2.
  assert (Hodd : forall k p, Z.odd k = true -> prime p -> (p | k) -> 3 <= p).
  { intros k p Hk Hp Hd. assert (Z.odd p = true) by (eapply odd_divisor; eauto). apply prime_gt1 in Hp.
    destruct (Z.eq_dec p 2); [subst; discriminate|lia]. }
  unfold mobius_slow. destruct (Z.even n) eqn:Ev.
  - rewrite Z.shiftr_div_pow2 by lia. change (2 ^ 1) with 2.
    apply Z.even_spec in Ev. destruct Ev as (q & Hq).
    replace (n / 2) with q by (rewrite Hq, Z.mul_comm, Z.div_mul; lia).
    destruct (Z.even q) eqn:Evq.
    + exists 0. split; [reflexivity|]. right. exists 2. split; auto. split; auto.
      apply Z.even_spec in Evq. destruct Evq as (r & Hr). exists r. lia.
    + assert (Oq : Z.odd q = true) by (rewrite <- Z.negb_even, Evq; reflexivity).
      assert (Hinv : minv n q 3 [2]).
      { split; [constructor; [intros []|constructor]|]. split; [constructor; [exact P2|constructor]|]. split; [unfold product; cbn [fold_right]; lia|]. split; [lia|]. split; [auto|].
        split; [intros p; apply Hodd; auto|]. intros p [<-|[]] Hd. assert (Z.odd 2 = true) by (apply (odd_divisor 2 q); auto). discriminate. }
      destruct (mobius_loop_ok n (Z.to_nat n) q 3 [2] Hinv) as [(m & c & E & Hm)|[E Hm]]; try lia; auto.
      * cbn [length] in E. change (Z.of_nat 1) with 1 in E. rewrite E. cbn [bind]. eauto.
      * cbn [length] in E. change (Z.of_nat 1) with 1 in E. rewrite E. cbn [bind]. eauto.
  - assert (Oq : Z.odd n = true) by (rewrite <- Z.negb_even, Ev; reflexivity).
    assert (Hinv : minv n n 3 []).
    { split; [constructor|]. split; [constructor|]. split; [unfold product; cbn [fold_right]; lia|]. split; [lia|]. split; [auto|].
      split; [intros p; apply Hodd; auto|]. intros p []. }
    destruct (mobius_loop_ok n (Z.to_nat n) n 3 [] Hinv) as [(m & c & E & Hm)|[E Hm]]; try lia; auto.
    * cbn [length] in E. change (Z.of_nat 0) with 0 in E. rewrite E. cbn [bind]. eauto.
    * cbn [length] in E. change (Z.of_nat 0) with 0 in E. rewrite E. cbn [bind]. eauto.
Qed.

Lemma mobius_table k : (k < 31)%nat ->
  mobius_slow (Z.to_nat (Z.of_nat (S k))) (Z.of_nat (S k)) = Ok (nth (S k) mobius_values_cache 0).
Proof. intros H. do 31 (destruct k as [|k]; [vm_compute; reflexivity|]). lia. Qed.

Lemma mobius_func_ok n : 1 <= n < 46339 * 46339 -> exists m, mobius_func n = Ok m /\ is_mobius n m.
Proof.
  intros Hn. destruct (mobius_slow_ok n Hn) as (m & E & Hm). exists m. split; auto.
  unfold mobius_func. replace (n <=? 0) with false by lia. destruct (n <=? 31) eqn:E31; auto.
  destruct (Z.to_nat n) as [|k] eqn:Ek; [lia|].
  assert (T := mobius_table k). replace (Z.of_nat (S k)) with n in T by lia. rewrite <- T by lia. rewrite Ek. exact E.
Qed.

(** The overflow of [d * d]: reached for the prime 2^31 - 1. *)
Lemma mobius_loop_mono f : forall f' n d c, (f <= f')%nat -> mobius_loop f n d c <> NoFuel ->
  mobius_loop f' n d c = mobius_loop f n d c.
Proof.
  induction f as [|f IH]; intros f' n d c Hle H; [cbn in H; congruence|].
  destruct f' as [|f']; [lia|]. cbn [mobius_loop] in *.
  destruct (i32 (d * d)); cbn [bind] in *; auto.
  destruct (a <=? n); auto. destruct (n mod d =? 0).
  - destruct (n / d mod d =? 0); auto. apply IH; auto; lia.
  - apply IH; auto; lia.
Qed.
Lemma mobius_func_overflow : mobius_func 2147483647 = UB.
Proof.
  assert (E : mobius_loop (Z.to_nat 23200) 2147483647 3 0 = UB) by (vm_compute; reflexivity).
  assert (E' : mobius_loop (Z.to_nat 2147483647) 2147483647 3 0 = UB).
  { rewrite (mobius_loop_mono (Z.to_nat 23200)); auto; [|rewrite E; discriminate]. apply Z2Nat.inj_le; lia. }
  unfold mobius_func. change (2147483647 <=? 0) with false. change (2147483647 <=? 31) with false. cbv iota.
  unfold mobius_slow. change (Z.even 2147483647) with false. cbv iota zeta. rewrite E'. reflexivity.
Qed.

(** ** Sum over divisors, and inversion *)
From Verif Require Import Alg.
Local Open Scope Z_scope.
Definition divides (d n : nat) : bool := (n mod d =? 0)%nat.
(** Sum of [f d] over the divisors [d] of [n]. *)
Definition dsum (n : nat) (f : nat -> Z) : Z := @sum Zcr nat (filter (fun d => divides d n) (seq 1 n)) f.

Lemma divides_spec d n : (0 < d)%nat -> divides d n = true <-> (Z.of_nat d | Z.of_nat n).
Proof.
  intros H. unfold divides. rewrite Nat.eqb_eq. split.
  - intros E. apply Nat.mod_divides in E; [|lia]. destruct E as [c ->]. exists (Z.of_nat c). lia.
  - intros [c Hc]. apply Nat.mod_divides; [lia|]. exists (Z.to_nat c). nia.
Qed.

Section Inversion.
  Variable mu : nat -> Z.
  Variable B0 : nat.
  Hypothesis Hmu : forall d, (1 <= d <= B0)%nat -> is_mobius (Z.of_nat d) (mu d).

  Lemma mu_1 : (1 <= B0)%nat -> mu 1 = 1.
  Proof. intros HB. eapply is_mobius_fun; [apply Hmu; lia|]. left. exists []. repeat split; constructor. Qed.
  Lemma mu_square p d : prime p -> (1 <= d <= B0)%nat -> (p * p | Z.of_nat d) -> mu d = 0.
  Proof. intros Hp Hd H. eapply is_mobius_fun; [apply Hmu; lia|]. right. exists p. auto. Qed.
  Lemma mu_prime p d : prime p -> (1 <= d)%nat -> (Z.to_nat p * d <= B0)%nat -> ~ (p | Z.of_nat d) -> mu (Z.to_nat p * d) = - mu d.
  Proof.
    intros Hp Hd HB H. assert (Hp1 := prime_gt1 p Hp).
    assert (Hd' := Hmu d ltac:(nia)). eapply is_mobius_fun; [apply Hmu; nia|].
    replace (Z.of_nat (Z.to_nat p * d)) with (p * Z.of_nat d) by nia.
    destruct Hd' as [(ps & N & F & E & ->)|(q & Hq & Hqd & ->)].
    - left. exists (p :: ps). split; [|split; [|split]].
      + constructor; auto. intros Hin. apply H. rewrite E. apply product_In; auto.
      + constructor; auto.
      + cbn [product fold_right]. unfold product in E. rewrite E. reflexivity.
      + cbn [length]. rewrite Nat2Z.inj_succ, Z.pow_succ_r by lia. lia.
    - right. exists q. split; auto. split; [apply Z.divide_mul_r; auto|lia].
  Qed.

  Lemma filter_all_In {A} (f : A -> bool) l x : In x (filter f l) <-> In x l /\ f x = true.
  Proof. apply filter_In. Qed.

  Lemma dsum_mu n : (1 < n <= B0)%nat -> dsum n mu = 0.
  Proof.
    intros Hn. destruct (prime_divisor (Z.of_nat n)) as (p & Hp & Hpn); [lia|].
    assert (Hp1 := prime_gt1 p Hp). unfold dsum. rewrite sum_filter.
    set (P := Z.to_nat p). assert (HP : Z.of_nat P = p) by (unfold P; lia).
    set (D d := divides d n). set (A d := D d && negb (divides P d)). set (B d := D d && divides P d && negb (divides (P * P) d)).
    rewrite (sum_ext Zcr _ _ (fun d => @radd Zcr (if A d then mu d else 0) (if B d then mu d else 0))).
    2:{ intros d Hd. apply in_seq in Hd. change (divides d n) with (D d). unfold A, B. destruct (D d) eqn:ED; [|reflexivity].
        destruct (divides P d) eqn:EP; cbn [andb negb]; [|cbn; lia].
        destruct (divides (P * P) d) eqn:EPP; cbn [negb]; [|cbn; lia].
        apply divides_spec in EPP; [|nia]. rewrite (mu_square p d); [reflexivity|auto|lia|].
        replace (p * p) with (Z.of_nat (P * P)) by nia. auto. }
    rewrite sum_add, <- !(sum_filter Zcr).
    assert (EB : Permutation (filter B (seq 1 n)) (map (fun d => P * d)%nat (filter A (seq 1 n)))).
    { apply NoDup_Permutation.
      - apply NoDup_filter, seq_NoDup.
      - apply FinFun.Injective_map_NoDup; [intros x y E; nia|apply NoDup_filter, seq_NoDup].
      - intros x. rewrite filter_In, in_map_iff, in_seq. unfold A, B, D. split.
        + intros (Hx & E). apply andb_true_iff in E. destruct E as [E E3]. apply andb_true_iff in E. destruct E as [E1 E2].
          apply divides_spec in E1; [|lia]. apply divides_spec in E2; [|lia]. destruct E2 as (c & Hc).
          exists (Z.to_nat c). assert (0 < c) by nia. split; [nia|]. rewrite filter_In, in_seq.
          assert (Hcn : (c | Z.of_nat n)) by (eapply Z.divide_trans; [|exact E1]; exists p; nia).
          split; [apply Z.divide_pos_le in Hcn; lia|]. apply andb_true_iff. split.
          * apply divides_spec; [lia|]. rewrite Z2Nat.id by lia. auto.
          * apply negb_true_iff. apply negb_true_iff in E3. destruct (divides P (Z.to_nat c)) eqn:E4; auto.
            apply divides_spec in E4; [|lia]. destruct E4 as (e & He). rewrite <- E3. symmetry. apply divides_spec; [nia|].
            exists e. nia.
        + intros (d & <- & Hd). rewrite filter_In, in_seq in Hd. destruct Hd as (Hd & E).
          apply andb_true_iff in E. destruct E as [E1 E2]. apply negb_true_iff in E2.
          assert (Hnd : ~ (p | Z.of_nat d)). { intros Hx. rewrite <- HP in Hx. apply divides_spec in Hx; [congruence|lia]. }
          apply divides_spec in E1; [|lia].
          assert (Hpd : (p * Z.of_nat d | Z.of_nat n)).
          { destruct E1 as (c & Hc). rewrite Hc in Hpn. apply prime_mult in Hpn; auto. destruct Hpn as [(e & He)|]; [|tauto].
            exists e. rewrite Hc, He. ring. }
          assert (Hle : (P * d <= n)%nat). { apply Z.divide_pos_le in Hpd; lia. }
          split; [nia|]. apply andb_true_iff. split; [apply andb_true_iff; split|].
          * apply divides_spec; [nia|]. replace (Z.of_nat (P * d)) with (p * Z.of_nat d) by nia. auto.
          * apply divides_spec; [lia|]. exists (Z.of_nat d). nia.
          * apply negb_true_iff. destruct (divides (P * P) (P * d)) eqn:E4; auto. exfalso.
            apply divides_spec in E4; [|nia]. destruct E4 as (e & He). apply Hnd. exists e. nia. }
    rewrite (sum_perm _ _ _ _ EB), sum_map, <- sum_add. apply (sum_zero Zcr).
    intros d Hd. rewrite filter_In, in_seq in Hd. destruct Hd as (Hd & E). unfold A in E. apply andb_true_iff in E. destruct E as [E1 E2].
    assert (HPd : (P * d <= n)%nat).
    { assert (In (P * d)%nat (filter B (seq 1 n))).
      { eapply Permutation_in; [apply Permutation_sym, EB|]. apply in_map_iff. exists d. split; auto. apply filter_In.
        split; [apply in_seq; lia|unfold A; rewrite E1; exact E2]. }
      rewrite filter_In, in_seq in H. lia. }
    unfold P in *. rewrite mu_prime; [cbn; lia|auto|lia|lia|].
    intros Hx. rewrite <- HP in Hx. apply divides_spec in Hx; [|lia]. rewrite Hx in E2. discriminate.
  Qed.

  Lemma dsum_wide n M f : (1 <= n <= M)%nat -> dsum n f = @sum Zcr nat (seq 1 M) (fun d => if divides d n then f d else 0).
  Proof.
    intros H. unfold dsum. rewrite sum_filter. rewrite <- !(seq_shift _ 0), !sum_map. symmetry. apply (sum_seq_extend Zcr); [lia|].
    intros k Hk. destruct (divides (S k) n) eqn:E; [|reflexivity]. apply divides_spec in E; [|lia].
    apply Z.divide_pos_le in E; lia.
  Qed.

  Lemma mobius_inversion f g : (forall n, (1 <= n <= B0)%nat -> g n = dsum n f) ->
    forall n, (1 <= n <= B0)%nat -> dsum n (fun d => mu d * g (n / d)%nat) = f n.
  Proof.
    intros Hg n Hn. unfold dsum at 1.
    rewrite (sum_ext Zcr _ _ (fun d => @sum Zcr nat (seq 1 n) (fun e => if divides e (n / d) then mu d * f e else 0))).
    2:{ intros d Hd. rewrite filter_In, in_seq in Hd. destruct Hd as (Hd & E).
        unfold divides in E. apply Nat.eqb_eq, Nat.mod_divides in E; [|lia]. destruct E as [c Hc].
        assert (Hnd : (n / d = c)%nat) by (rewrite Hc, Nat.mul_comm; apply Nat.div_mul; lia).
        rewrite Hg by nia. rewrite (dsum_wide _ n) by nia. change (mu d * ?s) with (@rmul Zcr (mu d) s). rewrite <- sum_mul_l. apply sum_ext. intros e _.
        destruct (divides e (n / d)); cbn; lia. }
    rewrite sum_filter.
    rewrite (sum_ext Zcr _ _ (fun d => @sum Zcr nat (seq 1 n) (fun e => if divides d n && divides e (n / d) then mu d * f e else 0))).
    2:{ intros d _. destruct (divides d n); cbn [andb]; [reflexivity|]. symmetry. apply (sum_zero Zcr). reflexivity. }
    rewrite sum_swap.
    rewrite (sum_ext Zcr _ _ (fun e => (if divides e n then f e * dsum (n / e) mu else 0))).
    2:{ intros e He. apply in_seq in He.
        assert (Ex : forall d, In d (seq 1 n) -> divides d n && divides e (n / d) = divides e n && divides d (n / e)).
        { intros d Hd. apply in_seq in Hd.
          assert (G : forall a b, (1 <= a)%nat -> (1 <= b)%nat -> divides a n && divides b (n / a) = true -> divides b n && divides a (n / b) = true).
          { intros a b Ha Hb E. unfold divides in *. apply andb_true_iff in E. destruct E as [E1 E2].
            apply Nat.eqb_eq, Nat.mod_divides in E1; [|lia]. destruct E1 as [c Hc]. rewrite Hc in E2.
            rewrite (Nat.mul_comm a c), Nat.div_mul in E2 by lia. apply Nat.eqb_eq, Nat.mod_divides in E2; [|lia]. destruct E2 as [e' He'].
            subst c. apply andb_true_iff. split; apply Nat.eqb_eq, Nat.mod_divides; try lia.
            - exists (a * e')%nat. lia.
            - exists e'. rewrite Hc. replace (a * (b * e'))%nat with ((a * e') * b)%nat by lia. apply Nat.div_mul. lia. }
          destruct (divides d n && divides e (n / d)) eqn:E1.
          - symmetry. apply G; auto; lia.
          - destruct (divides e n && divides d (n / e)) eqn:E2; auto. apply G in E2; try lia; congruence. }
        rewrite (sum_ext Zcr _ _ (fun d => if divides e n && divides d (n / e) then mu d * f e else 0)).
        2:{ intros d Hd. rewrite Ex by auto. reflexivity. }
        destruct (divides e n) eqn:E; cbn [andb]; [|apply (sum_zero Zcr); reflexivity].
        unfold divides in E. apply Nat.eqb_eq, Nat.mod_divides in E; [|lia]. destruct E as [c Hc].
        assert (Hne : (n / e = c)%nat) by (rewrite Hc, Nat.mul_comm; apply Nat.div_mul; lia). rewrite Hne.
        rewrite (dsum_wide c n) by nia.
        change (f e * ?s) with (@rmul Zcr (f e) s). rewrite <- sum_mul_l. apply sum_ext. intros d _. destruct (divides d c); cbn; lia. }
    rewrite (sum_single Zcr (seq 1 n) _ n); [|apply seq_NoDup|apply in_seq; lia|].
    - unfold divides. rewrite Nat.mod_same, Nat.eqb_refl, Nat.div_same by lia.
      unfold dsum. cbn [seq filter]. replace (divides 1 1) with true by reflexivity. cbn [sum]. rewrite mu_1 by lia. cbn. lia.
    - intros e He Hne. apply in_seq in He. destruct (divides e n) eqn:E; [|reflexivity].
      unfold divides in E. apply Nat.eqb_eq, Nat.mod_divides in E; [|lia]. destruct E as [c Hc].
      assert (Hce : (n / e = c)%nat) by (rewrite Hc, Nat.mul_comm; apply Nat.div_mul; lia). rewrite Hce.
      rewrite dsum_mu by nia. cbn; lia.
  Qed.
End Inversion.
