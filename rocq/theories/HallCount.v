(** Counting Hall elements degree by degree (elimination argument): if keys 1..M carry
    the structure of a Hall set then  sum over d | n of d * #(degree d) = w^n. *)
From Coq Require Import ZifyBool.
From Verif Require Import Outcome Alg Words Mobius.
Local Open Scope Z_scope.

(** ** Newton's identities *)
Notation zsum := (@sum Zcr nat).
Notation zn := Z.of_nat.

Definition newton (N : nat) (F G : Z -> Z) : Prop :=
  forall n, (n <= N)%nat -> - zn n * F (zn n) = zsum (seq 1 n) (fun i => G (zn i) * F (zn n - zn i)).

Lemma zsum_app l1 l2 (f : nat -> Z) : zsum (l1 ++ l2) f = zsum l1 f + zsum l2 f :> Z.
Proof. apply (sum_app Zcr). Qed.
Lemma zsum_zero l (f : nat -> Z) : (forall x, In x l -> f x = 0 :> Z) -> zsum l f = 0 :> Z.
Proof. apply (sum_zero Zcr). Qed.
Lemma zsum_ext l (f g : nat -> Z) : (forall x, In x l -> f x = g x :> Z) -> zsum l f = zsum l g :> Z.
Proof. apply (sum_ext Zcr). Qed.
Lemma zsum_add l f g : zsum l (fun x => f x + g x) = zsum l f + zsum l g.
Proof. apply (sum_add Zcr). Qed.
Lemma zsum_sub l f g : zsum l (fun x => f x - g x) = zsum l f - zsum l g.
Proof. apply (sum_sub Zcr). Qed.
Lemma zsum_mul_l {A} (l : list A) c f : @sum Zcr A l (fun x => c * f x) = c * @sum Zcr A l f.
Proof. apply (sum_mul_l Zcr). Qed.
Lemma zsum_shift a n d (f : nat -> Z) : zsum (seq (a + d) n) f = zsum (seq a n) (fun i => f (i + d)%nat).
Proof.
  revert a. induction n as [|n IH]; intros a; [reflexivity|]. cbn [seq sum].
  f_equal. apply (IH (S a)).
Qed.

(** [d] at the positive multiples of [d]. *)
Definition E_ (d : nat) (i : Z) : Z := if i mod zn d =? 0 then zn d else 0.

Lemma newton_step N d F F' G : (0 < d)%nat -> (forall z, z < 0 -> F' z = 0) ->
  (forall n, (n <= N)%nat -> F (zn n) = F' (zn n) - F' (zn n - zn d)) ->
  newton N F' G -> newton N F (fun i => G i + E_ d i).
Proof.
  intros Hd Hneg HF HN n Hn.
  rewrite (zsum_ext _ _ (fun i => (G (zn i) * F' (zn n - zn i) - G (zn i) * F' (zn n - zn d - zn i))
      + (E_ d (zn i) * F' (zn n - zn i) - E_ d (zn i) * F' (zn n - zn d - zn i)))).
  2:{ intros i Hi. apply in_seq in Hi. replace (zn n - zn i) with (zn (n - i)) by lia. rewrite HF by lia.
      replace (zn (n - i) - zn d) with (zn n - zn d - zn i) by lia. ring. }
  rewrite zsum_add, !zsum_sub.
  rewrite <- (HN n Hn).
  assert (A : zsum (seq 1 n) (fun i => G (zn i) * F' (zn n - zn d - zn i)) = - (zn n - zn d) * F' (zn n - zn d)).
  { destruct (le_lt_dec d n) as [Hdn|Hdn].
    - replace (zn n - zn d) with (zn (n - d)) by lia. rewrite HN by lia.
      replace n with ((n - d) + d)%nat at 1 by lia. rewrite seq_app, zsum_app.
      rewrite (zsum_zero (seq (1 + (n - d)) d)); [lia|]. intros i Hi. apply in_seq in Hi. rewrite Hneg by lia. lia.
    - rewrite (Hneg (zn n - zn d)) by lia. rewrite zsum_zero; [lia|]. intros i Hi. apply in_seq in Hi. rewrite Hneg by lia. lia. }
  rewrite A.
  assert (B : zsum (seq 1 n) (fun i => E_ d (zn i) * F' (zn n - zn i)) =
              zn d * F' (zn n - zn d) + zsum (seq 1 n) (fun i => E_ d (zn i) * F' (zn n - zn d - zn i))).
  { transitivity (zsum (seq 1 (d + n)) (fun i => E_ d (zn i) * F' (zn n - zn i))).
    { replace (d + n)%nat with (n + d)%nat by lia. rewrite seq_app, zsum_app.
      rewrite (zsum_zero (seq (1 + n) d)); [lia|]. intros i Hi. apply in_seq in Hi. rewrite Hneg by lia. lia. }
    rewrite seq_app, zsum_app, zsum_shift. f_equal.
    - destruct d as [|d]; [lia|]. rewrite seq_S, zsum_app. rewrite zsum_zero.
      + cbn [sum]. change (@radd Zcr) with Z.add. change (@r0 Zcr) with 0. unfold E_. replace (1 + d)%nat with (S d) by lia.
        rewrite Z.mod_same by lia. cbn. lia.
      + intros i Hi. apply in_seq in Hi. unfold E_. rewrite Z.mod_small by lia. replace (zn i =? 0) with false by lia. lia.
    - apply zsum_ext. intros i Hi. unfold E_. replace (zn (i + d)) with (zn i + 1 * zn d) by lia. rewrite Z.mod_add by lia.
      f_equal. f_equal. lia. }
  rewrite B. rewrite (HF n Hn). ring.
Qed.

(** ** Hall data *)
Section Hall.
  Variables (w N : nat) (M : Z).
  Variables (deg : Z -> nat) (lft rgt : Z -> Z).
  Definition keys : list Z := zseq 1 (Z.to_nat M).
  Hypothesis HM : 0 <= M.
  Hypothesis Hdeg : forall k, 1 <= k <= M -> (1 <= deg k <= N)%nat.
  Hypothesis Hlet : forall k, 1 <= k <= M -> lft k = 0 <-> deg k = 1%nat.
  Hypothesis Hnlet : length (filter (fun k => Nat.eqb (deg k) 1) keys) = w \/ (N = 0)%nat.
  Hypothesis Hlt : forall k, 1 <= k <= M -> 0 <= lft k < k.
  Hypothesis Hnode : forall k, 1 <= k <= M -> lft k <> 0 ->
     1 <= lft k < rgt k /\ rgt k <= M /\ lft (rgt k) <= lft k /\ (deg k = deg (lft k) + deg (rgt k))%nat.
  Hypothesis Hinj : forall k k', 1 <= k <= M -> 1 <= k' <= M -> lft k <> 0 -> lft k = lft k' -> rgt k = rgt k' -> k = k'.
  Hypothesis Hsurj : forall i j, 1 <= i < j -> j <= M -> lft j <= i -> (deg i + deg j <= N)%nat ->
     exists k, 1 <= k <= M /\ lft k = i /\ rgt k = j.

  Definition count (p : Z -> bool) : Z := zn (length (filter p keys)).
  Lemma keys_In k : In k keys <-> 1 <= k <= M.
  Proof. unfold keys. rewrite zseq_In. lia. Qed.
  Lemma keys_NoDup : NoDup keys. Proof. apply zseq_NoDup. Qed.

  Lemma count_sum p : count p = @sum Zcr Z keys (fun k => if p k then 1 else 0).
  Proof.
    unfold count. generalize keys. clear. induction l as [|k l IH]; [reflexivity|]. cbn [filter sum]. change (@radd Zcr) with Z.add in *.
    rewrite <- IH. destruct (p k); cbn [length]; lia.
  Qed.
  Lemma count_ext p q : (forall k, 1 <= k <= M -> p k = q k) -> count p = count q.
  Proof. intros H. unfold count. do 2 f_equal. apply filter_ext_in. intros k Hk. apply H, keys_In, Hk. Qed.
  Lemma count_split (p q r : Z -> bool) : (forall k, 1 <= k <= M -> ((if p k then 1 else 0) : Z) = (if q k then 1 else 0) + (if r k then 1 else 0)) ->
    count p = count q + count r.
  Proof.
    intros H. rewrite !count_sum. rewrite <- (sum_add Zcr). apply (sum_ext Zcr). intros k Hk. apply H, keys_In, Hk.
  Qed.
  Lemma count_zero p : (forall k, 1 <= k <= M -> p k = false) -> count p = 0.
  Proof. intros H. rewrite count_sum. apply (sum_zero Zcr). intros k Hk. rewrite H; auto. apply keys_In, Hk. Qed.
  Lemma count_one p k0 : 1 <= k0 <= M -> (forall k, 1 <= k <= M -> p k = true <-> k = k0) -> count p = 1.
  Proof.
    intros H0 H. rewrite count_sum. rewrite (sum_single Zcr keys _ k0).
    - replace (p k0) with true; [reflexivity|]. symmetry. apply H; auto.
    - apply keys_NoDup.
    - apply keys_In; auto.
    - intros k Hk Hne. destruct (p k) eqn:E; [|reflexivity]. apply H in E; [congruence|]. apply keys_In, Hk.
  Qed.
  Lemma NoDup_map_on {A B} (f : A -> B) l : NoDup l -> (forall x y, In x l -> In y l -> f x = f y -> x = y) -> NoDup (map f l).
  Proof.
    induction 1 as [|x l Hni Hnd IH]; intros H; cbn [map]; constructor.
    - intros Hin. apply in_map_iff in Hin. destruct Hin as (y & E & Hy). apply H in E; [subst; auto|right; auto|left; auto].
    - apply IH. intros; apply H; auto; right; auto.
  Qed.
  Lemma count_bij p q (f : Z -> Z) :
    (forall k, 1 <= k <= M -> p k = true -> 1 <= f k <= M /\ q (f k) = true) ->
    (forall k k', 1 <= k <= M -> 1 <= k' <= M -> p k = true -> p k' = true -> f k = f k' -> k = k') ->
    (forall j, 1 <= j <= M -> q j = true -> exists k, 1 <= k <= M /\ p k = true /\ f k = j) ->
    count p = count q.
  Proof.
    intros H1 H2 H3. unfold count. f_equal.
    rewrite <- (map_length f (filter p keys)). apply Permutation_length. apply NoDup_Permutation.
    - apply NoDup_map_on; [apply NoDup_filter, keys_NoDup|]. intros x y Hx Hy. rewrite filter_In, keys_In in Hx, Hy. apply H2; tauto.
    - apply NoDup_filter, keys_NoDup.
    - intros j. rewrite in_map_iff, filter_In, keys_In. split.
      + intros (k & <- & Hk). rewrite filter_In, keys_In in Hk. apply H1; tauto.
      + intros (Hj & E). destruct (H3 j Hj E) as (k & Hk & Ek & Ef). exists k. split; auto. rewrite filter_In, keys_In. auto.
  Qed.

  (** Elements of degree [n] of the alphabet left after eliminating keys 1..k. *)
  Definition c_ (k : Z) (n : Z) : Z := count (fun h => (zn (deg h) =? n) && (k <? h) && (lft h <=? k)).
  Definition F_ (k : Z) (n : Z) : Z := (if n =? 0 then 1 else 0) - c_ k n.

  Lemma F_neg k z : z < 0 -> F_ k z = 0.
  Proof.
    intros H. unfold F_, c_. replace (z =? 0) with false by lia. rewrite count_zero; [lia|].
    intros h Hh. replace (zn (deg h) =? z) with false by lia. reflexivity.
  Qed.
  Lemma F_step k n : 1 <= k <= M -> (n <= N)%nat -> F_ (k - 1) (zn n) = F_ k (zn n) - F_ k (zn n - zn (deg k)).
  Proof.
    intros Hk Hn. unfold F_.
    assert (E1 : c_ (k - 1) (zn n) + count (fun h => (zn (deg h) =? zn n) && (lft h =? k)) =
                 c_ k (zn n) + count (fun h => (zn (deg h) =? zn n) && (h =? k))).
    { unfold c_. rewrite !count_sum. rewrite <- !(sum_add Zcr). apply (sum_ext Zcr). intros h Hh. apply keys_In in Hh.
      assert (Hl := Hlt h Hh). change (@radd Zcr) with Z.add. change (@r0 Zcr) with 0. change (@r1 Zcr) with 1.
      destruct (zn (deg h) =? zn n); cbn [andb]; [|lia].
      destruct (k - 1 <? h) eqn:A1, (lft h <=? k - 1) eqn:A2, (lft h =? k) eqn:A3, (k <? h) eqn:A4, (lft h <=? k) eqn:A5, (h =? k) eqn:A6; cbn [andb]; lia. }
    assert (E2 : count (fun h => (zn (deg h) =? zn n) && (h =? k)) = if zn n - zn (deg k) =? 0 then 1 else 0).
    { destruct (zn n - zn (deg k) =? 0) eqn:E.
      - apply (count_one _ k Hk). intros h Hh. split; [lia|]. intros ->. lia.
      - apply count_zero. intros h Hh. destruct (h =? k) eqn:Eh; [|lia]. apply Z.eqb_eq in Eh. subst h. lia. }
    assert (E3 : count (fun h => (zn (deg h) =? zn n) && (lft h =? k)) = c_ k (zn n - zn (deg k))).
    { unfold c_. apply (count_bij _ _ rgt).
      - intros h Hh Hp. apply andb_true_iff in Hp. destruct Hp as [P1 P2].
        destruct (Hnode h Hh) as (A1 & A2 & A3 & A4); [lia|]. assert (lft h = k) by lia. subst k. split; [lia|].
        rewrite A4 in P1. rewrite !andb_true_iff. lia.
      - intros h h' Hh Hh' Hp Hp' E. apply Hinj; auto; lia.
      - intros j Hj Hq. rewrite !andb_true_iff in Hq. destruct Hq as ((Q1 & Q2) & Q3).
        destruct (Hsurj k j) as (h & Hh & L & R); try lia. exists h. split; auto. split; auto.
        destruct (Hnode h Hh) as (A1 & A2 & A3 & A4); [lia|]. rewrite L, R in A4. rewrite A4, L, Z.eqb_refl. lia. }
    assert (H0 : c_ (k - 1) 0 = 0 /\ c_ k 0 = 0).
    { split; apply count_zero; intros h Hh; assert (Hd := Hdeg h Hh); replace (zn (deg h) =? 0) with false by lia; reflexivity. }
    rewrite E2, E3 in E1. lia.
  Qed.

  (** The weighted divisor sum, as a sum over keys. *)
  Definition G_ (k : nat) (i : Z) : Z := @sum Zcr Z (zseq (M + 1 - zn k) k) (fun h => E_ (deg h) i).
  Lemma newton_all k : (k <= Z.to_nat M)%nat -> newton N (F_ (M - zn k)) (G_ k).
  Proof.
    induction k as [|k IH]; intros Hk.
    - intros n Hn. unfold G_. cbn [zseq sum]. rewrite zsum_zero by (intros; reflexivity).
      unfold F_. replace (c_ (M - zn 0) (zn n)) with 0.
      2:{ symmetry. apply count_zero. intros h Hh. lia. }
      destruct n; [reflexivity|]. replace (zn (S n) =? 0) with false by lia. lia.
    - intros n Hn.
      assert (H := newton_step N (deg (M - zn k)) (F_ (M - zn (S k))) (F_ (M - zn k)) (G_ k)).
      specialize (H ltac:(assert (Hd := Hdeg (M - zn k)); lia) (F_neg _)).
      assert (HS : forall m, (m <= N)%nat -> F_ (M - zn (S k)) (zn m) = F_ (M - zn k) (zn m) - F_ (M - zn k) (zn m - zn (deg (M - zn k)))).
      { intros m Hm. replace (M - zn (S k)) with (M - zn k - 1) by lia. apply F_step; auto. lia. }
      specialize (H HS (IH ltac:(lia)) n Hn). rewrite H. apply zsum_ext. intros i _. f_equal.
      unfold G_. cbn [zseq sum]. replace (M + 1 - zn (S k)) with (M - zn k) by lia. replace (M - zn k + 1) with (M + 1 - zn k) by lia.
      change (@radd Zcr) with Z.add. ring.
  Qed.

  Lemma c_0 n : (1 <= N)%nat -> (n <= N)%nat -> c_ 0 (zn n) = if Nat.eqb n 1 then zn w else 0.
  Proof.
    intros HN Hn. unfold c_. destruct (Nat.eqb n 1) eqn:E.
    - apply Nat.eqb_eq in E. subst n. destruct Hnlet as [Ew|]; [|lia]. rewrite <- Ew.
      change (zn (length (filter (fun k => Nat.eqb (deg k) 1) keys))) with (count (fun k => Nat.eqb (deg k) 1)).
      apply count_ext. intros k Hk. assert (Hl := Hlt k Hk). assert (He := Hlet k Hk).
      clear Ew. destruct (Nat.eqb (deg k) 1) eqn:E1.
      + apply Nat.eqb_eq in E1. assert (lft k = 0) by tauto. rewrite E1. rewrite !andb_true_iff. lia.
      + apply Nat.eqb_neq in E1. replace (zn (deg k) =? zn 1) with false by lia. reflexivity.
    - apply count_zero. intros h Hh. assert (He := Hlet h Hh). apply Nat.eqb_neq in E. assert (Hl := Hlt h Hh).
      destruct (zn (deg h) =? zn n) eqn:E1; [|reflexivity]. destruct (lft h <=? 0) eqn:E2; [|rewrite andb_false_r; reflexivity].
      exfalso. apply E. assert (deg h = 1%nat) by (apply He; lia). lia.
  Qed.

  Lemma G_pow n : (1 <= n <= N)%nat -> G_ (Z.to_nat M) (zn n) = zn w ^ zn n.
  Proof.
    intros Hn. assert (HN := newton_all (Z.to_nat M) (le_n _)). rewrite Z2Nat.id, Z.sub_diag in HN by lia.
    set (G := G_ (Z.to_nat M)) in *.
    assert (F0 : forall m, (m <= N)%nat -> F_ 0 (zn m) = (if Nat.eqb m 0 then 1 else 0) - (if Nat.eqb m 1 then zn w else 0)).
    { intros m Hm. unfold F_. rewrite c_0 by lia. destruct m; reflexivity. }
    induction n as [|n IH]; [lia|]. destruct n as [|n].
    - assert (H1 := HN 1%nat ltac:(lia)). cbn [seq sum] in H1. rewrite (F0 1%nat) in H1 by lia.
      change (zn 1 - zn 1) with (zn 0) in H1. rewrite (F0 0%nat) in H1 by lia. cbn [Nat.eqb] in H1. change (@radd Zcr) with Z.add in H1. change (@r0 Zcr) with 0 in H1.
      change (zn 1) with 1 in *. rewrite Z.pow_1_r. lia.
    - assert (H1 := HN (S (S n)) ltac:(lia)). rewrite (F0 (S (S n))) in H1 by lia. cbn [Nat.eqb] in H1.
      rewrite seq_S, zsum_app in H1. rewrite (seq_S n 1), zsum_app in H1. cbn [sum] in H1.
      rewrite zsum_zero in H1.
      2:{ intros i Hi. apply in_seq in Hi. replace (zn (S (S n)) - zn i) with (zn (S (S n) - i)) by lia. rewrite F0 by lia.
          destruct (S (S n) - i)%nat as [|[|m]] eqn:Em; try lia. cbn [Nat.eqb]. lia. }
      replace (1 + n)%nat with (S n) in H1 by lia. replace (1 + S n)%nat with (S (S n)) in H1 by lia.
      replace (zn (S (S n)) - zn (S n)) with (zn 1) in H1 by lia. replace (zn (S (S n)) - zn (S (S n))) with (zn 0) in H1 by lia.
      rewrite (F0 1%nat), (F0 0%nat) in H1 by lia. cbn [Nat.eqb] in H1. change (@radd Zcr) with Z.add in H1. change (@r0 Zcr) with 0 in H1.
      assert (IH' := IH ltac:(lia)).
      replace (zn (S (S n))) with (Z.succ (zn (S n))) in * by lia. rewrite Z.pow_succ_r by lia. rewrite <- IH'. lia.
  Qed.

  Definition ndeg (d : nat) : Z := count (fun k => Nat.eqb (deg k) d).

  Theorem hall_divisor_sum n : (1 <= n <= N)%nat -> dsum n (fun d => zn d * ndeg d) = zn w ^ zn n.
  Proof.
    intros Hn. rewrite <- (G_pow n Hn). unfold G_. rewrite Z2Nat.id by lia. replace (M + 1 - M) with 1 by lia. fold keys.
    rewrite (dsum_wide n N) by lia.
    rewrite (zsum_ext _ _ (fun d => @sum Zcr Z keys (fun k => if Nat.eqb (deg k) d then E_ (deg k) (zn n) else 0))).
    2:{ intros d Hd. apply in_seq in Hd. unfold ndeg. rewrite count_sum.
        assert (HE : (if divides d n then zn d else 0) = E_ d (zn n)).
        { unfold E_. destruct (divides d n) eqn:E.
          - apply divides_spec in E; [|lia]. apply Z.mod_divide in E; [|lia]. rewrite E. reflexivity.
          - destruct (zn n mod zn d =? 0) eqn:E2; auto. apply Z.eqb_eq in E2. apply Z.mod_divide in E2; [|lia].
            apply divides_spec in E2; [congruence|lia]. }
        transitivity (E_ d (zn n) * @sum Zcr Z keys (fun k => if Nat.eqb (deg k) d then 1 else 0)).
        { rewrite <- HE. destruct (divides d n); lia. }
        rewrite <- zsum_mul_l. apply (sum_ext Zcr). intros k _. destruct (Nat.eqb (deg k) d) eqn:E; [|cbn; lia].
        apply Nat.eqb_eq in E. subst d. cbn. lia. }
    rewrite (sum_swap Zcr). apply (sum_ext Zcr). intros k Hk. apply keys_In in Hk. assert (Hd := Hdeg k Hk).
    rewrite (sum_single Zcr (seq 1 N) _ (deg k)).
    - rewrite Nat.eqb_refl. reflexivity.
    - apply seq_NoDup.
    - apply in_seq. lia.
    - intros d _ Hne. destruct (Nat.eqb (deg k) d) eqn:E; [|reflexivity]. apply Nat.eqb_eq in E. congruence.
  Qed.

  (** Witt's formula. *)
  Theorem hall_witt mu n : (forall d, (1 <= d <= N)%nat -> is_mobius (zn d) (mu d)) -> (1 <= n <= N)%nat ->
    dsum n (fun d => mu d * zn w ^ zn (n / d)) = zn n * ndeg n.
  Proof.
    intros Hmu Hn.
    rewrite <- (mobius_inversion mu N Hmu (fun d => zn d * ndeg d) (fun m => zn w ^ zn m)); auto.
    intros m Hm. symmetry. apply hall_divisor_sum. auto.
  Qed.
End Hall.
