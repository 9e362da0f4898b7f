(** Proofs about the dyadic model. *)
From Verif Require Import Outcome DyadicModel DyadicSpec.
From Coq Require Import QArith Qround Qpower Qfield ZifyBool.
Open Scope Z_scope.

Lemma two_pow_ok e : 0 <= e <= 30 -> two_pow e = Ok (2 ^ e).
Proof. intros H; unfold two_pow; destruct ((0 <=? e) && (e <=? 30)) eqn:E; [reflexivity|lia]. Qed.
Lemma two_pow_inv e p : two_pow e = Ok p -> p = 2 ^ e /\ 0 <= e <= 30.
Proof. unfold two_pow; destruct ((0 <=? e) && (e <=? 30)) eqn:E; [|discriminate]; intros [= <-]; lia. Qed.

Lemma pow2_pos e : 0 <= e -> 0 < 2 ^ e.
Proof. intros; apply Z.pow_pos_nonneg; lia. Qed.
Lemma pow2_le30 e : 0 <= e <= 30 -> 1 <= 2 ^ e <= 2 ^ 30.
Proof. intros; split; [pose proof (pow2_pos e); lia|apply Z.pow_le_mono_r; lia]. Qed.

(** ** Numbers *)
Lemma Q2_nz : ~ (2 == 0)%Q. Proof. discriminate. Qed.
Lemma Qpow2_pos n : (0 < Qpower 2 n)%Q.
Proof. apply Qpower_0_lt. reflexivity. Qed.
Lemma Qpow2_plus a b : (Qpower 2 (a + b) == Qpower 2 a * Qpower 2 b)%Q.
Proof. apply Qpower_plus, Q2_nz. Qed.
Lemma Qpow2_Z e : 0 <= e -> (Qpower 2 e == inject_Z (2 ^ e))%Q.
Proof. intros H. rewrite Zpower_Qpower by lia. reflexivity. Qed.

Lemma dy_scale k n e : 0 <= e -> (dy k n == dy (k * 2 ^ e) (n + e))%Q.
Proof.
  intros He; unfold dy.
  rewrite inject_Z_mult, <- Qpow2_Z by lia.
  replace (- n) with (e + - (n + e)) by lia.
  rewrite Qpow2_plus. ring.
Qed.
Lemma dy_same_le a b n : (dy a n <= dy b n)%Q <-> a <= b.
Proof.
  unfold dy. rewrite Qmult_le_r by apply Qpow2_pos. rewrite <- Zle_Qle; reflexivity.
Qed.
Lemma dy_same_lt a b n : (dy a n < dy b n)%Q <-> a < b.
Proof.
  unfold dy. rewrite Qmult_lt_r by apply Qpow2_pos. rewrite <- Zlt_Qlt; reflexivity.
Qed.
Lemma dy_same_eq a b n : (dy a n == dy b n)%Q <-> a = b.
Proof.
  split; [|intros ->; reflexivity].
  intros H. assert (a <= b) by (apply (dy_same_le a b n); rewrite H; apply Qle_refl).
  assert (b <= a) by (apply (dy_same_le b a n); rewrite H; apply Qle_refl). lia.
Qed.
Lemma to_param_dy d : to_param d = dy (mult d) (power d).
Proof. reflexivity. Qed.

(** Points in cells through floor and ceiling. *)
Lemma clopen_floor k n x : clopen_pts k n x <-> Qfloor (x * Qpower 2 n) = k.
Proof.
  unfold clopen_pts, dy.
  assert (P := Qpow2_pos n).
  assert (E : forall z, (inject_Z z * Qpower 2 (- n) * Qpower 2 n == inject_Z z)%Q).
  { intros z. rewrite <- Qmult_assoc, <- Qpow2_plus.
    replace (- n + n) with 0 by lia. simpl. ring. }
  rewrite <- (Qmult_le_r _ _ (Qpower 2 n)) by apply P.
  rewrite <- (Qmult_lt_r _ _ (Qpower 2 n)) by apply P.
  rewrite !E.
  set (y := (x * Qpower 2 n)%Q).
  split.
  - intros [H1 H2]. pose proof (Qfloor_le y). pose proof (Qlt_floor y).
    assert (inject_Z k < inject_Z (Qfloor y + 1))%Q by (eapply Qle_lt_trans; eauto).
    assert (inject_Z (Qfloor y) < inject_Z (k + 1))%Q by (eapply Qle_lt_trans; eauto).
    rewrite <- Zlt_Qlt in *. lia.
  - intros <-. split; [apply Qfloor_le|apply Qlt_floor].
Qed.
Lemma opencl_ceil k n x : opencl_pts k n x <-> Qceiling (x * Qpower 2 n) = k.
Proof.
  unfold opencl_pts, dy.
  assert (P := Qpow2_pos n).
  assert (E : forall z, (inject_Z z * Qpower 2 (- n) * Qpower 2 n == inject_Z z)%Q).
  { intros z. rewrite <- Qmult_assoc, <- Qpow2_plus.
    replace (- n + n) with 0 by lia. simpl. ring. }
  rewrite <- (Qmult_le_r _ _ (Qpower 2 n)) by apply P.
  rewrite <- (Qmult_lt_r _ _ (Qpower 2 n)) by apply P.
  rewrite !E.
  set (y := (x * Qpower 2 n)%Q).
  split.
  - intros [H1 H2]. pose proof (Qle_ceiling y). pose proof (Qceiling_lt y).
    assert (inject_Z (Qceiling y - 1) < inject_Z k)%Q by (eapply Qlt_le_trans; eauto).
    assert (inject_Z (k - 1) < inject_Z (Qceiling y))%Q by (eapply Qlt_le_trans; eauto).
    rewrite <- Zlt_Qlt in *. lia.
  - intros <-. split; [apply Qceiling_lt|apply Qle_ceiling].
Qed.
Lemma opencl_clopen_neg k n x : opencl_pts k n x <-> clopen_pts (- k) n (- x)%Q.
Proof.
  rewrite opencl_ceil, clopen_floor. unfold Qceiling.
  assert (E : (- (x * Qpower 2 n) == - x * Qpower 2 n)%Q) by ring.
  rewrite E. lia.
Qed.

(** ** rebase *)
Lemma rem_div_pow k r : 0 <= r -> (Z.rem k (2 ^ r) = 0 <-> (2 ^ r | k)).
Proof.
  intros H. pose proof (pow2_pos r H). rewrite <- Z.rem_divide by lia. reflexivity.
Qed.
Lemma pow2_div_mono a b k : 0 <= a <= b -> (2 ^ b | k) -> (2 ^ a | k).
Proof.
  intros H [q ->]. exists (q * 2 ^ (b - a)).
  rewrite <- Z.mul_assoc, <- Z.pow_add_r by lia. do 2 f_equal. lia.
Qed.

(** Result of the loop: the largest r' <= r with 2^r' dividing k. *)
Lemma rebase_loop_spec k r :
  (r <= 30)%nat -> k <> 0 ->
  exists r', rebase_loop k r = Ok r' /\ 0 <= r' <= Z.of_nat r /\ (2 ^ r' | k)
    /\ forall q, r' < q <= Z.of_nat r -> ~ (2 ^ q | k).
Proof.
  intros Hr Hk. induction r as [|r IH]; cbn [rebase_loop].
  - rewrite two_pow_ok by lia. cbn [bind]. change (Z.of_nat 0) with 0.
    rewrite Z.pow_0_r, Z.rem_1_r. simpl. exists 0. repeat split; try lia.
    exists k; lia.
  - rewrite two_pow_ok by lia. cbn [bind].
    destruct (Z.rem k (2 ^ Z.of_nat (S r)) =? 0) eqn:E.
    + exists (Z.of_nat (S r)). repeat split; try lia. apply rem_div_pow; lia.
    + destruct IH as (r' & Hl & Hb & Hd & Hm); [lia|].
      exists r'. repeat split; auto; try lia.
      intros q Hq. destruct (Z.eq_dec q (Z.of_nat (S r))) as [->|Hn].
      * rewrite <- rem_div_pow by lia. lia.
      * apply Hm. lia.
Qed.

Definition clamp_res (n res : Z) : Z := if n >=? 31 + res then n - 31 + 1 else res.

Lemma rebase_down k n res :
  k <> 0 -> res < n -> small n -> small res ->
  exists r, let c := clamp_res n res in
    0 <= r <= n - c /\ (2 ^ r | k) /\ (forall q, r < q <= n - c -> ~ (2 ^ q | k))
    /\ rebase (mkD k n) res = Ok (mkD (k / 2 ^ r) (n - r), r =? n - c).
Proof.
  intros Hk Hlt Hn Hres. unfold small in *.
  unfold rebase; cbn [mult power].
  destruct (k =? 0) eqn:E0; [lia|]. clear E0.
  destruct (res >=? n) eqn:E1; [lia|]. clear E1.
  rewrite (i32_ok (31 + res)) by (unfold INT_MIN, INT_MAX; lia). cbn [bind].
  set (c := clamp_res n res).
  assert (Hc : (if n >=? 31 + res then let! a := i32 (n - 31) in i32 (a + 1) else Ok res) = Ok c).
  { unfold c, clamp_res. destruct (n >=? 31 + res) eqn:E; [|reflexivity].
    rewrite i32_ok by (unfold INT_MIN, INT_MAX; lia). cbn [bind].
    rewrite i32_ok by (unfold INT_MIN, INT_MAX; lia). reflexivity. }
  rewrite Hc. cbn [bind].
  assert (Hcb : 0 < n - c <= 30) by (unfold c, clamp_res; destruct (n >=? 31 + res) eqn:E; lia).
  rewrite (i32_ok (n - c)) by (unfold INT_MIN, INT_MAX; lia). cbn [bind].
  destruct (n - c <? 0) eqn:E; [lia|]. clear E.
  destruct (rebase_loop_spec k (Z.to_nat (n - c))) as (r & Hl & Hb & Hd & Hm); [lia|auto|].
  rewrite Hl. cbn [bind]. rewrite Z2Nat.id in * by lia.
  rewrite two_pow_ok by lia. cbn [bind].
  rewrite (i32_ok (n - r)) by (unfold INT_MIN, INT_MAX; lia). cbn [bind].
  exists r. repeat split; try lia; auto.
  f_equal. f_equal.
  - f_equal. destruct Hd as [q ->]. pose proof (pow2_pos r).
    rewrite Z.quot_mul, Z.div_mul by lia. reflexivity.
  - destruct (c =? n - r) eqn:E2, (r =? n - c) eqn:E3; lia.
Qed.

(** Value preservation for every run that returns. *)
Lemma i32_bind {B} z (f : Z -> outcome B) r :
  bind (i32 z) f = Ok r -> f z = Ok r /\ INT_MIN <= z <= INT_MAX.
Proof.
  intros H. apply bind_ok in H as (a & H1 & H2). apply i32_inv in H1 as [-> H1]. auto.
Qed.

Lemma rebase_loop_inv k r r' :
  rebase_loop k r = Ok r' -> 0 <= r' <= 30 /\ (2 ^ r' | k) /\ r' <= Z.of_nat r.
Proof.
  induction r as [|r IH]; cbn [rebase_loop]; intros H; apply bind_ok in H as (p & Hp & H);
    apply two_pow_inv in Hp as [-> Hp].
  - destruct (Z.rem k _ =? 0) eqn:E; [|discriminate]. injection H as <-.
    repeat split; try lia. apply rem_div_pow; lia.
  - destruct (Z.rem k _ =? 0) eqn:E.
    + injection H as <-. repeat split; try lia. apply rem_div_pow; lia.
    + destruct (IH H) as (A & B & C). repeat split; auto; lia.
Qed.

Lemma rebase_value d res d' b :
  rebase d res = Ok (d', b) -> (dy (mult d') (power d') == dy (mult d) (power d))%Q.
Proof.
  destruct d as [k n]. unfold rebase; cbn [mult power]. intros H.
  destruct (k =? 0) eqn:E0.
  - injection H as <- <-. cbn. assert (k = 0) by lia; subst. unfold dy. simpl. ring.
  - destruct (res >=? n) eqn:E1.
    + apply i32_bind in H as [H _]. apply bind_ok in H as (k' & Hs & H).
      injection H as <- <-. cbn. unfold shift in Hs.
      apply bind_ok in Hs as (p & Hp & Hs). apply two_pow_inv in Hp as [-> Hp].
      apply i32_inv in Hs as [-> _].
      rewrite (dy_scale k n (res - n)) by lia.
      replace (n + (res - n)) with res by lia. reflexivity.
    + apply i32_bind in H as [H _]. apply bind_ok in H as (c & Hc & H).
      apply i32_bind in H as [H _].
      destruct (n - c <? 0) eqn:E2; [discriminate|].
      apply bind_ok in H as (r & Hl & H). apply bind_ok in H as (p & Hp & H).
      apply two_pow_inv in Hp as [-> Hp]. apply i32_bind in H as [H _].
      injection H as <- <-. cbn.
      apply rebase_loop_inv in Hl as (A & [q ->] & C).
      pose proof (pow2_pos r).
      rewrite Z.quot_mul by lia.
      rewrite (dy_scale q (n - r) r) by lia.
      replace (n - r + r) with n by lia. reflexivity.
Qed.

(** The flag: true exactly when the stored power is the (clamped) resolution. *)
Lemma rebase_flag d res d' b :
  rebase d res = Ok (d', b) ->
  (mult d = 0 \/ power d <= res -> b = true /\ power d' = res) /\
  (mult d <> 0 -> res < power d -> (b = true <-> power d' = clamp_res (power d) res)).
Proof.
  destruct d as [k n]. unfold rebase; cbn [mult power]. intros H.
  destruct (k =? 0) eqn:E0.
  - injection H as <- <-. cbn. split; [auto|lia].
  - destruct (res >=? n) eqn:E1.
    + apply i32_bind in H as [H _]. apply bind_ok in H as (k' & Hs & H).
      injection H as <- <-. cbn. split; [auto|lia].
    + split; [lia|]. intros _ _.
      apply i32_bind in H as [H _]. apply bind_ok in H as (c & Hc & H).
      apply i32_bind in H as [H _].
      destruct (n - c <? 0) eqn:E2; [discriminate|].
      apply bind_ok in H as (r & Hl & H). apply bind_ok in H as (p & Hp & H).
      apply i32_bind in H as [H _]. injection H as <- <-. cbn.
      assert (c = clamp_res n res) as ->.
      { unfold clamp_res. destruct (n >=? 31 + res) eqn:E.
        - apply i32_bind in Hc as [Hc _]. apply i32_inv in Hc as [-> _]. lia.
        - injection Hc as <-. reflexivity. }
      lia.
Qed.

(** ** Relational operators *)
Lemma shift_inv k n s : shift k n = Ok s -> s = k * 2 ^ n /\ 0 <= n <= 30.
Proof.
  unfold shift; intros H. apply bind_ok in H as (p & Hp & H).
  apply two_pow_inv in Hp as [-> Hp]. apply i32_inv in H as [-> _]. auto.
Qed.
Lemma shift_ok k n : 0 <= n <= 30 -> INT_MIN <= k * 2 ^ n <= INT_MAX -> shift k n = Ok (k * 2 ^ n).
Proof. intros H1 H2. unfold shift. rewrite two_pow_ok by lia. cbn. apply i32_ok; lia. Qed.

Lemma d_rel_same cmp l r : power l = power r -> INT_MIN <= mult r <= INT_MAX ->
  d_rel cmp l r = Ok (cmp (mult l) (mult r)).
Proof.
  intros E Hr. unfold d_rel. rewrite E, Z.leb_refl.
  rewrite (i32_ok (power r - power r)) by (unfold INT_MIN, INT_MAX; lia). cbn [bind].
  rewrite Z.sub_diag, shift_ok by (rewrite ?Z.pow_0_r; lia). cbn [bind].
  rewrite Z.pow_0_r, Z.mul_1_r. reflexivity.
Qed.

(** rational_equals *)
Lemma dy_neq0 k n : k <> 0 -> ~ (dy k n == 0)%Q.
Proof. intros H E. apply H. apply (dy_same_eq k 0 n). rewrite E. unfold dy. simpl. ring. Qed.

Lemma pow2_inj a b : 0 <= a -> 0 <= b -> 2 ^ a = 2 ^ b -> a = b.
Proof. intros. apply (Z.pow_inj_r 2); lia. Qed.

(** equality of values with powers differing by t>=0 *)
Lemma dy_eq_shift k1 k2 n t : 0 <= t ->
  (dy k1 (n + t) == dy k2 n)%Q <-> k1 = k2 * 2 ^ t.
Proof. intros Ht. rewrite (dy_scale k2 n t) by lia. apply dy_same_eq. Qed.

Lemma ratio_case k1 n1 k2 n2 : k2 <> 0 -> Z.rem k1 k2 = 0 -> Z.quot k1 k2 >= 1 ->
  (dy k1 n1 == dy k2 n2)%Q <-> (0 <= n1 - n2 /\ Z.quot k1 k2 = 2 ^ (n1 - n2)).
Proof.
  intros Hk Hr Hq.
  apply Z.rem_divide in Hr; [|lia]. destruct Hr as [q ->].
  rewrite Z.quot_mul in * by lia.
  destruct (Z_le_gt_dec 0 (n1 - n2)) as [Ht|Ht].
  - replace n1 with (n2 + (n1 - n2)) at 1 by lia.
    rewrite dy_eq_shift by lia. split.
    + intros H. split; [lia|]. apply (Z.mul_reg_r _ _ k2); lia.
    + intros [_ ->]. lia.
  - split; [|lia]. intros H. exfalso. symmetry in H.
    replace n2 with (n1 + (n2 - n1)) in H by lia.
    rewrite dy_eq_shift in H by lia.
    assert (1 = q * 2 ^ (n2 - n1)) by (apply (Z.mul_reg_r _ _ k2); lia).
    assert (2 <= 2 ^ (n2 - n1)).
    { change 2 with (2 ^ 1) at 1. apply Z.pow_le_mono_r; lia. }
    nia.
Qed.

Lemma dy_eq_sign k1 n1 k2 n2 : (dy k1 n1 == dy k2 n2)%Q -> k1 <> 0 -> k2 <> 0 ->
  (Z.rem k1 k2 = 0 /\ Z.quot k1 k2 >= 1) \/ (Z.rem k2 k1 = 0 /\ Z.quot k2 k1 >= 1).
Proof.
  intros H H1 H2. destruct (Z_le_gt_dec n2 n1).
  - left. replace n1 with (n2 + (n1 - n2)) in H by lia. rewrite dy_eq_shift in H by lia.
    subst k1. pose proof (pow2_pos (n1 - n2)).
    rewrite Z.mul_comm, Z.rem_mul, Z.quot_mul by lia. lia.
  - right. symmetry in H. replace n2 with (n1 + (n2 - n1)) in H by lia. rewrite dy_eq_shift in H by lia.
    subst k2. pose proof (pow2_pos (n2 - n1)).
    rewrite Z.mul_comm, Z.rem_mul, Z.quot_mul by lia. lia.
Qed.

Lemma rational_equals_correct l r b :
  rational_equals l r = Ok b ->
  (b = true <-> (dy (mult l) (power l) == dy (mult r) (power r))%Q).
Proof.
  destruct l as [k1 n1], r as [k2 n2]. unfold rational_equals; cbn [mult power]. intros H.
  destruct ((k1 =? 0) && (k2 =? 0)) eqn:E0.
  { injection H as <-. assert (k1 = 0) by lia; assert (k2 = 0) by lia; subst.
    split; [|auto]. intros _. unfold dy; simpl; ring. }
  destruct ((k1 =? 0) || (k2 =? 0)) eqn:E1.
  { injection H as <-. split; [discriminate|]. intros H. exfalso.
    destruct (Z.eq_dec k1 0) as [->|N1].
    - assert (k2 <> 0) by lia. apply (dy_neq0 k2 n2); auto. rewrite <- H. unfold dy; simpl; ring.
    - assert (k2 = 0) by lia; subst. apply (dy_neq0 k1 n1); auto. rewrite H. unfold dy; simpl; ring. }
  assert (N1 : k1 <> 0) by lia. assert (N2 : k2 <> 0) by lia. clear E0 E1.
  apply i32_bind in H as [H _].
  destruct ((Z.rem k1 k2 =? 0) && (Z.quot k1 k2 >=? 1)) eqn:E1.
  { apply i32_bind in H as [H _].
    rewrite (ratio_case k1 n1 k2 n2) by lia.
    destruct (n1 - n2 <? 0) eqn:E2.
    - injection H as <-. split; [discriminate|lia].
    - apply bind_ok in H as (p & Hp & H). apply two_pow_inv in Hp as [-> Hp].
      injection H as <-. lia. }
  apply i32_bind in H as [H _].
  destruct ((Z.rem k2 k1 =? 0) && (Z.quot k2 k1 >=? 1)) eqn:E3.
  { apply i32_bind in H as [H _].
    assert (Sy : (dy k1 n1 == dy k2 n2)%Q <-> (dy k2 n2 == dy k1 n1)%Q) by (split; intros; symmetry; auto).
    rewrite Sy, (ratio_case k2 n2 k1 n1) by lia.
    destruct (n2 - n1 <? 0) eqn:E2.
    - injection H as <-. split; [discriminate|lia].
    - apply bind_ok in H as (p & Hp & H). apply two_pow_inv in Hp as [-> Hp].
      injection H as <-. lia. }
  injection H as <-. split; [discriminate|]. intros H.
  destruct (dy_eq_sign _ _ _ _ H N1 N2); lia.
Qed.

Lemma rational_equals_total l r :
  INT_MIN < mult l <= INT_MAX -> INT_MIN < mult r <= INT_MAX -> Z.abs (power l - power r) <= 30 ->
  exists b, rational_equals l r = Ok b.
Proof.
  destruct l as [k1 n1], r as [k2 n2]; cbn [mult power]. intros H1 H2 H3.
  unfold rational_equals; cbn [mult power].
  destruct ((k1 =? 0) && (k2 =? 0)) eqn:E0; [eauto|].
  destruct ((k1 =? 0) || (k2 =? 0)) eqn:E1; [eauto|].
  assert (Q : forall a b, INT_MIN < a <= INT_MAX -> b <> 0 -> INT_MIN <= Z.quot a b <= INT_MAX).
  { intros a b Ha Hb. pose proof (Z.quot_abs a b Hb).
    assert (Z.abs a ÷ Z.abs b <= Z.abs a).
    { destruct (Z.eq_dec (Z.abs b) 1) as [->|]; [rewrite Z.quot_1_r; lia|].
      destruct (Z.eq_dec (Z.abs a) 0) as [->|]; [rewrite Z.quot_0_l by lia; lia|].
      apply Z.lt_le_incl, Z.quot_lt; lia. }
    unfold INT_MIN, INT_MAX in *. lia. }
  rewrite (i32_ok (k1 ÷ k2)) by (apply Q; auto; lia). cbn [bind].
  destruct ((Z.rem k1 k2 =? 0) && (k1 ÷ k2 >=? 1)) eqn:E2.
  { rewrite (i32_ok (n1 - n2)) by (unfold INT_MIN, INT_MAX; lia). cbn [bind].
    destruct (n1 - n2 <? 0) eqn:E3; [eauto|]. rewrite two_pow_ok by lia. cbn; eauto. }
  rewrite (i32_ok (k2 ÷ k1)) by (apply Q; auto; lia). cbn [bind].
  destruct ((Z.rem k2 k1 =? 0) && (k2 ÷ k1 >=? 1)) eqn:E3; [|eauto].
  rewrite (i32_ok (n2 - n1)) by (unfold INT_MIN, INT_MAX; lia). cbn [bind].
  destruct (n2 - n1 <? 0) eqn:E4; [eauto|]. rewrite two_pow_ok by lia. cbn; eauto.
Qed.

(** ** Dyadic intervals *)
Lemma cmod_pow a e : 0 <= e <= 30 -> cmod a (2 ^ e) = Ok (a mod 2 ^ e).
Proof.
  intros He. pose proof (pow2_pos e). pose proof (pow2_le30 e He).
  unfold cmod. destruct (2 ^ e =? 0) eqn:E0; [lia|]. clear E0.
  rewrite (Z.abs_eq (2 ^ e)) by lia.
  assert (B := Z.rem_bound_abs a (2 ^ e)).
  pose proof (Z.quot_rem' a (2 ^ e)) as D.
  destruct (Z.rem a (2 ^ e) <? 0) eqn:E1.
  - rewrite i32_ok by (unfold INT_MIN, INT_MAX; lia). f_equal.
    apply Z.mod_unique with (q := a ÷ 2 ^ e - 1); lia.
  - f_equal. apply Z.mod_unique with (q := a ÷ 2 ^ e); lia.
Qed.

Lemma unit_sq t : unit_t t * unit_t t = 1.
Proof. destruct t; reflexivity. Qed.
Lemma unit_small t k : small k -> small (unit_t t * k).
Proof. destruct t; unfold small; simpl unit_t; lia. Qed.
Lemma unit_cases t : unit_t t = 1 \/ unit_t t = -1.
Proof. destruct t; auto. Qed.

Lemma small_i32 k : small k -> INT_MIN <= k <= INT_MAX.
Proof. unfold small, INT_MIN, INT_MAX; lia. Qed.

Lemma pow30_split e : 0 <= e <= 30 -> 2 ^ 30 = 2 ^ (30 - e) * 2 ^ e.
Proof. intros. rewrite <- Z.pow_add_r by lia. f_equal; lia. Qed.

Lemma floor_small a e : 0 <= e <= 30 -> small a -> small (a - a mod 2 ^ e).
Proof.
  intros He Ha. unfold small in *. pose proof (pow2_pos e).
  pose proof (Z.mod_pos_bound a (2 ^ e)).
  pose proof (Z.div_mod a (2 ^ e)).
  pose proof (pow30_split e He).
  assert (- 2 ^ (30 - e) <= a / 2 ^ e).
  { apply Z.div_le_lower_bound; lia. }
  split; [|lia]. nia.
Qed.

Lemma di_make_down k n res t :
  small k -> small n -> small res -> 0 <= n - res <= 30 ->
  di_make (mkD k n) res t = Ok (mkDI (unit_t t * ((unit_t t * k) / 2 ^ (n - res))) res t).
Proof.
  intros Hk Hn Hres He. unfold di_make.
  destruct (Z.eq_dec k 0) as [->|Hk0].
  { unfold rebase; cbn. rewrite Z.mul_0_r, Z.div_0_l, Z.mul_0_r by (pose proof (pow2_pos (n - res)); lia).
    reflexivity. }
  destruct (Z.eq_dec res n) as [->|Hrn].
  { unfold rebase; cbn [mult power]. destruct (k =? 0) eqn:E; [lia|].
    destruct (n >=? n) eqn:E1; [|lia].
    rewrite Z.sub_diag, (i32_ok 0) by (unfold INT_MIN, INT_MAX; lia). cbn [bind].
    rewrite shift_ok by (rewrite ?Z.pow_0_r, ?Z.mul_1_r; try (apply small_i32; auto); lia). cbn [bind].
    unfold of_d; cbn [mult power]. do 2 f_equal. rewrite Z.pow_0_r, Z.div_1_r, Z.mul_assoc, unit_sq. lia. }
  destruct (rebase_down k n res Hk0 ltac:(lia) Hn Hres) as (r & Hb & Hd & Hm & Hreb).
  assert (Hc : clamp_res n res = res) by (unfold clamp_res; destruct (n >=? 31 + res) eqn:E; lia).
  rewrite Hc in *. rewrite Hreb. cbn [bind].
  destruct Hd as [q Hq].
  assert (Hr : 0 < 2 ^ r) by (apply pow2_pos; lia).
  assert (Hkq : k / 2 ^ r = q) by (rewrite Hq; apply Z.div_mul; lia).
  rewrite Hkq.
  assert (Hsplit : 2 ^ (n - res) = 2 ^ r * 2 ^ (n - res - r)) by (rewrite <- Z.pow_add_r by lia; f_equal; lia).
  assert (Hdiv : (unit_t t * k) / 2 ^ (n - res) = (unit_t t * q) / 2 ^ (n - res - r)).
  { rewrite Hsplit, <- Z.div_div by (try (apply pow2_pos; lia); lia).
    f_equal. rewrite Hq, Z.mul_assoc. apply Z.div_mul; lia. }
  rewrite Hdiv.
  assert (Hqs : small q).
  { unfold small in *. nia. }
  destruct (r =? n - res) eqn:Er.
  { assert (r = n - res) by lia. unfold of_d; cbn [mult power]. do 2 f_equal; [|lia].
    replace (n - res - r) with 0 by lia. rewrite Z.pow_0_r, Z.div_1_r, Z.mul_assoc, unit_sq. lia. }
  cbn [mult power].
  set (e := n - r - res). assert (Hee : 0 < e <= 30) by lia.
  rewrite (i32_ok e) by (unfold INT_MIN, INT_MAX; lia). cbn [bind].
  rewrite two_pow_ok by lia. cbn [bind].
  rewrite (Z.mul_comm q).
  assert (S1 : small (unit_t t * q)) by (apply unit_small; auto).
  rewrite (i32_ok (unit_t t * q)) by (apply small_i32; auto). cbn [bind].
  rewrite cmod_pow by lia. cbn [bind].
  set (a := unit_t t * q) in *.
  assert (S2 : small (a - a mod 2 ^ e)) by (apply floor_small; auto; lia).
  rewrite (i32_ok (a - a mod 2 ^ e)) by (apply small_i32; auto). cbn [bind].
  assert (S3 := unit_small t _ S2).
  rewrite (i32_ok (unit_t t * _)) by (apply small_i32; auto). cbn [bind].
  replace (n - res - r) with e by lia.
  set (fl := a / 2 ^ e).
  assert (Hfl : a - a mod 2 ^ e = fl * 2 ^ e).
  { pose proof (Z.div_mod a (2 ^ e)). pose proof (pow2_pos e). unfold fl. lia. }
  rewrite Hfl in *. clear Hfl.
  destruct (Z.eq_dec fl 0) as [Hf0|Hf0].
  { rewrite Hf0. unfold rebase; cbn [mult power]. rewrite !Z.mul_0_l, !Z.mul_0_r. reflexivity. }
  assert (Hne : unit_t t * (fl * 2 ^ e) <> 0).
  { pose proof (pow2_pos e). destruct (unit_cases t) as [-> | ->]; nia. }
  destruct (rebase_down (unit_t t * (fl * 2 ^ e)) (n - r) res Hne) as (r2 & Hb2 & Hd2 & Hm2 & Hreb2);
    [lia|unfold small in *; lia|auto|].
  assert (Hc2 : clamp_res (n - r) res = res) by (unfold clamp_res; destruct (n - r >=? 31 + res) eqn:E; lia).
  rewrite Hc2 in *. rewrite Hreb2. cbn [bind].
  assert (r2 = e).
  { destruct (Z.eq_dec r2 e); auto. exfalso. apply (Hm2 e); [lia|].
    exists (unit_t t * fl). lia. }
  subst r2. destruct (e =? n - r - res) eqn:Ee; [|lia].
  unfold of_d; cbn [mult power]. do 2 f_equal; [|lia].
  rewrite Z.mul_assoc, Z.div_mul by (pose proof (pow2_pos e); lia). reflexivity.
Qed.

Lemma di_make_up k n res t :
  0 <= res - n <= 30 -> INT_MIN <= k * 2 ^ (res - n) <= INT_MAX ->
  di_make (mkD k n) res t = Ok (mkDI (k * 2 ^ (res - n)) res t).
Proof.
  intros He Hk. unfold di_make, rebase; cbn [mult power].
  destruct (k =? 0) eqn:E.
  - assert (k = 0) by lia; subst. cbn. reflexivity.
  - destruct (res >=? n) eqn:E1; [|lia].
    rewrite (i32_ok (res - n)) by (unfold INT_MIN, INT_MAX; lia). cbn [bind].
    rewrite shift_ok by lia. reflexivity.
Qed.

(** Point set of a dyadic interval. *)
Definition di_pts (i : dint) (x : Q) : Prop :=
  match di_t i with Clopen => clopen_pts (di_k i) (di_n i) x | Opencl => opencl_pts (di_k i) (di_n i) x end.

(** Uniform view through signs: x in i  iff  u*x in the clopen cell of u*k. *)
Lemma di_pts_unit i x :
  di_pts i x <-> clopen_pts (unit i * di_k i) (di_n i) (inject_Z (unit i) * x)%Q.
Proof.
  unfold di_pts, unit. destruct (di_t i); simpl unit_t.
  - rewrite Z.mul_1_l.
    assert (E : (inject_Z 1 * x == x)%Q) by (unfold inject_Z; ring).
    rewrite !clopen_floor, E. reflexivity.
  - rewrite opencl_clopen_neg. replace (-1 * di_k i) with (- di_k i) by lia.
    assert (E : (inject_Z (-1) * x == - x)%Q) by (unfold inject_Z; ring).
    rewrite !clopen_floor, E. reflexivity.
Qed.

Lemma unitQ_sq t x : (inject_Z (unit_t t) * (inject_Z (unit_t t) * x) == x)%Q.
Proof. destruct t; unfold inject_Z, unit_t; ring. Qed.

(** Cells: coarse floor is floor division of the fine floor. *)
Lemma floor_coarse x n e : 0 <= e ->
  Qfloor (x * Qpower 2 n) = (Qfloor (x * Qpower 2 (n + e))) / 2 ^ e.
Proof.
  intros He. pose proof (pow2_pos e He).
  assert (H1 : clopen_pts (Qfloor (x * Qpower 2 (n + e))) (n + e) x) by (apply clopen_floor; reflexivity).
  set (m := Qfloor (x * Qpower 2 (n + e))) in *.
  apply clopen_floor. unfold clopen_pts in *.
  pose proof (Z.div_mod m (2 ^ e)). pose proof (Z.mod_pos_bound m (2 ^ e)).
  split.
  - rewrite (dy_scale (m / 2 ^ e) n e) by lia. eapply Qle_trans; [|apply H1].
    apply dy_same_le. lia.
  - rewrite (dy_scale _ n e) by lia. eapply Qlt_le_trans; [apply H1|].
    apply dy_same_le. lia.
Qed.

Lemma clopen_coarse k n e x : 0 <= e ->
  clopen_pts k (n + e) x -> clopen_pts (k / 2 ^ e) n x.
Proof.
  intros He H. apply clopen_floor in H. apply clopen_floor.
  rewrite (floor_coarse x n e) by lia. rewrite H. reflexivity.
Qed.

Lemma clopen_inhabited k n : clopen_pts k n (dy k n).
Proof. split; [apply Qle_refl|apply dy_same_lt; lia]. Qed.
Lemma clopen_unique k1 k2 n x : clopen_pts k1 n x -> clopen_pts k2 n x -> k1 = k2.
Proof. rewrite !clopen_floor. congruence. Qed.

Lemma clopen_incl_iff k1 n e k2 : 0 <= e ->
  (forall x, clopen_pts k2 (n + e) x -> clopen_pts k1 n x) <-> k1 = k2 / 2 ^ e.
Proof.
  intros He. split.
  - intros H. assert (A := clopen_inhabited k2 (n + e)).
    eapply clopen_unique; [apply H, A|]. apply clopen_coarse; auto.
  - intros -> x. apply clopen_coarse; auto.
Qed.

Lemma di_inhabited i : di_pts i (dy (di_k i) (di_n i)).
Proof.
  unfold di_pts. destruct (di_t i); [apply clopen_inhabited|].
  split; [apply dy_same_lt; lia|apply Qle_refl].
Qed.

(** contains_dyadic evaluated. *)
Lemma contains_dyadic_eval i o :
  di_t o = di_t i -> 0 <= di_n o - di_n i <= 30 ->
  small (di_k o) -> INT_MIN <= di_k i * 2 ^ (di_n o - di_n i) <= INT_MAX ->
  contains_dyadic i o = Ok (unit i * di_k i =? (unit i * di_k o) / 2 ^ (di_n o - di_n i)).
Proof.
  intros Ht He Hk Hi. unfold contains_dyadic. rewrite Ht.
  assert (itype_eqb (di_t i) (di_t i) = true) as -> by (destruct (di_t i); reflexivity). cbn [negb].
  destruct (di_n o >=? di_n i) eqn:E; [|lia].
  set (e := di_n o - di_n i) in *.
  rewrite (i32_ok e) by (unfold INT_MIN, INT_MAX; lia). cbn [bind].
  rewrite two_pow_ok by lia. cbn [bind]. rewrite shift_ok by lia. cbn [bind].
  rewrite (Z.mul_comm (di_k o)).
  assert (S1 : small (unit i * di_k o)) by (apply unit_small; auto).
  set (a := unit i * di_k o) in *.
  rewrite (i32_ok a) by (apply small_i32; auto). cbn [bind].
  rewrite cmod_pow by lia. cbn [bind].
  assert (S2 : small (a - a mod 2 ^ e)) by (apply floor_small; auto; lia).
  rewrite (i32_ok (a - _)) by (apply small_i32; auto). cbn [bind].
  assert (S3 : small (unit i * (a - a mod 2 ^ e))) by (apply unit_small; auto).
  rewrite (i32_ok (unit i * _)) by (apply small_i32; auto). cbn [bind].
  f_equal. pose proof (pow2_pos e ltac:(lia)) as P.
  pose proof (Z.div_mod a (2 ^ e) ltac:(lia)) as D.
  replace (a - a mod 2 ^ e) with (a / 2 ^ e * 2 ^ e) by lia.
  destruct (unit_cases (di_t i)) as [U|U]; fold (unit i) in U; rewrite U in *;
   destruct (Z.eqb_spec (di_k i * 2 ^ e) (1 * (a / 2 ^ e * 2 ^ e))) ||
   destruct (Z.eqb_spec (di_k i * 2 ^ e) (-1 * (a / 2 ^ e * 2 ^ e)));
   symmetry; try (apply Z.eqb_eq); try (apply Z.eqb_neq); nia.
Qed.

(** Inclusion of point sets for same-type intervals. *)
Lemma di_incl_iff i o :
  di_t o = di_t i -> di_n i <= di_n o ->
  (forall x, di_pts o x -> di_pts i x) <-> unit i * di_k i = (unit i * di_k o) / 2 ^ (di_n o - di_n i).
Proof.
  intros Ht He. set (e := di_n o - di_n i).
  rewrite <- (clopen_incl_iff (unit i * di_k i) (di_n i) e (unit i * di_k o)) by lia.
  replace (di_n i + e) with (di_n o) by lia.
  assert (Uo : unit o = unit i) by (unfold unit; rewrite Ht; reflexivity).
  split.
  - intros H y Hy.
    specialize (H (inject_Z (unit i) * y)%Q). rewrite !di_pts_unit, Uo in H.
    assert (E := unitQ_sq (di_t i) y). fold (unit i) in E.
    rewrite !clopen_floor in *. rewrite E in H. auto.
  - intros H x. rewrite !di_pts_unit, Uo. apply H.
Qed.

(** A strictly coarser interval is never inside a finer one. *)
Lemma di_not_incl_coarse i o :
  di_t o = di_t i -> di_n o < di_n i -> exists x, di_pts o x /\ ~ di_pts i x.
Proof.
  intros Ht Hlt.
  assert (Uo : unit o = unit i) by (unfold unit; rewrite Ht; reflexivity).
  set (e := di_n i - di_n o). assert (0 < e) by lia.
  assert (P2 : 2 <= 2 ^ e) by (change 2 with (2 ^ 1) at 1; apply Z.pow_le_mono_r; lia).
  set (c := unit i * di_k o).
  (* two fine cells c*2^e and c*2^e+1 lie in the coarse cell c; at most one is i's *)
  assert (H1 : forall j, 0 <= j < 2 ^ e -> clopen_pts c (di_n o) (dy (c * 2 ^ e + j) (di_n i))).
  { intros j Hj. assert (A := clopen_inhabited (c * 2 ^ e + j) (di_n i)).
    replace (di_n i) with (di_n o + e) in A by lia.
    apply clopen_coarse in A; [|lia].
    replace ((c * 2 ^ e + j) / 2 ^ e) with c in A.
    - replace (di_n o + e) with (di_n i) in A by lia. exact A.
    - symmetry. rewrite Z.div_add_l by lia. rewrite Z.div_small by lia. lia. }
  assert (Hin : forall j, 0 <= j < 2 ^ e ->
     di_pts o (inject_Z (unit i) * dy (c * 2 ^ e + j) (di_n i))%Q).
  { intros j Hj. apply di_pts_unit. rewrite Uo. apply clopen_floor.
    assert (E := unitQ_sq (di_t i) (dy (c * 2 ^ e + j) (di_n i))). fold (unit i) in E. rewrite E.
    apply clopen_floor. apply H1; auto. }
  assert (Hi : forall j, di_pts i (inject_Z (unit i) * dy (c * 2 ^ e + j) (di_n i))%Q ->
     c * 2 ^ e + j = unit i * di_k i).
  { intros j Hj. apply di_pts_unit in Hj. apply clopen_floor in Hj.
    assert (E := unitQ_sq (di_t i) (dy (c * 2 ^ e + j) (di_n i))). fold (unit i) in E. rewrite E in Hj.
    rewrite <- Hj. symmetry. apply clopen_floor. apply clopen_inhabited. }
  destruct (Z.eq_dec (c * 2 ^ e + 0) (unit i * di_k i)) as [E0|E0].
  - exists (inject_Z (unit i) * dy (c * 2 ^ e + 1) (di_n i))%Q. split; [apply Hin; lia|].
    intros Hx. apply Hi in Hx. lia.
  - exists (inject_Z (unit i) * dy (c * 2 ^ e + 0) (di_n i))%Q. split; [apply Hin; lia|].
    intros Hx. apply Hi in Hx. lia.
Qed.

Lemma contains_dyadic_correct i o b :
  di_t o = di_t i ->
  contains_dyadic i o = Ok b -> small (di_k o) ->
  (b = true <-> forall x, di_pts o x -> di_pts i x).
Proof.
  intros Ht H Hk.
  destruct (Z_le_gt_dec (di_n i) (di_n o)) as [Hn|Hn].
  - assert (Hb := H). unfold contains_dyadic in Hb. rewrite Ht in Hb.
    assert (Eq : itype_eqb (di_t i) (di_t i) = true) by (destruct (di_t i); reflexivity).
    rewrite Eq in Hb. cbn [negb] in Hb.
    destruct (di_n o >=? di_n i) eqn:E; [|lia].
    apply i32_bind in Hb as [Hb _]. apply bind_ok in Hb as (p & Hp & Hb).
    apply two_pow_inv in Hp as [_ Hp]. apply bind_ok in Hb as (s & Hs & _).
    unfold shift in Hs. apply bind_ok in Hs as (p' & Hp' & Hs).
    apply two_pow_inv in Hp' as [-> _]. apply i32_inv in Hs as [_ Hs].
    rewrite contains_dyadic_eval in H by (auto; lia). injection H as <-.
    rewrite di_incl_iff by auto. apply Z.eqb_eq.
  - assert (b = false) as ->.
    { unfold contains_dyadic in H. rewrite Ht in H.
      assert (Eq : itype_eqb (di_t i) (di_t i) = true) by (destruct (di_t i); reflexivity).
      rewrite Eq in H. cbn [negb] in H. destruct (di_n o >=? di_n i) eqn:E; [lia|].
      injection H as <-. reflexivity. }
    split; [discriminate|]. intros H'.
    destruct (di_not_incl_coarse i o Ht ltac:(lia)) as (x & H1 & H2). exfalso; auto.
Qed.

(** Nested or disjoint. *)
Lemma nested_or_disjoint i o :
  di_t o = di_t i ->
  (forall x, di_pts o x -> di_pts i x) \/ (forall x, di_pts i x -> di_pts o x) \/
  (forall x, ~ (di_pts i x /\ di_pts o x)).
Proof.
  revert i o.
  assert (W : forall i o, di_t o = di_t i -> di_n i <= di_n o ->
    (forall x, di_pts o x -> di_pts i x) \/ (forall x, ~ (di_pts i x /\ di_pts o x))).
  { intros i o Ht Hn. set (e := di_n o - di_n i).
    assert (Uo : unit o = unit i) by (unfold unit; rewrite Ht; reflexivity).
    destruct (Z.eq_dec (unit i * di_k i) ((unit i * di_k o) / 2 ^ e)) as [E|E].
    - left. apply di_incl_iff; auto.
    - right. intros x [H1 H2]. apply E.
      apply di_pts_unit in H1, H2. rewrite Uo in H2.
      replace (di_n o) with (di_n i + e) in H2 by lia.
      apply clopen_coarse in H2; [|lia]. eapply clopen_unique; eauto. }
  intros i o Ht. destruct (Z_le_gt_dec (di_n i) (di_n o)).
  - destruct (W i o); auto.
  - destruct (W o i); auto; [lia|]. right; right. intros x [? ?]. apply (H x); auto.
Qed.
