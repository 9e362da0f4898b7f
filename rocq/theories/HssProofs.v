(** Proofs about the Hall set size helper and default context sizes. *)
From Coq Require Import Permutation ZifyBool.
From Verif Require Import Mobius HallModel HallSpec HallProofs HallTab HallDim HallLemmas HssModel.
Open Scope Z_scope.

(** ** The constructor *)
Lemma init_len : blen init_buf = 51. Proof. reflexivity. Qed.
Lemma sieve_ok bound : 3 <= bound <= 2 ^ 30 -> exists tmp, sieve bound = Ok tmp /\ blen tmp = bound /\ bat tmp 2 = true.
Proof.
  intros H. unfold sieve. rewrite bset_ok by (cbn; lia). cbn [bind blen bat].
  destruct (for_inv (fun _ (t : buf bool) => blen t = bound /\ bat t 2 = true) (zseq 2 (Z.to_nat (bound - 2))) (mkbuf bound (fun k => if k =? 0 then false else true))
    (fun i tmp => for_ (zseq 2 (Z.to_nat ((bound - 1) / i - 1))) tmp (fun j tmp => let! m := i32 (i * j) in bset tmp m false))) as (t & E & P).
  - auto.
  - intros done i rest t Hi [P1 P2]. assert (Ii : In i (zseq 2 (Z.to_nat (bound - 2)))) by (rewrite Hi; apply in_app_iff; cbn; auto). apply zseq_In in Ii.
    destruct (for_inv (fun _ (t : buf bool) => blen t = bound /\ bat t 2 = true) (zseq 2 (Z.to_nat ((bound - 1) / i - 1))) t (fun j tmp => let! m := i32 (i * j) in bset tmp m false)) as (t' & E & P); auto; [|eauto].
    intros done' j rest' t' Hj [Q1 Q2]. assert (Ij : In j (zseq 2 (Z.to_nat ((bound - 1) / i - 1)))) by (rewrite Hj; apply in_app_iff; cbn; auto). apply zseq_In in Ij.
    assert (i * j <= bound - 1) by (assert (i * ((bound - 1) / i) <= bound - 1) by (apply Z.mul_div_le; lia); nia).
    rewrite i32_ok by (unfold INT_MIN, INT_MAX; nia). cbn [bind]. rewrite bset_ok by nia. eexists. split; [reflexivity|]. cbn [blen bat]. split; auto. replace (2 =? i * j) with false by nia. auto.
  - exists t. tauto.
Qed.
Lemma primes_ok bound tmp : 3 <= bound -> blen tmp = bound -> bat tmp 2 = true -> exists l, primes_of bound tmp = Ok (2 :: l).
Proof.
  intros Hb HL H2. unfold primes_of. replace (Z.to_nat (bound - 2)) with (S (Z.to_nat (bound - 3))) by lia. cbn [zseq for_]. rewrite bget_ok by lia. cbn [bind]. rewrite H2. cbn [app].
  destruct (for_inv (fun _ l => exists r, l = 2 :: r) (zseq (2 + 1) (Z.to_nat (bound - 3))) [2] (fun i primes => let! b := bget tmp i in Ok (if b then primes ++ [i] else primes))) as (l & E & r & P).
  - eauto.
  - intros done i rest t Hi [r ->]. assert (Ii : In i (zseq (2 + 1) (Z.to_nat (bound - 3)))) by (rewrite Hi; apply in_app_iff; cbn; auto). apply zseq_In in Ii. rewrite bget_ok by lia. cbn [bind]. eexists. split; [reflexivity|]. destruct (bat tmp i); cbn [app]; eauto.
  - exists r. subst l. exact E.
Qed.
Lemma mark_overflow fuel : forall j i m depth mob, 0 <= m -> m <= depth -> m < blen mob -> bat mob m = (-2) ^ Z.of_nat j -> (j <= 31)%nat -> (32 <= fuel + j)%nat -> 0 <= i <= 1000 + Z.of_nat j ->
  mark (fun x => i32 (x * - (2))) fuel i m depth mob = UB.
Proof.
  induction fuel as [|fuel IH]; intros j i m depth mob H0 Hm HL Hx Hj Hf Hi; [lia|]. cbn [mark]. replace (m <=? depth) with true by lia. rewrite bget_ok by lia. cbn [bind]. rewrite Hx.
  replace ((-2) ^ Z.of_nat j * -(2)) with ((-2) ^ Z.of_nat (S j)) by (rewrite Nat2Z.inj_succ, Z.pow_succ_r by lia; lia).
  destruct (Nat.eq_dec j 31) as [->|Nj]; [reflexivity|].
  assert (B : INT_MIN <= (-2) ^ Z.of_nat (S j) <= INT_MAX).
  { assert (Hj2 : (S j <= 31)%nat) by lia. clear -Hj2. do 32 (destruct j as [|j]; [unfold INT_MIN, INT_MAX; cbn; lia|]). lia. }
  rewrite i32_ok by auto. cbn [bind]. rewrite bset_ok by lia. cbn [bind]. rewrite i32_ok by (unfold INT_MIN, INT_MAX; lia). cbn [bind]. apply (IH (S j)); cbn [blen bat]; try lia. rewrite Z.eqb_refl. auto.
Qed.
Lemma construct_ub fuel depth : (32 <= fuel)%nat -> 52 <= depth <= INT_MAX -> helper_construct fuel depth = UB.
Proof.
  intros Hf Hd. unfold helper_construct. rewrite init_len. unfold u64. rewrite Z.mod_small by (unfold INT_MAX in Hd; lia). replace (depth >? 51) with true by lia.
  rewrite Z.quot_div_nonneg by lia. assert (Hb : 26 <= depth / 2 <= 2 ^ 30) by (unfold INT_MAX in Hd; split; [apply Z.div_le_lower_bound; lia|apply Z.div_le_upper_bound; lia]).
  replace (depth / 2 <? 0) with false by lia. destruct (sieve_ok (depth / 2)) as (tmp & -> & T1 & T2); [lia|]. cbn [bind]. destruct (primes_ok (depth / 2) tmp ltac:(lia) T1 T2) as [l ->]. cbn [bind].
  destruct (Z.eq_dec depth INT_MAX) as [->|]; [reflexivity|]. rewrite i32_ok by (unfold INT_MIN, INT_MAX in *; lia). cbn [bind for_]. change (i32 ((51 / 2 + 1) * 2)) with (@Ok Z 52). cbn [bind].
  rewrite (mark_overflow fuel 0); cbn [blen bat]; first [reflexivity|lia|(split; vm_compute; discriminate)].
Qed.
Lemma construct_ok fuel depth : 0 <= depth <= 51 -> helper_construct fuel depth = Ok init_buf.
Proof. intros H. unfold helper_construct. rewrite init_len. unfold u64. rewrite Z.mod_small by lia. replace (depth >? 51) with false by lia. reflexivity. Qed.

(** ** Calls *)
Lemma u64_mul a b : u64 (u64 a * u64 b) = u64 (a * b).
Proof. unfold u64. rewrite <- Z.mul_mod by lia. reflexivity. Qed.
Lemma u64_idem a : u64 (u64 a) = u64 a. Proof. unfold u64. apply Z.mod_mod. lia. Qed.
Lemma u64_add a b : u64 (u64 a + u64 b) = u64 (a + b).
Proof. unfold u64. rewrite <- Z.add_mod by lia. reflexivity. Qed.
Lemma u64_small a : 0 <= a < 2 ^ 64 -> u64 a = a. Proof. intros. apply Z.mod_small; auto. Qed.
Lemma power_ok fuel : forall base exp, 1 <= exp <= Z.of_nat fuel -> power fuel base exp = Ok (u64 (base ^ exp)).
Proof.
  induction fuel as [|fuel IH]; intros base exp H; [lia|]. cbn [power]. destruct (exp =? 1) eqn:E; [replace exp with 1 by lia; rewrite Z.pow_1_r; auto|].
  assert (E2 := Z.div_mod exp 2 ltac:(lia)). assert (M := Z.mod_pos_bound exp 2 ltac:(lia)). assert (1 <= exp / 2 <= Z.of_nat fuel) by (split; [apply Z.div_le_lower_bound; lia|apply Z.div_le_upper_bound; lia]).
  rewrite IH by auto. cbn [bind]. rewrite (u64_mul (if exp mod 2 =? 1 then base else 1) (base ^ (exp / 2))), u64_mul. f_equal. f_equal. rewrite E2 at 4. destruct (exp mod 2 =? 1) eqn:E3.
  - replace (exp mod 2) with 1 by lia. rewrite Z.pow_add_r, Z.pow_1_r, <- Z.add_diag, Z.pow_add_r by lia. ring.
  - replace (exp mod 2) with 0 by lia. rewrite Z.pow_add_r, Z.pow_0_r, <- Z.add_diag, Z.pow_add_r by lia. ring.
Qed.
Definition zsuml (l : list Z) : Z := fold_right Z.add 0 l.
Lemma zsuml_perm a b : Permutation a b -> zsuml a = zsuml b.
Proof. unfold zsuml. induction 1; cbn; lia. Qed.
Lemma zsuml_app a b : zsuml (a ++ b) = zsuml a + zsuml b.
Proof. unfold zsuml. induction a; cbn; lia. Qed.
Lemma divisors_perm k : 1 <= k -> let ds := filter (fun e => k mod e =? 0) (zrng 1 (k + 1)) in Permutation (map (fun i => k / i) ds) ds.
Proof.
  intros Hk ds. assert (I : forall e, In e ds <-> 1 <= e <= k /\ (e | k)).
  { intros e. unfold ds, zrng. rewrite filter_In, zseq_In. split.
    - intros [H1 H2]. split; [lia|]. apply Z.mod_divide; lia.
    - intros [H1 H2]. apply Z.mod_divide in H2; lia. }
  assert (Q : forall e, In e ds -> exists q, k = q * e /\ k / e = q /\ 1 <= q).
  { intros e H. apply I in H as [H [q E]]. exists q. split; auto. split; [rewrite E; apply Z.div_mul; lia|nia]. }
  apply NoDup_Permutation.
  - assert (ND : NoDup ds) by (apply NoDup_filter, zseq_NoDup).
    assert (INJ : forall x y, In x ds -> In y ds -> k / x = k / y -> x = y) by (intros x y Hx Hy E; destruct (Q x Hx) as (q & A & B & C), (Q y Hy) as (r & A' & B' & C'); assert (q = r) by lia; subst r; nia).
    clear -ND INJ. induction ds as [|x l IH]; cbn; [constructor|]. inversion ND; subst. constructor.
    + intros HI. apply in_map_iff in HI as (y & E & Iy). rewrite (INJ y x) in Iy; cbn; auto.
    + apply IH; auto. intros; apply INJ; cbn; auto.
  - apply NoDup_filter, zseq_NoDup.
  - intros e. rewrite in_map_iff. split.
    + intros (x & <- & Ix). destruct (Q x Ix) as (q & A & -> & C). apply I. apply I in Ix as [Hx _]. split; [nia|]. exists x. lia.
    + intros He. destruct (Q e He) as (q & A & B & C). exists q. split; [rewrite A, Z.mul_comm; apply Z.div_mul; lia|]. apply I. apply I in He as [He _]. split; [nia|]. exists e. lia.
Qed.
Lemma call_loop w (mu : Z -> Z) mob k : 1 <= k -> (forall i, 1 <= i <= k -> bget mob i = Ok (mu i)) -> forall n, (Z.of_nat n <= k) -> 
  for_ (zseq 1 n) 0 (fun i result => if k mod i =? 0 then
      let comp := k / (k / i) in let! m := bget mob (k / i) in let! p := power (Z.to_nat comp) w comp in Ok (u64 (result + u64 (u64 m * p))) else Ok result)
  = Ok (u64 (zsuml (map (fun i => mu (k / i) * w ^ i) (filter (fun e => k mod e =? 0) (zseq 1 n))))).
Proof.
  intros Hk Hm. induction n as [|n IH]; intros Hn; [reflexivity|].
  replace (S n) with (n + 1)%nat by lia. rewrite zseq_app, for_app, IH by lia. cbn [bind zseq for_]. rewrite filter_app, map_app, zsuml_app. cbn [filter].
  set (i := 1 + Z.of_nat n) in *. destruct (k mod i =? 0) eqn:E; cbn [bind map zsuml fold_right]; [|rewrite Z.add_0_r; reflexivity].
  assert (D : (i | k)) by (apply Z.mod_divide; lia). destruct D as [q Eq]. assert (Q : k / i = q) by (rewrite Eq; apply Z.div_mul; lia). rewrite Q. assert (1 <= q <= k) by nia.
  assert (Qq : k / q = i) by (rewrite Eq, Z.mul_comm; apply Z.div_mul; lia). rewrite Qq. rewrite Hm by lia. cbn [bind]. rewrite power_ok by lia. cbn [bind]. rewrite u64_mul, u64_add. unfold zsuml at 2. cbn [fold_right]. rewrite Z.add_0_r. reflexivity.
Qed.
Lemma call_value w (mu : Z -> Z) mob k : 1 <= k < 2 ^ 64 -> (forall i, 1 <= i <= k -> bget mob i = Ok (mu i)) ->
  helper_call w mob k = Ok (u64 (divisor_sum k (fun e => mu e * w ^ (k / e))) / k).
Proof.
  intros Hk Hm. unfold helper_call. rewrite (call_loop w mu) by (auto; lia). cbn [bind]. replace (k =? 0) with false by lia. rewrite (u64_small k) by lia. f_equal. f_equal. f_equal.
  unfold divisor_sum. fold (zsuml (map (fun e => mu e * w ^ (k / e)) (filter (fun e => k mod e =? 0) (zrng 1 (k + 1))))).
  rewrite <- (zsuml_perm _ _ (Permutation_map (fun e => mu e * w ^ (k / e)) (divisors_perm k ltac:(lia)))). rewrite map_map. unfold zrng. replace (k + 1 - 1) with k by lia. f_equal. apply map_ext_in. intros i Hi. apply filter_In in Hi as [Hi E]. apply zseq_In in Hi.
  assert (D : (i | k)) by (apply Z.mod_divide; lia). destruct D as [q Eq]. assert (Q : k / i = q) by (rewrite Eq; apply Z.div_mul; lia). rewrite Q. assert (k / q = i) as -> by (rewrite Eq, Z.mul_comm; apply Z.div_mul; nia). reflexivity.
Qed.
Lemma init_mobius e : 1 <= e <= 50 -> is_mobius e (bat init_buf e).
Proof.
  intros H. destruct (mobius_func_ok e ltac:(lia)) as (m & E & M).
  assert (C : forallb (fun e => match mobius_func e with Ok m => m =? bat init_buf e | _ => false end) (zseq 1 50) = true) by (vm_compute; reflexivity).
  rewrite forallb_forall in C. specialize (C e ltac:(apply zseq_In; lia)). rewrite E in C. replace (bat init_buf e) with m by lia. auto.
Qed.
Lemma call_witt w k v : 1 <= k <= 50 -> witt_number w k v -> 0 <= k * v < 2 ^ 64 -> helper_call w init_buf k = Ok v.
Proof.
  intros Hk (mu & M & E) Hv. rewrite (call_value w mu).
  - rewrite <- E, u64_small by auto. f_equal. rewrite Z.mul_comm. apply Z.div_mul. lia.
  - lia.
  - intros i Hi. rewrite bget_ok by (rewrite init_len; lia). f_equal. apply (is_mobius_fun i); [apply init_mobius; lia|apply M; lia].
Qed.
Lemma dim_witt_pos w n : 0 <= w -> 1 <= n < 46339 * 46339 -> n * w ^ n < I64_MAX -> exists v, compute_lie_degree_dim w n = Ok v /\ witt_number w n v /\ 0 <= v <= w ^ n.
Proof.
  intros Hw Hn Hb. destruct (dim_witt w n Hw Hn Hb) as (v & E & W). exists v. split; auto. split; auto.
  destruct (tab_ok w (Z.to_nat (n - 1)) Hw) as (_ & _ & F). replace (Z.of_nat (Z.to_nat (n - 1)) + 1) with n in F by lia.
  destruct (level_dim w n _ _ _ _ F ltac:(unfold HallDim.fits; auto) n ltac:(lia)) as [E2 B]. rewrite E in E2. injection E2 as ->. split; auto.
  assert (X := db_mono _ _ _ _ _ _ F n (n + 1) ltac:(lia) ltac:(lia) ltac:(lia)). lia.
Qed.
Lemma call_agrees w k : 0 <= w -> 1 <= k <= 50 -> k * w ^ k < I64_MAX -> helper_call w init_buf k = compute_lie_degree_dim w k.
Proof.
  intros Hw Hk Hb. destruct (dim_witt_pos w k Hw ltac:(lia) Hb) as (v & -> & W & P). apply call_witt; auto. unfold I64_MAX in Hb. nia.
Qed.
Lemma call_beyond w k : 51 <= k -> helper_call w init_buf k = UB.
Proof.
  intros Hk. unfold helper_call. replace (Z.to_nat k) with (S (Z.to_nat (k - 1))) by lia. cbn [zseq for_]. rewrite Z.mod_1_r, Z.div_1_r. cbn [Z.eqb]. rewrite bget_ub by (rewrite init_len; lia). reflexivity.
Qed.
Lemma call_low w k : (k = 0 -> helper_call w init_buf k = UB) /\ (- 2 ^ 31 <= k < 0 -> helper_call w init_buf k = Ok 0).
Proof. split; [intros ->; reflexivity|]. intros H. unfold helper_call. replace (Z.to_nat k) with 0%nat by lia. cbn [zseq for_ bind]. replace (k =? 0) with false by lia. rewrite Zdiv_0_l. reflexivity. Qed.

(** ** Contexts *)
Lemma set_ub {A} n v v' (k : buf Z -> outcome A) : 0 <= n <= 1 -> (let! b := bset (mkbuf n (fun _ => 0)) 0 v in let! b := bset b 1 v' in k b) = UB.
Proof. intros H. assert (n = 0 \/ n = 1) as [->| ->] by lia; reflexivity. Qed.
Lemma context_shallow fuel w depth : INT_MIN <= w < INT_MAX -> (depth = 0 \/ depth = -1) -> context_base fuel w depth = UB.
Proof.
  intros Hw Hd. unfold context_base. assert (Hx : i32 (1 + w) = Ok (1 + w)) by (apply i32_ok; unfold INT_MIN, INT_MAX in *; lia).
  destruct Hd as [-> | ->]; cbn; rewrite ?Hx; reflexivity.
Qed.
Lemma context_negative fuel w depth : INT_MIN <= depth < -1 -> context_base fuel w depth = Throw.
Proof. intros H. unfold context_base. rewrite i32_ok by (unfold INT_MIN, INT_MAX in *; lia). cbn [bind]. unfold new_array. replace (1 + depth <? 0) with true by lia. reflexivity. Qed.
Lemma mod_mul_l a b : u64 (u64 a * b) = u64 (a * b). Proof. unfold u64. rewrite Z.mul_mod_idemp_l by lia. auto. Qed.
Lemma mod_mul_r a b : u64 (a * u64 b) = u64 (a * b). Proof. unfold u64. rewrite Z.mul_mod_idemp_r by lia. auto. Qed.
Lemma mod_add_r a b : u64 (a + u64 b) = u64 (a + b). Proof. unfold u64. rewrite Z.add_mod_idemp_r by lia. auto. Qed.
Lemma wb_rec w n : words_below w (S n) = 1 + words_below w n * w.
Proof. induction n as [|n IH]; [reflexivity|]. cbn [words_below] in *. rewrite IH at 1. rewrite Nat2Z.inj_succ, Z.pow_succ_r by lia. nia. Qed.
Lemma tensor_loop w depth : forall n ts, blen ts = 1 + depth -> bat ts 0 = 1 -> Z.of_nat n <= depth ->
  exists ts', for_ (zseq 1 n) ts (fun i ts => let! p := bget ts (i - 1) in bset ts i (u64 (1 + u64 (p * u64 w)))) = Ok ts' /\ blen ts' = 1 + depth /\
    forall d, 0 <= d <= Z.of_nat n -> bat ts' d = u64 (words_below w (S (Z.to_nat d))).
Proof.
  induction n as [|n IH]; intros ts HL H0 Hn.
  - exists ts. split; auto. split; auto. intros d Hd. replace d with 0 by lia. rewrite H0. cbn. reflexivity.
  - destruct (IH ts HL H0 ltac:(lia)) as (t & E & L & V). replace (S n) with (n + 1)%nat by lia. rewrite zseq_app, for_app, E. cbn [bind zseq for_]. rewrite bget_ok by lia. cbn [bind]. rewrite bset_ok by lia. cbn [bind]. eexists. split; [reflexivity|]. cbn [blen bat]. split; auto.
    intros d Hd. destruct (d =? 1 + Z.of_nat n) eqn:Ed; [|apply V; lia]. rewrite V by lia. rewrite mod_mul_l, mod_mul_r, mod_add_r. rewrite (wb_rec w (Z.to_nat d)). f_equal. f_equal. f_equal. f_equal. lia.
Qed.
Fixpoint witt_product (v : Z -> Z) (n : nat) : Z := match n with O => 1 | S n => witt_product v n * v (Z.of_nat (S n)) end.
Lemma lie_loop w depth v : 1 <= depth <= 50 -> v 1 = w -> (forall i, 1 <= i <= depth -> witt_number w i (v i) /\ 0 <= i * v i < 2 ^ 64) -> forall n ls, blen ls = 1 + depth -> bat ls 0 = 0 -> bat ls 1 = u64 w -> 1 + Z.of_nat n <= depth ->
  exists ls', for_ (zseq 2 n) ls (fun i ls => let! h := helper_call w init_buf i in let! p := bget ls (i - 1) in bset ls i (u64 (h * p))) = Ok ls' /\ blen ls' = 1 + depth /\ bat ls' 0 = 0 /\
    forall d, 1 <= d <= 1 + Z.of_nat n -> bat ls' d = u64 (witt_product v (Z.to_nat d)).
Proof.
  intros Hd H1 HV. induction n as [|n IH]; intros ls HL H0 H2 Hn.
  - exists ls. split; auto. split; auto. split; auto. intros d Hd'. replace d with 1 by lia. rewrite H2. change (Z.to_nat 1) with 1%nat. cbn [witt_product]. change (Z.of_nat 1) with 1. rewrite Z.mul_1_l, H1. reflexivity.
  - destruct (IH ls HL H0 H2 ltac:(lia)) as (t & E & L & Z0 & V). replace (S n) with (n + 1)%nat by lia. rewrite zseq_app, for_app, E. cbn [bind zseq for_].
    destruct (HV (2 + Z.of_nat n) ltac:(lia)) as [W B]. rewrite (call_witt w _ (v (2 + Z.of_nat n))) by (auto; lia). cbn [bind]. rewrite bget_ok by lia. cbn [bind]. rewrite bset_ok by lia. cbn [bind]. eexists. split; [reflexivity|]. cbn [blen bat]. split; auto. split; [destruct (0 =? 2 + Z.of_nat n) eqn:E0; [lia|auto]|].
    intros d Hd'. destruct (d =? 2 + Z.of_nat n) eqn:Ed; [|apply V; lia]. rewrite V by lia. rewrite mod_mul_r. replace (Z.to_nat d) with (S (Z.to_nat (d - 1))) by lia. cbn [witt_product]. replace (Z.of_nat (S (Z.to_nat (d - 1)))) with (2 + Z.of_nat n) by lia. replace (2 + Z.of_nat n - 1) with (d - 1) by lia. f_equal. ring.
Qed.
Lemma witt_one w v : witt_number w 1 v -> v = w.
Proof. intros (mu & M & E). change (1 * v = mu 1 * w ^ 1 + 0) in E. assert (X := is_mobius_fun 1 (mu 1) 1 (M 1 ltac:(lia)) (init_mobius 1 ltac:(lia))). rewrite X, Z.pow_1_r in E. lia. Qed.
Lemma clamp_range s d : 0 <= z_depth s -> 0 <= clamp s d <= z_depth s /\ (0 <= d <= z_depth s -> clamp s d = d).
Proof. intros H. unfold clamp. destruct ((d <? 0) || (d >? z_depth s)) eqn:E; lia. Qed.
Lemma context_ok fuel w depth v : 0 <= w < INT_MAX -> 1 <= depth <= 50 -> (forall i, 1 <= i <= depth -> witt_number w i (v i) /\ 0 <= i * v i < 2 ^ 64) ->
  exists s, context_base fuel w depth = Ok s /\
    (forall d, 0 <= d <= depth -> tensor_size s d = Ok (u64 (words_below w (S (Z.to_nat d))))) /\
    lie_size s 0 = Ok 0 /\ (forall d, 1 <= d <= depth -> lie_size s d = Ok (u64 (witt_product v (Z.to_nat d)))) /\
    (forall d, d < 0 \/ depth < d -> tensor_size s d = tensor_size s depth /\ lie_size s d = lie_size s depth).
Proof.
  intros Hw Hd HV. assert (V1 : v 1 = w) by (apply witt_one, HV; lia). unfold context_base. rewrite i32_ok by (unfold INT_MIN, INT_MAX; lia). cbn [bind]. unfold new_array. replace (1 + depth <? 0) with false by lia. cbn [bind].
  rewrite bset_ok by (cbn [blen]; lia). cbn [bind]. rewrite i32_ok by (unfold INT_MIN, INT_MAX in *; lia). cbn [bind]. rewrite bset_ok by (cbn [blen]; lia). cbn [bind blen].
  match goal with |- context [for_ (zseq 1 (Z.to_nat depth)) ?t _] => destruct (tensor_loop w depth (Z.to_nat depth) t) as (ts & -> & TL & TV); [reflexivity|reflexivity|lia|] end. cbn [bind].
  rewrite construct_ok by lia. cbn [bind]. rewrite !bset_ok by (cbn [blen]; lia). cbn [bind blen]. rewrite !bset_ok by (cbn [blen]; lia). cbn [bind blen].
  match goal with |- context [for_ (zseq 2 (Z.to_nat (depth - 1))) ?t _] => destruct (lie_loop w depth v ltac:(lia) V1 HV (Z.to_nat (depth - 1)) t) as (ls & -> & LL & L0 & LV); [reflexivity|reflexivity|reflexivity|lia|] end. cbn [bind].
  eexists. split; [reflexivity|]. set (s := mkSizes depth ls ts).
  assert (C : forall d, 0 <= clamp s d <= depth /\ (0 <= d <= depth -> clamp s d = d)) by (intros d; apply (clamp_range s d); cbn; lia).
  split; [|split; [|split]].
  - intros d Hdd. unfold tensor_size. rewrite (proj2 (C d)) by lia. cbn. rewrite bget_ok by lia. rewrite TV by lia. reflexivity.
  - unfold lie_size. rewrite (proj2 (C 0)) by lia. cbn [z_lie s]. rewrite bget_ok by lia. rewrite L0. reflexivity.
  - intros d Hdd. unfold lie_size. rewrite (proj2 (C d)) by lia. cbn [z_lie s]. rewrite bget_ok by lia. rewrite LV by lia. reflexivity.
  - intros d Hdd. unfold tensor_size, lie_size. assert (E1 : clamp s d = depth) by (unfold clamp, s; cbn [z_depth]; destruct ((d <? 0) || (d >? depth)) eqn:Q; [reflexivity|lia]). assert (E2 : clamp s depth = depth) by (apply C; lia). rewrite E1, E2. auto.
Qed.
Lemma context_deep fuel w depth : 0 <= w < INT_MAX -> 51 < depth <= INT_MAX -> (32 <= fuel)%nat -> context_base fuel w depth = UB.
Proof.
  intros Hw Hd Hf. unfold context_base. destruct (Z.eq_dec depth INT_MAX) as [->|]; [reflexivity|]. rewrite i32_ok by (unfold INT_MIN, INT_MAX in *; lia). cbn [bind]. unfold new_array. replace (1 + depth <? 0) with false by lia. cbn [bind].
  rewrite bset_ok by (cbn [blen]; lia). cbn [bind]. rewrite i32_ok by (unfold INT_MIN, INT_MAX in *; lia). cbn [bind]. rewrite bset_ok by (cbn [blen]; lia). cbn [bind blen].
  match goal with |- context [for_ (zseq 1 (Z.to_nat depth)) ?t _] => destruct (tensor_loop w depth (Z.to_nat depth) t) as (ts & -> & TL & TV); [reflexivity|reflexivity|lia|] end. cbn [bind].
  rewrite construct_ub by (auto; lia). reflexivity.
Qed.
(** Degree two: the number of Lie elements. *)
Lemma witt_two w : witt_number w 2 (w * (w - 1) / 2).
Proof.
  exists (fun e => bat init_buf e). split; [intros; apply init_mobius; lia|]. change (2 * (w * (w - 1) / 2) = 1 * w ^ 2 + (-1 * w ^ 1 + 0)). rewrite Z.pow_1_r, Z.pow_2_r.
  assert (D : (2 | w * (w - 1))). { destruct (Z.Even_or_Odd w) as [[q ->]|[q ->]]; [exists (q * (2 * q - 1)); lia|exists ((2 * q + 1) * q); lia]. }
  destruct D as [q E]. rewrite E, Z.div_mul by lia. lia.
Qed.

Lemma call_any w k : 1 <= k <= 50 -> exists h, helper_call w init_buf k = Ok h.
Proof. intros Hk. eexists. apply (call_value w (bat init_buf)); [lia|]. intros i Hi. apply bget_ok. rewrite init_len. lia. Qed.
Lemma lie_loop_any w depth n : forall ls, Z.of_nat n <= 49 -> 1 + Z.of_nat n <= depth -> blen ls = 1 + depth ->
  exists ls', for_ (zseq 2 n) ls (fun i ls => let! h := helper_call w init_buf i in let! p := bget ls (i - 1) in bset ls i (u64 (h * p))) = Ok ls' /\ blen ls' = 1 + depth.
Proof.
  induction n as [|n IH]; intros ls H1 H2 HL; [exists ls; auto|]. destruct (IH ls ltac:(lia) ltac:(lia) HL) as (t & E & L). replace (S n) with (n + 1)%nat by lia. rewrite zseq_app, for_app, E. cbn [bind zseq for_].
  destruct (call_any w (2 + Z.of_nat n)) as [h ->]; [lia|]. cbn [bind]. rewrite bget_ok by lia. cbn [bind]. rewrite bset_ok by lia. cbn [bind]. eexists. split; [reflexivity|]. cbn. auto.
Qed.
Lemma context_51 fuel w : 0 <= w < INT_MAX -> context_base fuel w 51 = UB.
Proof.
  intros Hw. unfold context_base. rewrite i32_ok by (unfold INT_MIN, INT_MAX; lia). cbn [bind]. unfold new_array. replace (1 + 51 <? 0) with false by lia. cbn [bind].
  rewrite bset_ok by (cbn [blen]; lia). cbn [bind]. rewrite i32_ok by (unfold INT_MIN, INT_MAX in *; lia). cbn [bind]. rewrite bset_ok by (cbn [blen]; lia). cbn [bind blen].
  match goal with |- context [for_ (zseq 1 (Z.to_nat 51)) ?t _] => destruct (tensor_loop w 51 (Z.to_nat 51) t) as (ts & -> & TL & TV); [reflexivity|reflexivity|lia|] end. cbn [bind].
  rewrite construct_ok by lia. cbn [bind]. rewrite !bset_ok by (cbn [blen]; lia). cbn [bind blen]. rewrite !bset_ok by (cbn [blen]; lia). cbn [bind blen].
  change (Z.to_nat (51 - 1)) with (49 + 1)%nat. rewrite zseq_app, for_app.
  match goal with |- context [for_ (zseq 2 49) ?t _] => destruct (lie_loop_any w 51 49 t) as (ls & -> & LL); [lia|lia|reflexivity|] end. cbn [bind zseq for_].
  change (2 + Z.of_nat 49) with 51. rewrite (call_beyond w 51) by lia. reflexivity.
Qed.
(** The defaults at degree two are wrong for every width. *)
Lemma lie_two_wrong fuel w depth s : 1 <= w < 2 ^ 21 -> 2 <= depth <= 50 -> context_base fuel w depth = Ok s ->
  lie_size s 2 = Ok (w * (w * (w - 1) / 2)) /\ w * (w * (w - 1) / 2) <> w + w * (w - 1) / 2.
Proof.
  intros Hw Hd Hs. assert (D : exists q, w * (w - 1) = 2 * q /\ 0 <= q <= w * w).
  { destruct (Z.Even_or_Odd w) as [[q E]|[q E]]; [exists (q * (2 * q - 1))|exists ((2 * q + 1) * q)]; nia. }
  destruct D as (q & Eq & Bq). assert (Hq : w * (w - 1) / 2 = q) by (rewrite Eq, Z.mul_comm; apply Z.div_mul; lia). rewrite Hq. split.
  2: { intros X. assert (Y : w * ((w - 1) * (w - 1) - 2) = 0) by (transitivity ((w - 1) * (w * (w - 1)) - 2 * w); [ring|]; rewrite Eq; lia). apply Z.mul_eq_0 in Y as [Y|Y]; [lia|]. assert (w <= 2 \/ 3 <= w) as [A|A] by lia; [assert (w = 1 \/ w = 2) as [-> | ->] by lia; lia|nia]. }
  unfold context_base in Hs. rewrite i32_ok in Hs by (unfold INT_MIN, INT_MAX; lia). cbn [bind] in Hs. unfold new_array in Hs. replace (1 + depth <? 0) with false in Hs by lia. cbn [bind] in Hs.
  rewrite bset_ok in Hs by (cbn [blen]; lia). cbn [bind] in Hs. rewrite i32_ok in Hs by (unfold INT_MIN, INT_MAX in *; lia). cbn [bind] in Hs. rewrite bset_ok in Hs by (cbn [blen]; lia). cbn [bind blen] in Hs.
  match goal with H : context [for_ (zseq 1 (Z.to_nat depth)) ?t _] |- _ => destruct (tensor_loop w depth (Z.to_nat depth) t) as (ts & E & TL & TV); [reflexivity|reflexivity|lia|]; rewrite E in Hs; clear E end. cbn [bind] in Hs.
  rewrite construct_ok in Hs by lia. cbn [bind] in Hs. rewrite !bset_ok in Hs by (cbn [blen]; lia). cbn [bind blen] in Hs. rewrite !bset_ok in Hs by (cbn [blen]; lia). cbn [bind blen] in Hs.
  replace (Z.to_nat (depth - 1)) with (S (Z.to_nat (depth - 2))) in Hs by lia. cbn [zseq for_] in Hs. assert (W2 := witt_two w). rewrite Hq in W2.
  assert (C2 : helper_call w init_buf 2 = Ok q) by (apply call_witt; auto; [lia|]; nia). rewrite C2 in Hs. clear C2. cbn [bind] in Hs. change (2 - 1) with 1 in Hs. rewrite bget_ok in Hs by (cbn [blen]; lia). cbn [bind] in Hs. rewrite bset_ok in Hs by (cbn [blen]; lia). cbn [bind blen] in Hs.
  match goal with H : context [for_ (zseq (2 + 1) ?m) ?t ?f] |- _ => destruct (for_ (zseq (2 + 1) m) t f) as [ls| | |] eqn:EL; try discriminate Hs; assert (X : blen ls = 1 + depth /\ bat ls 2 = w * q) end.
  - match type of EL with for_ ?l ?t ?f = _ => assert (Y : exists ls', for_ l t f = Ok ls' /\ blen ls' = 1 + depth /\ bat ls' 2 = w * q) end.
    { apply (for_inv (fun _ (b : buf Z) => blen b = 1 + depth /\ bat b 2 = w * q)).
      - cbn [blen bat]. split; auto. cbn [Z.eqb]. change (1 =? 1) with true. cbn. rewrite u64_small; [|rewrite (u64_small w) by lia; nia]. rewrite u64_small by lia. lia.
      - intros done i rest b Hi [B1 B2]. assert (Ii : In i (zseq (2 + 1) (Z.to_nat (depth - 2)))) by (rewrite Hi; apply in_app_iff; cbn; auto). apply zseq_In in Ii. destruct (call_any w i) as [h ->]; [lia|]. cbn [bind]. rewrite bget_ok by lia. cbn [bind]. rewrite bset_ok by lia. eexists. split; [reflexivity|]. cbn [blen bat]. split; auto. replace (2 =? i) with false by lia. auto. }
    destruct Y as (ls' & E & Y). rewrite E in EL. injection EL as <-. auto.
  - cbn [bind] in Hs. injection Hs as <-. unfold lie_size, clamp. cbn [z_depth z_lie]. replace ((2 <? 0) || (2 >? depth)) with false by lia. rewrite bget_ok by lia. destruct X as [_ ->]. reflexivity.
Qed.
Lemma pow_bound w i n : 0 <= w -> 1 <= i <= n -> i * w ^ i <= n * w ^ n.
Proof.
  intros Hw H. assert (0 <= w ^ i) by (apply Z.pow_nonneg; auto). destruct (Z.eq_dec w 0) as [->|]; [rewrite !Z.pow_0_l by lia; lia|]. assert (w ^ i <= w ^ n) by (apply Z.pow_le_mono_r; lia). nia.
Qed.
Lemma context_sizes fuel w depth : 0 <= w < INT_MAX -> 1 <= depth <= 50 -> depth * w ^ depth < I64_MAX ->
  exists s v, context_base fuel w depth = Ok s /\ (forall i, 1 <= i <= depth -> witt_number w i (v i)) /\
    (forall d, 0 <= d <= depth -> tensor_size s d = Ok (u64 (words_below w (S (Z.to_nat d))))) /\
    lie_size s 0 = Ok 0 /\ (forall d, 1 <= d <= depth -> lie_size s d = Ok (u64 (witt_product v (Z.to_nat d)))) /\
    (forall d, d < 0 \/ depth < d -> tensor_size s d = tensor_size s depth /\ lie_size s d = lie_size s depth).
Proof.
  intros Hw Hd Hb. set (v := fun i => match compute_lie_degree_dim w i with Ok v => v | _ => 0 end).
  assert (V : forall i, 1 <= i <= depth -> witt_number w i (v i) /\ 0 <= i * v i < 2 ^ 64).
  { intros i Hi. assert (B := pow_bound w i depth ltac:(lia) Hi). destruct (dim_witt_pos w i) as (x & E & W & P); try lia. unfold v. rewrite E. split; auto. unfold I64_MAX in Hb. nia. }
  destruct (context_ok fuel w depth v Hw Hd V) as (s & E & H). exists s, v. split; auto. split; auto. intros i Hi. apply V; auto.
Qed.
Lemma witt_first w : witt_number w 1 w.
Proof. exists (bat init_buf). split; [intros; apply init_mobius; lia|]. change (1 * w = 1 * w ^ 1 + 0). rewrite Z.pow_1_r. lia. Qed.
Lemma context_depths fuel w depth : (32 <= fuel)%nat -> 0 <= w < INT_MAX -> INT_MIN <= depth <= INT_MAX -> ~ 1 <= depth <= 50 ->
  context_base fuel w depth = if depth <? -1 then Throw else UB.
Proof.
  intros Hf Hw Hd Hn. destruct (depth <? -1) eqn:E; [apply context_negative; lia|]. destruct (Z_le_dec depth 0); [apply context_shallow; [unfold INT_MIN; lia|lia]|].
  destruct (Z.eq_dec depth 51) as [->|]; [apply context_51; auto|apply context_deep; auto; lia].
Qed.
