From Coq Require Import ZArith List Bool Lia ZifyBool Arith.
Import ListNotations.
From Verif Require Import Outcome Mem Words HssModel HssProofs KeyModel FnvProofs2 L2tProofs.
Open Scope Z_scope.

(** ** Keys *)
Lemma u64_range a : 0 <= u64 a < 2 ^ 64. Proof. unfold u64. apply Z.mod_pos_bound. lia. Qed.
Lemma mk_key_val d i : 0 <= d < 2 ^ 8 -> 0 <= i < 2 ^ 56 -> mk_key d i = d * 2 ^ 56 + i.
Proof. intros. unfold mk_key. rewrite (u64_small d) by lia. rewrite (u64_small (d * 2 ^ 56)), (u64_small i) by lia. apply u64_small. lia. Qed.
Lemma k_index_val k : k_index k = k mod 2 ^ 56.
Proof. unfold k_index. change (2 ^ 56 - 1) with (Z.ones 56). apply Z.land_ones. lia. Qed.
Lemma k_degree_val k : 0 <= k < 2 ^ 64 -> k_degree k = k / 2 ^ 56.
Proof.
  intros H. unfold k_degree.
  replace (Z.land k (2 ^ 64 - 2 ^ 56)) with (k - k mod 2 ^ 56).
  - rewrite Z.shiftr_div_pow2 by lia. rewrite Z.mod_eq by lia. replace (k - (k - 2 ^ 56 * (k / 2 ^ 56))) with ((k / 2 ^ 56) * 2 ^ 56) by lia. apply Z.div_mul. lia.
  - assert (E : k = Z.land k (2 ^ 64 - 2 ^ 56) + Z.land k (Z.ones 56)).
    { change (2 ^ 64 - 2 ^ 56) with (Z.ldiff (Z.ones 64) (Z.ones 56)).

      assert (Q : Z.land (Z.land k (Z.ldiff (Z.ones 64) (Z.ones 56))) (Z.land k (Z.ones 56)) = 0).
      { apply Z.bits_inj'. intros n Hn. rewrite !Z.land_spec, Z.ldiff_spec, Z.bits_0. destruct (Z.testbit k n), (Z.testbit (Z.ones 64) n), (Z.testbit (Z.ones 56) n); reflexivity. }
      rewrite (Z.add_nocarry_lxor _ _ Q), (Z.lxor_lor _ _ Q).
      apply Z.bits_inj'. intros n Hn. rewrite Z.lor_spec, !Z.land_spec, Z.ldiff_spec.
      destruct (Z.lt_ge_cases n 64).
      - rewrite (Z.ones_spec_low 64) by lia. destruct (Z.testbit k n), (Z.testbit (Z.ones 56) n); reflexivity.
      - replace (Z.testbit k n) with false; [reflexivity|]. symmetry. destruct (Z.eq_dec k 0) as [->|]; [apply Z.bits_0|].
        apply Z.bits_above_log2; [lia|]. apply Z.log2_lt_pow2; [lia|]. apply Z.lt_le_trans with (2 ^ 64); [lia|]. apply Z.pow_le_mono_r; lia. }
    rewrite Z.land_ones in E by lia. lia.
Qed.
Lemma key_round d i : 0 <= d < 2 ^ 8 -> 0 <= i < 2 ^ 56 -> k_degree (mk_key d i) = d /\ k_index (mk_key d i) = i.
Proof.
  intros Hd Hi. rewrite mk_key_val by auto. split.
  - rewrite k_degree_val by lia. rewrite Z.div_add_l by lia. rewrite Z.div_small; lia.
  - rewrite k_index_val. rewrite Z.add_comm, Z.mod_add by lia. apply Z.mod_small; lia.
Qed.
Lemma key_deg d i : 0 <= d < 2 ^ 8 -> 0 <= i < 2 ^ 56 -> k_degree (mk_key d i) = d. Proof. intros. apply key_round; auto. Qed.
Lemma key_idx d i : 0 <= d < 2 ^ 8 -> 0 <= i < 2 ^ 56 -> k_index (mk_key d i) = i. Proof. intros. apply (key_round d); auto. Qed.
Lemma key_all k : 0 <= k < 2 ^ 64 -> 0 <= k_degree k < 2 ^ 8 /\ 0 <= k_index k < 2 ^ 56 /\ mk_key (k_degree k) (k_index k) = k.
Proof.
  intros H. rewrite k_degree_val, k_index_val by auto.
  assert (0 <= k / 2 ^ 56 < 2 ^ 8) by (split; [apply Z.div_pos; lia|apply Z.div_lt_upper_bound; lia]).
  assert (0 <= k mod 2 ^ 56 < 2 ^ 56) by (apply Z.mod_pos_bound; lia).
  split; [auto|split; [auto|]]. rewrite mk_key_val by auto. assert (Q := Z.div_mod k (2 ^ 56)). lia.
Qed.
Lemma key_lt d i d' i' : 0 <= d < 2 ^ 8 -> 0 <= i < 2 ^ 56 -> 0 <= d' < 2 ^ 8 -> 0 <= i' < 2 ^ 56 ->
  (k_ltb (mk_key d i) (mk_key d' i') = true <-> d < d' \/ d = d' /\ i < i') /\ (k_eqb (mk_key d i) (mk_key d' i') = true <-> d = d' /\ i = i')
  /\ (k_leb (mk_key d i) (mk_key d' i') = true <-> d < d' \/ d = d' /\ i <= i').
Proof. intros. unfold k_ltb, k_eqb, k_leb. rewrite !mk_key_val by auto. lia. Qed.

(** ** The tensor basis *)
Definition wkey (w : Z) (u : list Z) : Z := mk_key (Z.of_nat (length u)) (idx w u).
Definition tb_ok (w N : Z) (B : tbasis) : Prop :=
  tb_width B = w /\ tb_depth B = N /\ blen (tb_powers B) = N + 1 /\ blen (tb_sizes B) = N + 2 /\
  (forall d, (Z.of_nat d <= N) -> bat (tb_powers B) (Z.of_nat d) = u64 (w ^ Z.of_nat d)) /\
  (forall d, (Z.of_nat d <= N + 1) -> bat (tb_sizes B) (Z.of_nat d) = u64 (words_below w (S d))).

Lemma push_at b v i : 0 <= blen b -> bat (push b v) i = if i =? blen b then v else bat b i. Proof. reflexivity. Qed.
Lemma back_push b v : 0 <= blen b -> back (push b v) = Ok v.
Proof. intros. unfold back. rewrite bget_ok; cbn [push blen bat]; [|lia]. replace (blen b + 1 - 1) with (blen b) by lia. rewrite Z.eqb_refl. reflexivity. Qed.
Lemma size_step w n : u64 (1 + u64 (u64 w * u64 (words_below w n))) = u64 (words_below w (S n)).
Proof. rewrite u64_mul, mod_add_r, wb_rec. f_equal. lia. Qed.
Lemma tensor_basis_ok w N : 0 <= N -> exists B, tensor_basis w N = Ok B /\ tb_ok w N B.
Proof.
  intros HN. unfold tensor_basis.
  pose (Q := fun (n : nat) (s : buf Z * buf Z) => let '(p, z) := s in
    blen p = Z.of_nat n + 1 /\ blen z = Z.of_nat n + 1 /\ (forall d, (d <= n)%nat -> bat p (Z.of_nat d) = u64 (w ^ Z.of_nat d)) /\ (forall d, (d <= n)%nat -> bat z (Z.of_nat d) = u64 (words_below w (S d)))).
  assert (L : forall n, exists s, for_ (zseq 1 n) (mkbuf 1 (fun _ => 1), mkbuf 1 (fun _ => 1)) (fun _ s =>
    let '(powers, sizes) := s in let! p := back powers in let! s := back sizes in
    Ok (push powers (u64 (p * u64 w)), push sizes (u64 (1 + u64 (u64 w * s))))) = Ok s /\ Q n s).
  { induction n as [|n IH].
    - eexists. split; [reflexivity|]. cbn. split; [lia|split; [lia|split]]; intros d Hd; replace d with O by lia; reflexivity.
    - destruct IH as ((p, z) & E & Lp & Lz & Vp & Vz).
      replace (S n) with (n + 1)%nat by lia. rewrite zseq_app, for_app, E. cbn [zseq for_ bind].
      unfold back. rewrite !bget_ok by lia. cbn [bind]. rewrite Lp, Lz. replace (Z.of_nat n + 1 - 1) with (Z.of_nat n) by lia.
      rewrite Vp, Vz by lia. eexists. split; [reflexivity|]. unfold Q. cbn [push blen]. rewrite Lp, Lz.
      split; [lia|split; [lia|split]]; intros d Hd; cbn [push bat].
      + rewrite Lp. destruct (Z.eqb_spec (Z.of_nat d) (Z.of_nat n + 1)).
        * replace d with (S n) by lia. rewrite u64_mul. f_equal. rewrite Nat2Z.inj_succ, Z.pow_succ_r by lia. lia.
        * apply Vp. lia.
      + rewrite Lz. destruct (Z.eqb_spec (Z.of_nat d) (Z.of_nat n + 1)).
        * replace d with (S n) by lia. apply size_step.
        * apply Vz. lia. }
  destruct (L (Z.to_nat N)) as ((p, z) & E & Lp & Lz & Vp & Vz). rewrite E. cbn [bind].
  unfold back. rewrite bget_ok by lia. cbn [bind]. rewrite Lz. replace (Z.of_nat (Z.to_nat N) + 1 - 1) with (Z.of_nat (Z.to_nat N)) by lia. rewrite Vz by lia.
  eexists. split; [reflexivity|]. unfold tb_ok. cbn [tb_width tb_depth tb_powers tb_sizes push blen bat].
  split; [auto|split; [auto|split; [lia|split; [lia|split]]]].
  - intros d Hd. apply Vp. lia.
  - intros d Hd. rewrite Lz. destruct (Z.eqb_spec (Z.of_nat d) (Z.of_nat (Z.to_nat N) + 1)).
    + replace d with (S (Z.to_nat N)) by lia. apply size_step.
    + apply Vz. lia.
Qed.

(** Basis small enough for the packing *)
Definition packs (w N : Z) : Prop := 1 <= w < 2 ^ 31 /\ 0 <= N < 255 /\ w ^ N <= 2 ^ 56.
Lemma packs_pow w N d : packs w N -> 0 <= d <= N -> 1 <= w ^ d <= 2 ^ 56.
Proof. intros (Hw & HN & HP) Hd. split; [assert (0 < w ^ d) by (apply Z.pow_pos_nonneg; lia); lia|]. apply Z.le_trans with (w ^ N); [apply Z.pow_le_mono_r; lia|auto]. Qed.
Lemma packs_w w N : packs w N -> 1 <= N -> w <= 2 ^ 56.
Proof. intros P HN. destruct (packs_pow w N 1 P) as [_ Q]; [lia|]. rewrite Z.pow_1_r in Q. auto. Qed.
Lemma power_at w N B d : packs w N -> tb_ok w N B -> 0 <= d <= N -> bget (tb_powers B) d = Ok (w ^ d).
Proof.
  intros P (_ & _ & Lp & _ & Vp & _) Hd. rewrite bget_ok by lia. rewrite <- (Z2Nat.id d) by lia. rewrite Vp by lia. f_equal. apply u64_small.
  rewrite Z2Nat.id by lia. assert (Q := packs_pow _ _ d P). lia.
Qed.
Lemma idx_packs w N u : packs w N -> letters_ok w u -> Z.of_nat (length u) <= N -> 0 <= idx w u < 2 ^ 56 /\ 0 <= Z.of_nat (length u) < 2 ^ 8.
Proof. intros P L Hl. assert (Hw : 0 < w) by (destruct P; lia). assert (B := idx_bound w Hw u L). assert (Q := packs_pow _ _ (Z.of_nat (length u)) P). destruct P as (_ & HN & _). lia. Qed.
Lemma wkey_deg w N u : packs w N -> letters_ok w u -> Z.of_nat (length u) <= N -> k_degree (wkey w u) = Z.of_nat (length u).
Proof. intros P L Hl. destruct (idx_packs _ _ _ P L Hl). apply key_deg; auto. Qed.
Lemma wkey_idx w N u : packs w N -> letters_ok w u -> Z.of_nat (length u) <= N -> k_index (wkey w u) = idx w u.
Proof. intros P L Hl. destruct (idx_packs _ _ _ P L Hl). apply key_idx; auto. Qed.
Lemma wkey_inj w N u v : packs w N -> letters_ok w u -> letters_ok w v -> Z.of_nat (length u) <= N -> Z.of_nat (length v) <= N -> wkey w u = wkey w v -> u = v.
Proof.
  intros P Lu Lv Hu Hv E. assert (Hw : 0 < w) by (destruct P; lia). apply (idx_inj w Hw); auto.
  - apply (f_equal k_degree) in E. rewrite !(wkey_deg w N) in E by auto. lia.
  - apply (f_equal k_index) in E. rewrite !(wkey_idx w N) in E by auto. auto.
Qed.
Lemma wkey_lt w N u v : packs w N -> letters_ok w u -> letters_ok w v -> Z.of_nat (length u) <= N -> Z.of_nat (length v) <= N ->
  (k_ltb (wkey w u) (wkey w v) = true <-> pos w u < pos w v).
Proof.
  intros P Lu Lv Hu Hv. assert (Hw : 0 < w) by (destruct P; lia). destruct (idx_packs _ _ _ P Lu Hu), (idx_packs _ _ _ P Lv Hv).
  unfold wkey. destruct (key_lt (Z.of_nat (length u)) (idx w u) (Z.of_nat (length v)) (idx w v)) as [E _]; auto. rewrite E. unfold pos.
  assert (Bu := idx_bound w Hw u Lu). assert (Bv := idx_bound w Hw v Lv).
  destruct (Nat.lt_trichotomy (length u) (length v)) as [C|[C|C]].
  - apply (words_below_lt w Hw) in C as C'. lia.
  - rewrite C. lia.
  - apply (words_below_lt w Hw) in C as C'. lia.
Qed.

Lemma cons_div w x u : 0 < w -> letters_ok w u -> (idx w (x :: u)) / w ^ Z.of_nat (length u) = x /\ (idx w (x :: u)) mod w ^ Z.of_nat (length u) = idx w u.
Proof.
  intros Hw L. assert (B := idx_bound w Hw u L). cbn [idx]. split.
  - rewrite Z.div_add_l by lia. rewrite Z.div_small; lia.
  - rewrite Z.add_comm, Z.mod_add by lia. apply Z.mod_small; auto.
Qed.
Lemma zlen_cons {A} (x : A) u : Z.of_nat (length (x :: u)) = Z.of_nat (length u) + 1. Proof. cbn [length]. lia. Qed.
Lemma lparent_ok w N B x u : packs w N -> tb_ok w N B -> letters_ok w (x :: u) -> Z.of_nat (length (x :: u)) <= N ->
  lparent B (wkey w (x :: u)) = Ok (wkey w [x]) /\ rparent B (wkey w (x :: u)) = Ok (wkey w u).
Proof.
  intros P T L Hl. assert (Hw : 0 < w) by (destruct P; lia). inversion L as [|? ? Hx Lu]; subst. destruct (cons_div w x u Hw Lu) as [D M].
  unfold lparent, rparent. rewrite (wkey_deg w N), (wkey_idx w N) by auto. rewrite zlen_cons in *.
  destruct (Z.eqb_spec (Z.of_nat (length u) + 1) 0); [lia|]. replace (Z.of_nat (length u) + 1 - 1) with (Z.of_nat (length u)) by lia.
  rewrite (power_at w N) by (auto; lia). cbn [bind]. assert (0 < w ^ Z.of_nat (length u)) by (apply Z.pow_pos_nonneg; lia).
  destruct (Z.eqb_spec (w ^ Z.of_nat (length u)) 0); [lia|]. rewrite D, M. split; [|reflexivity].
  unfold wkey. cbn [length idx]. change (Z.of_nat 0) with 0. rewrite Z.pow_0_r. do 2 f_equal. lia.
Qed.
Lemma parents_ok w N B x u : packs w N -> tb_ok w N B -> letters_ok w (x :: u) -> Z.of_nat (length (x :: u)) <= N ->
  exists k, parents B (wkey w (x :: u)) = Ok (wkey w [x], k) /\ (k = wkey w u <-> x = 0 \/ w = 1 \/ length u = 1%nat).
Proof.
  intros P T L Hl. assert (Hw : 0 < w) by (destruct P; lia). inversion L as [|? ? Hx Lu]; subst. destruct (cons_div w x u Hw Lu) as [D M].
  assert (Bu := idx_bound w Hw u Lu). assert (HW := packs_w w N P). rewrite zlen_cons in Hl.
  assert (PW : w * w ^ Z.of_nat (length u) <= 2 ^ 56).
  { rewrite <- Z.pow_succ_r by lia. apply (packs_pow w N); [auto|lia]. }
  unfold parents. rewrite (wkey_deg w N), (wkey_idx w N) by (auto; rewrite ?zlen_cons; lia). rewrite zlen_cons.
  destruct (Z.eqb_spec (Z.of_nat (length u) + 1) 0); [lia|]. replace (Z.of_nat (length u) + 1 - 1) with (Z.of_nat (length u)) by lia.
  rewrite (power_at w N) by (auto; lia). cbn [bind]. assert (0 < w ^ Z.of_nat (length u)) by (apply Z.pow_pos_nonneg; lia).
  destruct (Z.eqb_spec (w ^ Z.of_nat (length u)) 0); [lia|]. rewrite D.
  assert (TW : tb_width B = w) by (apply T). rewrite TW.
  eexists. split.
  - f_equal. f_equal. unfold wkey. cbn [length idx]. change (Z.of_nat 0) with 0. rewrite Z.pow_0_r. f_equal. lia.
  - unfold wkey, mk_key. rewrite (u64_small (Z.of_nat (length u))) by (destruct P as (_ & ? & _); lia).
    rewrite (u64_small (Z.of_nat (length u) * 2 ^ 56)) by (destruct P as (_ & ? & _); lia).
    rewrite mod_mul_r. cbn [idx].
    set (p := w ^ Z.of_nat (length u)) in *. set (I := idx w u) in *.
    assert (X0 : 0 <= x * w < w * w) by nia.
    assert (E : u64 (u64 (x * p + I - u64 (x * w))) = u64 (x * p + I - x * w)).
    { rewrite u64_idem. unfold u64. rewrite Zminus_mod_idemp_r. reflexivity. }
    rewrite E. rewrite mod_add_r.
    assert (Hiff : (u64 (Z.of_nat (length u) * 2 ^ 56 + (x * p + I - x * w)) = u64 (Z.of_nat (length u) * 2 ^ 56 + u64 I)) <-> x * p = x * w).
    { rewrite mod_add_r. split; [|intros ->; f_equal; lia]. intros Q. unfold u64 in Q.
      assert (Q2 : (x * (p - w)) mod 2 ^ 64 = 0).
      { replace (x * (p - w)) with ((Z.of_nat (length u) * 2 ^ 56 + (x * p + I - x * w)) - (Z.of_nat (length u) * 2 ^ 56 + I)) by ring.
        rewrite Zminus_mod, Q, Z.sub_diag. reflexivity. }
      apply Z.mod_divide in Q2; [|lia]. destruct Q2 as (c & Q2).
      assert (- 2 ^ 64 < x * (p - w) < 2 ^ 64).
      { destruct (length u) as [|[|m]] eqn:El.
        - subst p. change (Z.of_nat 0) with 0. rewrite Z.pow_0_r. assert (w < 2 ^ 31) by (destruct P; lia). assert (0 <= x * (w - 1) <= (2 ^ 31) * (2 ^ 31)) by nia. lia.
        - subst p. change (Z.of_nat 1) with 1. rewrite Z.pow_1_r. nia.
        - assert (w <= p). { subst p. rewrite <- (Z.pow_1_r w) at 1. apply Z.pow_le_mono_r; lia. } nia. }
      assert (c = 0) by nia. nia. }
    rewrite Hiff. split.
    + intros Q. destruct (Z.eq_dec x 0); [auto|]. right. assert (p = w) by nia. destruct (Z.eq_dec w 1); [auto|]. right.
      subst p. destruct (length u) as [|[|m]] eqn:El; [change (Z.of_nat 0) with 0 in *; rewrite Z.pow_0_r in *; lia|auto|].
      assert (w ^ 2 <= w ^ Z.of_nat (S (S m))) by (apply Z.pow_le_mono_r; lia). rewrite Z.pow_2_r in *. nia.
    + intros [->|[->|El]]; [lia| |].
      * subst p. rewrite Z.pow_1_l by lia. lia.
      * subst p. rewrite El. change (Z.of_nat 1) with 1. rewrite Z.pow_1_r. lia.
Qed.
