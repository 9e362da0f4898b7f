(** The dimension formula computed by the code is the size of the Hall table. *)
From Coq Require Import ZifyBool.
From Verif Require Import Outcome Alg Words Mem Mobius HallModel HallTab HallCount.
Local Open Scope Z_scope.

(** ** Sizes of the levels of a Hall table *)
Section Size.
  Variables (w N M : Z) (db L R : Z -> Z).
  Hypothesis H : hall_data w N M db L R.

  (** Degree of a key: number of levels starting at or below it. *)
  Definition dgof (k : Z) : nat := length (filter (fun d => db d <=? k) (zseq 1 (Z.to_nat N))).

  Lemma filter_prefix (p : Z -> bool) a n m : (m <= n)%nat ->
    (forall d, a <= d < a + Z.of_nat m -> p d = true) -> (forall d, a + Z.of_nat m <= d < a + Z.of_nat n -> p d = false) ->
    length (filter p (zseq a n)) = m.
  Proof.
    intros Hmn H1 H2. replace n with (m + (n - m))%nat by lia. rewrite zseq_app, filter_app, app_length.
    assert (E1 : forall l, (forall d, In d l -> p d = true) -> length (filter p l) = length l).
    { induction l as [|x l IH]; intros Hx; [reflexivity|]. cbn [filter]. rewrite Hx by (left; auto). cbn [length]. rewrite IH; auto. intros; apply Hx; right; auto. }
    assert (E2 : forall l, (forall d, In d l -> p d = false) -> length (filter p l) = O).
    { induction l as [|x l IH]; intros Hx; [reflexivity|]. cbn [filter]. rewrite Hx by (left; auto). apply IH. intros; apply Hx; right; auto. }
    rewrite E1, E2, zseq_length; [lia| |].
    - intros d Hd. apply zseq_In in Hd. apply H2. lia.
    - intros d Hd. apply zseq_In in Hd. apply H1. lia.
  Qed.
  Lemma dgof_level d k : 1 <= d <= N -> db d <= k < db (d + 1) -> dgof k = Z.to_nat d.
  Proof.
    intros Hd Hk. unfold dgof. apply filter_prefix; [lia| |].
    - intros e He. assert (db e <= db d) by (apply (db_mono w N M db L R H); lia). lia.
    - intros e He. assert (db (d + 1) <= db e) by (apply (db_mono w N M db L R H); lia). lia.
  Qed.

  Lemma Mpos : 0 <= M.
  Proof.
    assert (HN := hd_N _ _ _ _ _ _ H). assert (E := db_mono w N M db L R H 1 (N + 1) ltac:(lia) ltac:(lia) ltac:(lia)).
    rewrite (hd_1 _ _ _ _ _ _ H), (hd_top _ _ _ _ _ _ H) in E. lia.
  Qed.

  (** Number of keys in a level. *)
  Lemma ndeg_level d : 1 <= d <= N -> ndeg M dgof (Z.to_nat d) = db (d + 1) - db d.
  Proof.
    intros Hd. unfold ndeg, count.
    assert (E : filter (fun k => Nat.eqb (dgof k) (Z.to_nat d)) (keys M) = zseq (db d) (Z.to_nat (db (d + 1) - db d))).
    { assert (Hm1 := db_mono w N M db L R H 1 d ltac:(lia) ltac:(lia) ltac:(lia)).
      assert (Hm2 := db_mono w N M db L R H d (d + 1) ltac:(lia) ltac:(lia) ltac:(lia)).
      assert (Hm3 := db_mono w N M db L R H (d + 1) (N + 1) ltac:(lia) ltac:(lia) ltac:(lia)).
      rewrite (hd_1 _ _ _ _ _ _ H) in Hm1. rewrite (hd_top _ _ _ _ _ _ H) in Hm3.
      unfold keys. replace (Z.to_nat M) with (Z.to_nat (db d - 1) + (Z.to_nat (db (d + 1) - db d) + Z.to_nat (M + 1 - db (d + 1))))%nat by lia.
      rewrite !zseq_app, !filter_app.
      assert (E0 : forall l, (forall k, In k l -> exists d', d' <> d /\ 1 <= d' <= N /\ db d' <= k < db (d' + 1)) ->
                 filter (fun k => Nat.eqb (dgof k) (Z.to_nat d)) l = []).
      { induction l as [|x l IH]; intros Hx; [reflexivity|]. cbn [filter]. destruct (Hx x (or_introl eq_refl)) as (d' & H1 & H2 & H3).
        rewrite (dgof_level d' x H2 H3). destruct (Nat.eqb_spec (Z.to_nat d') (Z.to_nat d)); [lia|]. apply IH. intros; apply Hx; right; auto. }
      assert (E1 : forall l, (forall k, In k l -> db d <= k < db (d + 1)) -> filter (fun k => Nat.eqb (dgof k) (Z.to_nat d)) l = l).
      { induction l as [|x l IH]; intros Hx; [reflexivity|]. cbn [filter]. rewrite (dgof_level d x Hd) by (apply Hx; left; auto).
        rewrite Nat.eqb_refl. f_equal. apply IH. intros; apply Hx; right; auto. }
      assert (Hex : forall k, 1 <= k <= M -> ~ (db d <= k < db (d + 1)) -> exists d', d' <> d /\ 1 <= d' <= N /\ db d' <= k < db (d' + 1)).
      { intros k Hk Hn. destruct (level_ex w N M db L R H k Hk) as (d' & Hd' & Hk'). exists d'. split; [intros ->; auto|auto]. }
      rewrite E0, E1, E0; [cbn [app]; rewrite app_nil_r| | |].
      - replace (1 + Z.of_nat (Z.to_nat (db d - 1))) with (db d) by lia. reflexivity.
      - intros k Hk. apply zseq_In in Hk. apply Hex; lia.
      - intros k Hk. apply zseq_In in Hk. lia.
      - intros k Hk. apply zseq_In in Hk. apply Hex; lia. }
    rewrite E, zseq_length.
    assert (Hm2 := db_mono w N M db L R H d (d + 1) ltac:(lia) ltac:(lia) ltac:(lia)). lia.
  Qed.

  Theorem level_witt mu d : (forall e, (1 <= e <= Z.to_nat N)%nat -> is_mobius (Z.of_nat e) (mu e)) -> 1 <= d <= N ->
    dsum (Z.to_nat d) (fun e => mu e * w ^ Z.of_nat (Z.to_nat d / e)) = d * (db (d + 1) - db d).
  Proof.
    intros Hmu Hd. assert (HM := Mpos). assert (HN := hd_N _ _ _ _ _ _ H). assert (Hw := hd_w _ _ _ _ _ _ H).
    assert (X := hall_witt (Z.to_nat w) (Z.to_nat N) M dgof L R).
    assert (Hlev : forall k, 1 <= k <= M -> exists e, 1 <= e <= N /\ db e <= k < db (e + 1) /\ dgof k = Z.to_nat e).
    { intros k Hk. destruct (level_ex w N M db L R H k Hk) as (e & He & Hk'). exists e. split; auto. split; auto. apply dgof_level; auto. }
    rewrite <- (ndeg_level d Hd). transitivity (Z.of_nat (Z.to_nat d) * ndeg M dgof (Z.to_nat d)); [|rewrite Z2Nat.id by lia; reflexivity].
    rewrite <- (X HM) with (mu := mu); auto; try lia; clear X.
    - rewrite Z2Nat.id by lia. reflexivity.
    - intros k Hk. destruct (Hlev k Hk) as (e & He & _ & ->). lia.
    - intros k Hk. destruct (Hlev k Hk) as (e & He & Hke & ->). split; intros E.
      + destruct (Z.eq_dec e 1) as [->|Hne]; [reflexivity|]. exfalso.
        destruct (hd_node _ _ _ _ _ _ H e k ltac:(lia) Hke) as (a & Ha & Hb & HL & _).
        assert (Hp := level_pos w N M db L R H a (L k) ltac:(lia) HL). lia.
      + assert (e = 1) by lia. subst e. apply (level_letter w N M db L R H) in Hke. apply (hd_let _ _ _ _ _ _ H); auto.
    - left. assert (E := ndeg_level 1 ltac:(lia)). unfold ndeg, count in E. change (Z.to_nat 1) with 1%nat in E.
      change (1 + 1) with 2 in E. rewrite (hd_2 _ _ _ _ _ _ H), (hd_1 _ _ _ _ _ _ H) in E. lia.
    - intros k Hk. destruct (Hlev k Hk) as (e & He & Hke & _). apply (key_lt w N M db L R H e k); auto.
    - intros k Hk Hne. destruct (Hlev k Hk) as (e & He & Hke & Ek).
      destruct (Z.eq_dec e 1) as [->|Hne1].
      { exfalso. apply Hne. apply (level_letter w N M db L R H) in Hke. apply (hd_let _ _ _ _ _ _ H); auto. }
      destruct (hd_node _ _ _ _ _ _ H e k ltac:(lia) Hke) as (a & Ha & Hb & HL & HR & Hlt & Hc).
      assert (P1 := level_pos w N M db L R H a (L k) ltac:(lia) HL). assert (P2 := level_pos w N M db L R H (e - a) (R k) ltac:(lia) HR).
      rewrite (dgof_level a (L k) ltac:(lia) HL), (dgof_level (e - a) (R k) ltac:(lia) HR), Ek. repeat split; lia.
    - intros k k' Hk Hk' Hne E1 E2. destruct (Hlev k Hk) as (e & He & Hke & Ek). destruct (Hlev k' Hk') as (e' & He' & Hke' & Ek').
      assert (Hlet : forall e k, 1 <= e <= N -> db e <= k < db (e + 1) -> L k <> 0 -> 2 <= e).
      { intros f h Hf Hh Hn. destruct (Z.eq_dec f 1) as [->|]; [|lia]. exfalso. apply Hn. apply (level_letter w N M db L R H) in Hh. apply (hd_let _ _ _ _ _ _ H); auto. }
      assert (G1 := Hlet e k He Hke Hne). assert (G2 := Hlet e' k' He' Hke' ltac:(congruence)).
      assert (e = e').
      { destruct (hd_node _ _ _ _ _ _ H e k ltac:(lia) Hke) as (a & A1 & A2 & A3 & A4 & _).
        destruct (hd_node _ _ _ _ _ _ H e' k' ltac:(lia) Hke') as (a' & B1 & B2 & B3 & B4 & _).
        rewrite <- E1 in B3. rewrite <- E2 in B4.
        assert (a = a') by (apply (level_unique w N M db L R H a a' (L k)); lia).
        assert (e - a = e' - a') by (apply (level_unique w N M db L R H _ _ (R k)); lia). lia. }
      subst e'. destruct (Z.lt_trichotomy k k') as [Hlt|[->|Hlt]]; auto; exfalso.
      + assert (S := hd_sorted _ _ _ _ _ _ H e k k' ltac:(lia) ltac:(lia) Hlt ltac:(lia)). unfold lex in S. cbn in S. lia.
      + assert (S := hd_sorted _ _ _ _ _ _ H e k' k ltac:(lia) ltac:(lia) Hlt ltac:(lia)). unfold lex in S. cbn in S. lia.
    - intros i j Hij Hj Hl Hdd. destruct (Hlev i ltac:(lia)) as (a & Ha & Hia & Ea). destruct (Hlev j ltac:(lia)) as (b & Hb & Hjb & Eb).
      rewrite Ea, Eb in Hdd. destruct (hd_all _ _ _ _ _ _ H a b i j) as (k & Hk & E1 & E2); try lia.
      exists k. assert (P := level_pos w N M db L R H (a + b) k ltac:(lia) Hk). auto.
  Qed.
End Size.

(** ** The code *)
Lemma int_pow_loop_ok fuel : forall r b e, 0 <= e -> (Z.to_nat e < fuel)%nat ->
  (1 <= r /\ 1 <= b /\ r * b ^ e <= I64_MAX) \/ (b = 0 /\ 0 <= r <= 1) ->
  int_pow_loop fuel r b e = Ok (r * b ^ e).
Proof.
  induction fuel as [|fuel IH]; intros r b e He Hf Hc; [lia|]. cbn [int_pow_loop].
  destruct (e >? 0) eqn:E0.
  2:{ assert (e = 0) by lia. subst e. rewrite Z.pow_0_r. f_equal. lia. }
  rewrite Z.shiftr_div_pow2 by lia. change (2 ^ 1) with 2.
  assert (Ediv : e = 2 * (e / 2) + (if Z.odd e then 1 else 0)).
  { rewrite <- Z.div2_div. rewrite (Z.div2_odd e) at 1. destruct (Z.odd e); reflexivity. }
  set (h := e / 2) in *. assert (Hh : 0 <= h) by (apply Z.div_pos; lia).
  assert (Hhe : h < e) by (clear -Ediv Hh E0; destruct (Z.odd e); lia).
  assert (Epow : b ^ e = (b * b) ^ h * (if Z.odd e then b else 1)).
  { rewrite Ediv at 1. rewrite Z.pow_add_r by (destruct (Z.odd e); lia). rewrite Z.pow_mul_r by lia. rewrite Z.pow_2_r. destruct (Z.odd e); [rewrite Z.pow_1_r|rewrite Z.pow_0_r]; lia. }
  destruct Hc as [(Hr & Hb & Hmax)|(-> & Hr)].
  - assert (Hbb : 1 <= (b * b) ^ h) by (assert (0 < (b * b) ^ h) by (apply Z.pow_pos_nonneg; nia); lia).
    assert (Hr' : exists r', (if Z.odd e then i64 (r * b) else Ok r) = Ok r' /\ r' = r * (if Z.odd e then b else 1)).
    { destruct (Z.odd e); [|exists r; split; auto; lia]. exists (r * b). split; auto. apply i64_ok. unfold I64_MIN. rewrite Epow in Hmax.
      split; [nia|]. assert (r * b <= r * ((b * b) ^ h * b)) by nia. lia. }
    destruct Hr' as (r' & -> & Er'). cbn [bind].
    assert (Hr1 : 1 <= r') by (destruct (Z.odd e); nia).
    assert (Hb' : exists b', (if h =? 0 then Ok b else i64 (b * b)) = Ok b' /\ 1 <= b' /\ b' ^ h = (b * b) ^ h).
    { destruct (h =? 0) eqn:Eh.
      - exists b. assert (h = 0) by lia. rewrite H, !Z.pow_0_r. repeat split; auto.
      - exists (b * b). repeat split; [|nia]. apply i64_ok. unfold I64_MIN. split; [nia|].
        assert (b * b <= (b * b) ^ h). { rewrite <- (Z.pow_1_r (b * b)) at 1. apply Z.pow_le_mono_r; nia. }
        rewrite Epow in Hmax. assert (r' * (b * b) ^ h <= I64_MAX) by (rewrite Er'; destruct (Z.odd e); lia). nia. }
    destruct Hb' as (b' & -> & Hb1 & Eb'). cbn [bind].
    assert (Efin : r' * b' ^ h = r * b ^ e) by (rewrite Eb', Epow, Er'; ring).
    rewrite IH; [rewrite Efin; reflexivity|lia|lia|]. left. rewrite Efin. lia.
  - assert (Hr' : exists r', (if Z.odd e then i64 (r * 0) else Ok r) = Ok r' /\ r' = r * (if Z.odd e then 0 else 1)).
    { destruct (Z.odd e); [|exists r; split; auto; lia]. exists 0. rewrite Z.mul_0_r. auto. }
    destruct Hr' as (r' & -> & Er'). cbn [bind].
    replace (if h =? 0 then Ok 0 else i64 (0 * 0)) with (@Ok Z 0) by (destruct (h =? 0); reflexivity). cbn [bind].
    rewrite IH; [|lia|lia|right; clear -Er' Hr; destruct (Z.odd e); lia].
    rewrite Epow. change (0 * 0) with 0. f_equal. rewrite Er'. ring.
Qed.
Lemma int_pow_ok w e : 0 <= w -> 0 <= e -> w ^ e <= I64_MAX -> int_pow w e = Ok (w ^ e).
Proof.
  intros Hw He Hm. unfold int_pow. rewrite int_pow_loop_ok; [f_equal; lia|lia|lia|].
  destruct (Z.eq_dec w 0); [right; lia|left; lia].
Qed.

(** The Moebius values the code uses. *)
Definition cmu (e : nat) : Z := match mobius_func (Z.of_nat e) with Ok m => m | _ => 0 end.
Lemma cmu_ok e : (1 <= Z.of_nat e < 46339 * 46339) -> mobius_func (Z.of_nat e) = Ok (cmu e) /\ is_mobius (Z.of_nat e) (cmu e).
Proof. intros H. unfold cmu. destruct (mobius_func_ok _ H) as (m & -> & Hm). auto. Qed.
Lemma is_mobius_abs n m : is_mobius n m -> -1 <= m <= 1.
Proof.
  intros [(ps & _ & _ & _ & ->)|(p & _ & _ & ->)]; [|lia].
  induction (length ps) as [|k IH]; [cbn; lia|]. rewrite Nat2Z.inj_succ, Z.pow_succ_r by lia. lia.
Qed.

Definition witt_sum (w d : Z) : Z := dsum (Z.to_nat d) (fun e => cmu e * w ^ Z.of_nat (Z.to_nat d / e)).

Lemma degree_dim_ok w d : 0 <= w -> 1 <= d < 46339 * 46339 -> d * w ^ d <= I64_MAX ->
  compute_lie_degree_dim w d = Ok (Z.quot (witt_sum w d) d) /\ -(d * w ^ d) <= witt_sum w d <= d * w ^ d.
Proof.
  intros Hw Hd Hm.
  set (n := Z.to_nat d). set (F := fun e => cmu e * w ^ Z.of_nat (n / e)).
  assert (Hwd : 0 <= w ^ d) by (apply Z.pow_nonneg; lia).
  assert (Hpw : forall e, 1 <= e <= d -> 0 <= w ^ (d / e) <= w ^ d).
  { intros e He. split; [apply Z.pow_nonneg; lia|].
    assert (Hq : 1 <= d / e) by (apply Z.div_le_lower_bound; lia).
    assert (Hq2 : d / e <= d) by (apply Z.div_le_upper_bound; nia).
    destruct (Z.eq_dec w 0) as [->|]; [rewrite !Z.pow_0_l by lia; lia|]. apply Z.pow_le_mono_r; lia. }
  assert (Hdiv : forall e, 1 <= e <= d -> Z.of_nat (n / Z.to_nat e) = d / e).
  { intros e He. rewrite Nat2Z.inj_div. unfold n. rewrite !Z2Nat.id by lia. reflexivity. }
  assert (Hmul : forall e, 1 <= e <= d -> - w ^ d <= F (Z.to_nat e) <= w ^ d).
  { intros e He. unfold F. rewrite Hdiv by lia. destruct (cmu_ok (Z.to_nat e)) as [_ Hmob]; [lia|]. apply is_mobius_abs in Hmob.
    assert (Hp := Hpw e He). nia. }
  assert (G : forall k, (k <= n)%nat ->
     for_ (zseq 1 k) 0 (fun d0 sum => if Z.rem d d0 =? 0 then
        let! mu := mobius_func d0 in if mu =? 0 then Ok sum else
          let! p := int_pow w (Z.quot d d0) in let! t := i64 (mu * p) in i64 (sum + t) else Ok sum)
     = Ok (@Alg.sum Zcr nat (filter (fun e => divides e n) (seq 1 k)) F) /\
     - (Z.of_nat k * w ^ d) <= @Alg.sum Zcr nat (filter (fun e => divides e n) (seq 1 k)) F <= Z.of_nat k * w ^ d).
  { induction k as [|k IH]; intros Hk; [cbn; split; [reflexivity|lia]|].
    destruct (IH ltac:(lia)) as [IH1 IH2].
    replace (S k) with (k + 1)%nat by lia. rewrite zseq_app, for_app, IH1. cbn [bind].
    replace (k + 1)%nat with (S k) by lia. rewrite seq_S, filter_app, zsum_app.
    cbn [zseq for_]. set (S0 := @Alg.sum Zcr nat (filter (fun e => divides e n) (seq 1 k)) F) in *.
    replace (1 + Z.of_nat k) with (Z.of_nat (1 + k)) by lia. cbn [filter].
    assert (Ediv : (Z.rem d (Z.of_nat (1 + k)) =? 0) = divides (1 + k) n).
    { destruct (divides (1 + k) n) eqn:E.
      - apply divides_spec in E; [|lia]. replace (Z.of_nat n) with d in E by lia. apply Z.eqb_eq.
        rewrite Z.rem_mod_nonneg by lia. apply Z.mod_divide; [lia|auto].
      - apply Z.eqb_neq. intros E2. rewrite Z.rem_mod_nonneg in E2 by lia. apply Z.mod_divide in E2; [|lia].
        replace d with (Z.of_nat n) in E2 by lia. apply divides_spec in E2; [congruence|lia]. }
    rewrite Ediv. assert (Hb := Hmul (Z.of_nat (1 + k)) ltac:(lia)). rewrite Nat2Z.id in Hb.
    assert (Habs : Z.of_nat (S k) * w ^ d <= I64_MAX) by nia.
    assert (ESk : Z.of_nat (S k) * w ^ d = Z.of_nat k * w ^ d + w ^ d) by lia.
    destruct (divides (1 + k) n) eqn:E.
    - destruct (cmu_ok (1 + k)) as [-> Hmob]; [lia|]. cbn [bind].
      cbn [Alg.sum]. change (@radd Zcr) with Z.add. change (@r0 Zcr) with 0.
      assert (Hval : forall x, x = F (1 + k)%nat -> Ok (S0 + x) = Ok (S0 + (F (1 + k)%nat + 0)) /\ - (Z.of_nat (S k) * w ^ d) <= S0 + (F (1 + k)%nat + 0) <= Z.of_nat (S k) * w ^ d).
      { intros x ->. split; [f_equal; lia|]. lia. }
      destruct (cmu (1 + k) =? 0) eqn:Ez.
      + assert (EF0 : F (1 + k)%nat = 0) by (unfold F; replace (cmu (1 + k)) with 0 by lia; reflexivity).
        cbn [bind]. destruct (Hval 0) as [Hv1 Hv]; [auto|]. split; [|exact Hv]. refine (eq_trans _ Hv1). f_equal. symmetry. apply Z.add_0_r.
      + rewrite Z.quot_div_nonneg by lia.
        assert (Hp := Hpw (Z.of_nat (1 + k)) ltac:(lia)).
        rewrite int_pow_ok; [|lia|apply Z.div_pos; lia|nia]. cbn [bind].
        assert (EF : cmu (1 + k) * w ^ (d / Z.of_nat (1 + k)) = F (1 + k)%nat).
        { unfold F. rewrite <- (Hdiv (Z.of_nat (1 + k))) by lia. rewrite Nat2Z.id. reflexivity. }
        rewrite EF. rewrite i64_ok by (unfold I64_MIN, I64_MAX in *; clear -Hb Habs ESk IH2 Hwd; lia). cbn [bind].
        rewrite i64_ok by (unfold I64_MIN, I64_MAX in *; clear -Hb IH2 Habs ESk; lia). cbn [bind].
        apply Hval; auto.
    - cbn [bind Alg.sum]. change (@r0 Zcr) with 0. change (@radd Zcr) with Z.add. split; [exact (f_equal Ok (eq_sym (Z.add_0_r S0)))|].
      assert (X : forall s : Z, - (Z.of_nat k * w ^ d) <= s <= Z.of_nat k * w ^ d -> - (Z.of_nat (S k) * w ^ d) <= s + 0 <= Z.of_nat (S k) * w ^ d) by (intros; lia).
      exact (X S0 IH2). }
  destruct (G n (le_n _)) as [G1 G2].
  assert (Ew : witt_sum w d = @Alg.sum Zcr nat (filter (fun e => divides e n) (seq 1 n)) F) by reflexivity.
  split; [|rewrite Ew; replace d with (Z.of_nat n) at 1 3 by (unfold n; lia); lia].
  unfold compute_lie_degree_dim. replace (d <=? 0) with false by lia.
  destruct (d =? 1) eqn:E1.
  - assert (d = 1) by lia. subst d. unfold witt_sum. f_equal. change (Z.to_nat 1) with 1%nat. unfold dsum. cbn [seq filter].
    replace (divides 1 1) with true by reflexivity. cbn [Alg.sum]. change (Z.of_nat (1 / 1)) with 1. rewrite Z.pow_1_r.
    change (cmu 1) with 1. rewrite Z.quot_1_r. change (@radd Zcr) with Z.add. change (@r0 Zcr) with 0. lia.
  - fold n. rewrite G1. cbn [bind]. rewrite Ew. reflexivity.
Qed.

(** The bound under which the dimension can be computed without overflow. *)
Definition fits (w N : Z) : Prop := 0 <= w /\ 1 <= N < 46339 * 46339 /\ N * w ^ N < I64_MAX.

Section Dim.
  Variables (w N M : Z) (db L R : Z -> Z).
  Hypothesis H : hall_data w N M db L R.
  Hypothesis Hfit : fits w N.

  Lemma fits_le d : 1 <= d <= N -> d * w ^ d <= N * w ^ N.
  Proof.
    intros Hd. destruct Hfit as (Hw & HN & _). assert (w ^ d <= w ^ N).
    { destruct (Z.eq_dec w 0) as [->|]; [rewrite !Z.pow_0_l by lia; lia|]. apply Z.pow_le_mono_r; lia. }
    assert (0 <= w ^ d) by (apply Z.pow_nonneg; lia). nia.
  Qed.
  Lemma level_dim d : 1 <= d <= N -> compute_lie_degree_dim w d = Ok (db (d + 1) - db d) /\ db (d + 1) - db d <= w ^ d.
  Proof.
    intros Hd. destruct Hfit as (Hw & HN & Hb). assert (Hl := fits_le d Hd).
    destruct (degree_dim_ok w d) as [E1 E2]; try lia.
    assert (E3 : witt_sum w d = d * (db (d + 1) - db d)).
    { apply (level_witt w N M db L R H cmu d); auto. intros e He. apply cmu_ok. lia. }
    rewrite E3 in *. split; [|nia]. rewrite E1. f_equal. rewrite Z.mul_comm. apply Z.quot_mul. lia.
  Qed.
  Lemma lie_dim_ok : compute_lie_dim w N = Ok M /\ M <= N * w ^ N.
  Proof.
    destruct Hfit as (Hw & HN & Hb). unfold compute_lie_dim.
    assert (Hwn : forall d, 1 <= d <= N -> w ^ d <= w ^ N).
    { intros d Hd. destruct (Z.eq_dec w 0) as [->|]; [rewrite !Z.pow_0_l by lia; lia|]. apply Z.pow_le_mono_r; lia. }
    assert (G : forall k, (k <= Z.to_nat N)%nat ->
      for_ (zseq 1 k) 0 (fun d result => let! x := compute_lie_degree_dim w d in i64 (result + x)) = Ok (db (Z.of_nat k + 1) - 1) /\
      0 <= db (Z.of_nat k + 1) - 1 <= Z.of_nat k * w ^ N).
    { induction k as [|k IH]; intros Hk.
      - cbn [zseq for_]. change (Z.of_nat 0 + 1) with 1. rewrite (hd_1 _ _ _ _ _ _ H). split; [reflexivity|lia].
      - destruct (IH ltac:(lia)) as [IH1 IH2]. replace (S k) with (k + 1)%nat by lia. rewrite zseq_app, for_app, IH1. cbn [bind zseq for_].
        destruct (level_dim (1 + Z.of_nat k) ltac:(lia)) as [-> Hle]. cbn [bind].
        assert (Hmn := hd_mono _ _ _ _ _ _ H (1 + Z.of_nat k) ltac:(lia)). assert (Hw2 := Hwn (1 + Z.of_nat k) ltac:(lia)).
        replace (Z.of_nat k + 1) with (1 + Z.of_nat k) in * by lia.
        replace (Z.of_nat (k + 1) + 1) with (1 + Z.of_nat k + 1) by lia.
        replace (db (1 + Z.of_nat k) - 1 + (db (1 + Z.of_nat k + 1) - db (1 + Z.of_nat k))) with (db (1 + Z.of_nat k + 1) - 1) by lia.
        assert (Z.of_nat (k + 1) * w ^ N <= N * w ^ N). { assert (0 <= w ^ N) by (apply Z.pow_nonneg; lia). nia. }
        rewrite i64_ok by (unfold I64_MIN; nia). cbn [bind]. split; [reflexivity|nia]. }
    destruct (G (Z.to_nat N) (le_n _)) as [G1 G2]. rewrite Z2Nat.id in * by lia. rewrite (hd_top _ _ _ _ _ _ H) in *.
    split; [rewrite G1; f_equal; lia|lia].
  Qed.
End Dim.
