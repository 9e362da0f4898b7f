(** Halving, expansion, ordering and dissection of dyadic intervals. *)
From Verif Require Import Outcome DyadicModel DyadicSpec DyadicProofs.
From Coq Require Import QArith Qround Qpower Qfield ZifyBool.
Open Scope Z_scope.
Arguments Z.mul : simpl never.
Arguments Z.pow : simpl never.
Arguments Z.add : simpl never.
Arguments Z.sub : simpl never.

(** ** Construction from a parameter (C03) *)
Lemma di_of_param_spec x n t i :
  di_of_param x n t = Ok i ->
  di_n i = n /\ di_t i = t /\ di_pts i x /\
  (forall j, di_n j = n -> di_t j = t -> di_pts j x -> j = i).
Proof.
  unfold di_of_param. intros H. apply i32_bind in H as [H _]. injection H as <-.
  cbn. repeat split; auto.
  - unfold di_pts; cbn. destruct t; [apply clopen_floor|apply opencl_ceil]; reflexivity.
  - intros [k m t'] Hn Ht Hp; cbn in *; subst. f_equal.
    unfold di_pts in Hp; cbn in Hp. unfold qscale. destruct t.
    + apply clopen_floor in Hp; auto.
    + apply opencl_ceil in Hp; auto.
Qed.

(** Ends of an interval. *)
Lemma ends_spec i lo hi : dinf i = Ok lo -> dsup i = Ok hi ->
  (to_param hi - to_param lo == Qpower 2 (- di_n i))%Q /\ (to_param lo < to_param hi)%Q /\
  (forall x, di_pts i x <->
     match di_t i with Clopen => to_param lo <= x /\ x < to_param hi
                     | Opencl => to_param lo < x /\ x <= to_param hi end)%Q.
Proof.
  destruct i as [k n t]. unfold dinf, dsup, dexcluded, dincluded, unit, di_d, di_pts; cbn.
  destruct t; cbn; intros H1 H2.
  - injection H1 as <-. apply i32_bind in H2 as [H2 _]. injection H2 as <-.
    rewrite !to_param_dy; cbn. split; [|split].
    + unfold dy. rewrite inject_Z_plus. change (inject_Z 1) with 1%Q. ring.
    + apply dy_same_lt; lia.
    + reflexivity.
  - injection H2 as <-. apply i32_bind in H1 as [H1 _]. injection H1 as <-.
    rewrite !to_param_dy; cbn. split; [|split].
    + unfold dy. rewrite inject_Z_plus. change (inject_Z (-1)) with (-(1))%Q. ring.
    + apply dy_same_lt; lia.
    + unfold opencl_pts. reflexivity.
Qed.

(** ** Halving (C05) *)
Definition half_ok (i : dint) : Prop :=
  - 2 ^ 28 <= di_k i <= 2 ^ 28 /\ - 2 ^ 29 <= di_n i < 2 ^ 29.

Lemma contained_end_eval i arg :
  0 <= arg <= 30 -> - 2 ^ 29 <= di_n i <= 2 ^ 29 -> INT_MIN <= di_k i * 2 ^ arg <= INT_MAX ->
  shrink_to_contained_end i arg = Ok (mkDI (di_k i * 2 ^ arg) (di_n i + arg) (di_t i)).
Proof.
  intros Ha Hn Hk. unfold shrink_to_contained_end.
  rewrite (i32_ok (arg + di_n i)) by (unfold INT_MIN, INT_MAX; lia). cbn [bind].
  unfold di_d. rewrite di_make_up.
  - do 2 f_equal; [f_equal; f_equal; lia|lia].
  - lia.
  - replace (arg + di_n i - di_n i) with arg by lia. exact Hk.
Qed.

Lemma omitted_end_eval i : half_ok i ->
  shrink_to_omitted_end i = Ok (mkDI (2 * di_k i + unit i) (di_n i + 1) (di_t i)).
Proof.
  intros [Hk Hn]. unfold shrink_to_omitted_end.
  rewrite contained_end_eval by (try lia; unfold INT_MIN, INT_MAX; lia). cbn [bind].
  change (2 ^ 1) with 2. unfold flip_interval; cbn [di_k di_n di_t unit].
  assert (E : Z.rem (di_k i * 2) 2 = 0) by (rewrite Z.mul_comm, Z.mul_comm; apply Z.rem_mul; lia).
  rewrite E. cbn [Z.eqb]. unfold unit; cbn [di_t].
  rewrite i32_ok by (destruct (unit_cases (di_t i)) as [-> | ->]; unfold INT_MIN, INT_MAX; lia).
  cbn [bind]. do 2 f_equal. lia.
Qed.

Lemma left_right_eval i : half_ok i ->
  shrink_interval_left i 1 = Ok (mkDI (match di_t i with Clopen => 2 * di_k i | Opencl => 2 * di_k i - 1 end) (di_n i + 1) (di_t i)) /\
  shrink_interval_right i = Ok (mkDI (match di_t i with Clopen => 2 * di_k i + 1 | Opencl => 2 * di_k i end) (di_n i + 1) (di_t i)).
Proof.
  intros H. pose proof H as [Hk Hn]. unfold shrink_interval_right. cbn [shrink_interval_left].
  rewrite (omitted_end_eval i H).
  rewrite contained_end_eval by (try lia; unfold INT_MIN, INT_MAX; lia).
  change (2 ^ 1) with 2. unfold unit. destruct (di_t i); cbn [bind unit_t]; split; do 2 f_equal; lia.
Qed.

Lemma cell_split k n x :
  clopen_pts k n x <-> clopen_pts (2 * k) (n + 1) x \/ clopen_pts (2 * k + 1) (n + 1) x.
Proof.
  rewrite !clopen_floor. rewrite (floor_coarse x n 1) by lia. change (2 ^ 1) with 2.
  set (m := Qfloor _). pose proof (Z.div_mod m 2). pose proof (Z.mod_pos_bound m 2). lia.
Qed.

Lemma halves_partition i l r : half_ok i ->
  shrink_interval_left i 1 = Ok l -> shrink_interval_right i = Ok r ->
  (forall x, di_pts i x <-> di_pts l x \/ di_pts r x) /\
  (forall x, ~ (di_pts l x /\ di_pts r x)) /\
  (forall x y, di_pts l x -> di_pts r y -> (x < y)%Q).
Proof.
  intros Hi Hl Hr. destruct (left_right_eval i Hi) as [El Er].
  rewrite El in Hl. rewrite Er in Hr. injection Hl as <-. injection Hr as <-.
  destruct i as [k n t]; cbn [di_k di_n di_t] in *. unfold di_pts; cbn [di_k di_n di_t].
  assert (Main : (forall x y, match t with
     | Clopen => clopen_pts (2*k) (n+1) x -> clopen_pts (2*k+1) (n+1) y -> (x < y)%Q
     | Opencl => opencl_pts (2*k-1) (n+1) x -> opencl_pts (2*k) (n+1) y -> (x < y)%Q end)).
  { intros x y. destruct t.
    - intros [_ H1] [H2 _]. eapply Qlt_le_trans; eauto.
    - intros [_ H1] [H2 _]. replace (2 * k - 1) with (2 * k - 1) in H1 by lia. eapply Qle_lt_trans; eauto. }
  split; [|split].
  - intros x. destruct t; [apply cell_split|].
    rewrite !opencl_clopen_neg. rewrite cell_split.
    replace (2 * - k) with (- (2 * k)) by lia. replace (- (2 * k) + 1) with (- (2 * k - 1)) by lia. tauto.
  - intros x [H1 H2]. specialize (Main x x). apply (Qlt_irrefl x). destruct t; auto.
  - intros x y. specialize (Main x y). destruct t; auto.
Qed.

(** Repeated shrinking keeps the corresponding end. *)
Fixpoint iter_right (i : dint) (a : nat) : outcome dint :=
  match a with O => Ok i | S a => let! i' := shrink_interval_right i in iter_right i' a end.

Lemma left_iter_eval i (a : nat) :
  - 2 ^ 28 <= di_n i -> di_n i + Z.of_nat a <= 2 ^ 28 ->
  - 2 ^ 28 <= di_k i * 2 ^ Z.of_nat a <= 2 ^ 28 -> (a <= 28)%nat ->
  - 2 ^ 28 <= (di_k i - 1) * 2 ^ Z.of_nat a ->
  shrink_interval_left i a =
    Ok (mkDI (match di_t i with Clopen => di_k i * 2 ^ Z.of_nat a
                              | Opencl => (di_k i - 1) * 2 ^ Z.of_nat a + 1 end)
             (di_n i + Z.of_nat a) (di_t i)).
Proof.
  revert i. induction a as [|a IH]; intros i Hn Hn2 Hk Ha Hk2.
  - cbn [shrink_interval_left]. destruct i as [k n t]; cbn [di_k di_n di_t]. rewrite Z.pow_0_r.
    f_equal. f_equal; [destruct t; lia|lia].
  - rewrite Nat2Z.inj_succ, Z.pow_succ_r in * by lia.
    pose proof (pow2_pos (Z.of_nat a) ltac:(lia)) as P.
    assert (HH : half_ok i).
    { split; [|lia]. change (2 ^ 28) with 268435456 in *. destruct (Z_le_gt_dec 0 (di_k i)); nia. }
    destruct (left_right_eval i HH) as [El _].
    cbn [shrink_interval_left] in El |- *.
    destruct (match di_t i with Clopen => shrink_to_contained_end i 1 | Opencl => shrink_to_omitted_end i end) as [i'| | |];
      cbn [bind] in *; try discriminate.
    injection El as ->. rewrite IH; cbn [di_k di_n di_t]; try (destruct (di_t i); change (2 ^ 28) with 268435456 in *; nia).
    f_equal. f_equal; [destruct (di_t i); ring|lia].
Qed.

(** ** Expansion of clopen intervals *)
Lemma expand_eval i e : small (di_k i) -> - 2 ^ 29 <= di_n i <= 2 ^ 29 -> 0 <= e <= 30 ->
  expand_interval i e = Ok (mkDI (di_k i / 2 ^ e) (di_n i - e) Clopen).
Proof.
  intros Hk Hn He. unfold expand_interval.
  rewrite (i32_ok (di_n i - e)) by (unfold INT_MIN, INT_MAX; lia). cbn [bind].
  unfold dincluded, di_d. rewrite di_make_down; [|auto|unfold small; lia|unfold small; lia|lia].
  cbn [unit_t]. replace (di_n i - (di_n i - e)) with e by lia. rewrite !Z.mul_1_l. reflexivity.
Qed.

Lemma expand_contains i e p : di_t i = Clopen ->
  small (di_k i) -> - 2 ^ 29 <= di_n i <= 2 ^ 29 -> 0 <= e <= 30 ->
  expand_interval i e = Ok p ->
  di_n p = di_n i - e /\ di_t p = Clopen /\ (forall x, di_pts i x -> di_pts p x) /\
  (forall q, di_n q = di_n i - e -> di_t q = Clopen -> (forall x, di_pts i x -> di_pts q x) -> q = p).
Proof.
  intros Ht Hk Hn He H. rewrite expand_eval in H by auto. injection H as <-. cbn [di_n di_t].
  split; [|split]; auto. split.
  - apply di_incl_iff; cbn; auto; [lia|]. unfold unit; cbn.
    replace (di_n i - (di_n i - e)) with e by lia. rewrite !Z.mul_1_l; reflexivity.
  - intros [k n t] Hqn Hqt H; cbn in *; subst.
    apply di_incl_iff in H; cbn in *; auto; [|lia]. unfold unit in H; cbn in H.
    replace (di_n i - (di_n i - e)) with e in H by lia. rewrite !Z.mul_1_l in H. f_equal. exact H.
Qed.

Lemma aligned_clopen_eval i : di_t i = Clopen -> - 2 ^ 29 <= di_k i <= 2 ^ 29 -> - 2 ^ 29 <= di_n i <= 2 ^ 29 ->
  aligned i = Ok (Z.even (di_k i)).
Proof.
  intros Ht Hk Hn. destruct i as [k n t]; cbn in Ht, Hk, Hn; subst t. unfold aligned; cbn [di_n di_t di_k].
  rewrite (i32_ok (n - 1)) by (unfold INT_MIN, INT_MAX; lia). cbn [bind]. unfold di_d; cbn [di_k di_n].
  rewrite di_make_down; try (unfold small; lia). cbn [bind unit_t di_k di_n].
  rewrite !Z.mul_1_l. replace (n - (n - 1)) with 1 by lia. change (2 ^ 1) with 2.
  assert (D := Z.div_mod k 2 ltac:(lia)). assert (B := Z.mod_pos_bound k 2 ltac:(lia)).
  rewrite di_make_up; replace (n - (n - 1)) with 1 by lia; change (2 ^ 1) with 2;
    try (unfold INT_MIN, INT_MAX; lia).
  cbn [bind]. unfold di_interval_eq; cbn [di_t itype_eqb negb]. unfold dinf, dsup, dexcluded, unit; cbn [di_t unit_t di_k di_n bind dincluded].
  rewrite (i32_ok (k + 1)) by (unfold INT_MIN, INT_MAX; lia). cbn [bind].
  rewrite (i32_ok (k / 2 * 2 + 1)) by (unfold INT_MIN, INT_MAX; lia). cbn [bind].
  f_equal. rewrite !to_param_dy; cbn [mult power dincluded di_d di_k di_n].
  apply eq_true_iff_eq. rewrite andb_true_iff, !Qeq_bool_iff, !dy_same_eq, Z.even_spec.
  split.
  - intros [E _]. exists (k / 2). lia.
  - intros [m ->]. rewrite Z.mul_comm, Z.div_mul by lia. lia.
Qed.

(** ** Ordering (C07) *)
Lemma di_lt_inv l r b : di_t l = di_t r -> di_lt l r = Ok b ->
  let e := Z.abs (di_n l - di_n r) in
  b = if di_n l >=? di_n r then unit l * (di_k r * 2 ^ e - di_k l) >? 0
      else unit l * (di_k r - di_k l * 2 ^ e) >=? 0.
Proof.
  intros Ht H e. unfold di_lt in H. rewrite Ht in H.
  assert (Eq : itype_eqb (di_t r) (di_t r) = true) by (destruct (di_t r); reflexivity).
  rewrite Eq in H; cbn [negb] in H.
  destruct (di_n l =? di_n r) eqn:E1.
  - apply i32_bind in H as [H _]. apply i32_bind in H as [H _]. injection H as <-.
    destruct (di_n l >=? di_n r) eqn:E; [|lia]. assert (e = 0) as -> by lia.
    rewrite Z.pow_0_r, Z.mul_1_r. reflexivity.
  - destruct (di_n l >? di_n r) eqn:E2.
    + apply i32_bind in H as [H _]. apply bind_ok in H as (s & Hs & H). apply shift_inv in Hs as [-> Hs].
      apply i32_bind in H as [H _]. apply i32_bind in H as [H _]. injection H as <-.
      destruct (di_n l >=? di_n r) eqn:E; [|lia]. unfold e. rewrite Z.abs_eq by lia. reflexivity.
    + apply i32_bind in H as [H _]. apply bind_ok in H as (s & Hs & H). apply shift_inv in Hs as [-> Hs].
      apply i32_bind in H as [H _]. apply i32_bind in H as [H _]. injection H as <-.
      destruct (di_n l >=? di_n r) eqn:E; [lia|]. unfold e. rewrite Z.abs_neq by lia.
      replace (- (di_n l - di_n r)) with (di_n r - di_n l) by lia. reflexivity.
Qed.

(** The order relation in words: compare the included ends in the direction of the
    type; ties are broken by putting the longer interval first. *)
Definition di_before (l r : dint) : Prop :=
  (inject_Z (unit l) * dy (di_k l) (di_n l) < inject_Z (unit l) * dy (di_k r) (di_n r))%Q \/
  ((dy (di_k l) (di_n l) == dy (di_k r) (di_n r))%Q /\ di_n l < di_n r).

Lemma dy_unit t k n : (inject_Z (unit_t t) * dy k n == dy (unit_t t * k) n)%Q.
Proof. unfold dy. rewrite inject_Z_mult. ring. Qed.

Lemma di_lt_before l r b : di_t l = di_t r -> di_lt l r = Ok b -> (b = true <-> di_before l r).
Proof.
  intros Ht H. apply di_lt_inv in H; auto. rewrite H; clear H b.
  unfold di_before, unit.
  rewrite !dy_unit.
  destruct (di_n l >=? di_n r) eqn:E.
  - rewrite Z.abs_eq by lia. set (e := di_n l - di_n r).
    assert (Hl : di_n l = di_n r + e) by lia.
    rewrite (dy_scale (unit_t (di_t l) * di_k r) (di_n r) e) by lia.
    rewrite <- Hl, dy_same_lt. lia.
  - rewrite Z.abs_neq by lia. set (e := - (di_n l - di_n r)).
    assert (Hr : di_n r = di_n l + e) by lia.
    rewrite (dy_scale (unit_t (di_t l) * di_k l) (di_n l) e) by lia.
    rewrite (dy_scale (di_k l) (di_n l) e) by lia.
    rewrite <- Hr, dy_same_lt, dy_same_eq. destruct (unit_cases (di_t l)) as [-> | ->]; lia.
Qed.

Lemma unitQ_lt t x y : (inject_Z (unit_t t) * x < inject_Z (unit_t t) * y)%Q ->
  ~ (x == y)%Q.
Proof. intros H E. rewrite E in H. apply (Qlt_irrefl _ H). Qed.

Lemma di_before_irrefl i : ~ di_before i i.
Proof. intros [H|[_ H]]; [apply (Qlt_irrefl _ H)|lia]. Qed.
Lemma di_before_trans a b c : di_t a = di_t b -> di_t b = di_t c ->
  di_before a b -> di_before b c -> di_before a c.
Proof.
  unfold di_before, unit. intros E1 E2. rewrite <- E1. clear E1 E2.
  intros [H1|[H1 H1']] [H2|[H2 H2']].
  - left. eapply Qlt_trans; eauto.
  - left. rewrite <- H2. auto.
  - left. rewrite H1. auto.
  - right. split; [rewrite H1; auto|lia].
Qed.
Lemma di_before_total a b : di_t a = di_t b -> ~ di_before a b -> ~ di_before b a -> a = b.
Proof.
  unfold di_before, unit. intros E H1 H2. rewrite <- E in H2.
  assert (Heq : (dy (di_k a) (di_n a) == dy (di_k b) (di_n b))%Q).
  { destruct (Q_dec (inject_Z (unit_t (di_t a)) * dy (di_k a) (di_n a))
                    (inject_Z (unit_t (di_t a)) * dy (di_k b) (di_n b))) as [[?|?]|?]; [tauto|tauto|].
    rewrite <- (unitQ_sq (di_t a) (dy (di_k a) _)), <- (unitQ_sq (di_t a) (dy (di_k b) _)), q. reflexivity. }
  assert (di_n a = di_n b).
  { destruct (Z.lt_trichotomy (di_n a) (di_n b)) as [?|[?|?]]; auto; exfalso.
    - apply H1; auto. - apply H2. right; split; [symmetry|]; auto. }
  destruct a as [ka na ta], b as [kb nb tb]; cbn in *; subst.
  f_equal. apply (dy_same_eq ka kb nb). auto.
Qed.
