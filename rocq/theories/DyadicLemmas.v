(** Final forms of the dyadic lemmas used by Prop_Dyadic. *)
From Verif Require Import Outcome DyadicModel DyadicSpec DyadicProofs DyadicProofs2 DyadicProofs3.
From Coq Require Import QArith Qround Qpower Qfield ZifyBool Lqa.
Open Scope Z_scope.
Arguments Z.mul : simpl never.
Arguments Z.pow : simpl never.
Arguments Z.add : simpl never.
Arguments Z.sub : simpl never.

Lemma rebase_flag_thm : forall k n res d' b,
  rebase (mkD k n) res = Ok (d', b) ->
  (k = 0 \/ n <= res -> b = true /\ power d' = res) /\
  (k <> 0 -> res < n < res + 31 -> (b = true <-> power d' = res)) /\
  (k <> 0 -> res + 31 <= n -> (b = true <-> power d' = n - 30)).
Proof.
  intros k n res d' b H. apply rebase_flag in H as [H1 H2]. cbn in H1, H2.
  split; [auto|split].
  - intros Hk Hn. rewrite H2 by lia. unfold clamp_res. destruct (n >=? 31 + res) eqn:E; lia.
  - intros Hk Hn. rewrite H2 by lia. unfold clamp_res. destruct (n >=? 31 + res) eqn:E; lia.
Qed.

Lemma rebase_coarsest : forall k n res d' b,
  k <> 0 -> res < n -> small n -> small res ->
  rebase (mkD k n) res = Ok (d', b) ->
  Z.max res (n - 30) <= power d' <= n /\
  forall p j, Z.max res (n - 30) <= p < power d' -> ~ (dy j p == dy k n)%Q.
Proof.
  intros k n res d' b Hk Hlt Hn Hr H.
  destruct (rebase_down k n res Hk Hlt Hn Hr) as (r & Hb & Hd & Hm & Hreb).
  rewrite Hreb in H. injection H as <- <-. cbn [power].
  assert (Hc : clamp_res n res = Z.max res (n - 30)).
  { unfold clamp_res. destruct (n >=? 31 + res) eqn:E; lia. }
  rewrite Hc in *. split; [lia|].
  intros p j Hp Heq.
  apply (Hm (n - p)); [lia|]. symmetry in Heq.
  replace n with (p + (n - p)) in Heq at 1 by lia.
  rewrite dy_eq_shift in Heq by lia. exists j. lia.
Qed.

Lemma rebase_total : forall k n res,
  small n -> small res -> (n <= res -> res - n <= 30 /\ INT_MIN <= k * 2 ^ (res - n) <= INT_MAX) ->
  exists d' b, rebase (mkD k n) res = Ok (d', b).
Proof.
  intros k n res Hn Hr H. destruct (Z.eq_dec k 0) as [->|Hk].
  - unfold rebase; cbn. eauto.
  - destruct (Z_lt_le_dec res n) as [Hlt|Hle].
    + destruct (rebase_down k n res Hk Hlt Hn Hr) as (r & _ & _ & _ & E). eauto.
    + destruct (H Hle) as [H1 H2]. unfold rebase; cbn [mult power].
      destruct (k =? 0) eqn:E; [lia|]. destruct (res >=? n) eqn:E1; [|lia].
      rewrite (i32_ok (res - n)) by (unfold INT_MIN, INT_MAX; lia). cbn [bind].
      rewrite shift_ok by lia. cbn [bind]. eauto.
Qed.

Lemma rebase_clamp_witness : exists d res d', rebase d res = Ok (d', true) /\ power d' <> res.
Proof. exists (mkD (2 ^ 30) 31), 0, (mkD 1 1). split; [vm_compute; reflexivity|discriminate]. Qed.

Lemma dyadic_equals_iff : forall l r, dyadic_equals l r = true <-> l = r.
Proof.
  intros [k1 n1] [k2 n2]; unfold dyadic_equals; cbn. rewrite andb_true_iff, !Z.eqb_eq.
  split; [intros [-> ->]; auto|intros [= -> ->]; auto].
Qed.

Lemma order_same_power : forall l r,
  power l = power r -> INT_MIN <= mult r <= INT_MAX ->
  (d_lt l r = Ok true <-> (dy (mult l) (power l) < dy (mult r) (power r))%Q) /\
  (d_le l r = Ok true <-> (dy (mult l) (power l) <= dy (mult r) (power r))%Q) /\
  (d_gt l r = Ok true <-> (dy (mult r) (power r) < dy (mult l) (power l))%Q) /\
  (d_ge l r = Ok true <-> (dy (mult r) (power r) <= dy (mult l) (power l))%Q).
Proof.
  intros l r E H. unfold d_lt, d_le, d_gt, d_ge. rewrite !d_rel_same by auto.
  rewrite E, !dy_same_lt, !dy_same_le.
  assert (J : forall b, Ok b = Ok true <-> b = true) by (intros b; split; [intros [= ->]|intros ->]; auto).
  rewrite !J. lia.
Qed.

Lemma order_witness : exists l r,
  d_lt l r = Ok true /\ d_le l r = Ok true /\ (dy (mult r) (power r) < dy (mult l) (power l))%Q.
Proof. exists (mkD 1 0), (mkD 1 1). repeat split; vm_compute; reflexivity. Qed.

Lemma order_wrong_region : forall k n e,
  0 < k -> 0 < e <= 30 -> k * 2 ^ e <= INT_MAX -> small n -> small (n + e) ->
  d_lt (mkD k n) (mkD k (n + e)) = Ok true /\ (dy k (n + e) < dy k n)%Q.
Proof.
  intros k n e Hk He Hm Hn Hne. assert (2 <= 2 ^ e) by (change 2 with (2 ^ 1) at 1; apply Z.pow_le_mono_r; lia).
  split.
  - unfold d_lt, d_rel; cbn [mult power]. destruct (n <=? n + e) eqn:E; [|lia].
    rewrite i32_ok by (unfold small, INT_MIN, INT_MAX in *; lia). cbn [bind].
    replace (n + e - n) with e by lia. rewrite shift_ok by (unfold INT_MIN, INT_MAX in *; nia). cbn [bind].
    f_equal. apply Z.ltb_lt. nia.
  - rewrite (dy_scale k n e) by lia. apply dy_same_lt. nia.
Qed.

Lemma contains_dyadic_thm : forall i o b,
  di_t o = di_t i -> small (di_k o) -> contains_dyadic i o = Ok b ->
  (b = true <-> forall x, di_pts o x -> di_pts i x).
Proof. intros; apply contains_dyadic_correct; auto. Qed.
Lemma contains_dyadic_total : forall i o,
  di_t o = di_t i -> 0 <= di_n o - di_n i <= 30 ->
  small (di_k o) -> INT_MIN <= di_k i * 2 ^ (di_n o - di_n i) <= INT_MAX ->
  exists b, contains_dyadic i o = Ok b.
Proof. intros. rewrite contains_dyadic_eval by auto. eauto. Qed.
Lemma contains_dyadic_types : forall i o, di_t o <> di_t i -> contains_dyadic i o = Ok false.
Proof. intros i o H. unfold contains_dyadic. destruct (di_t o), (di_t i); try congruence; reflexivity. Qed.

Lemma halves_exist : forall i, half_ok i ->
  exists l r, shrink_interval_left i 1 = Ok l /\ shrink_interval_right i = Ok r /\
    di_n l = di_n i + 1 /\ di_n r = di_n i + 1 /\ di_t l = di_t i /\ di_t r = di_t i.
Proof.
  intros i H. destruct (left_right_eval i H) as [-> ->]. eexists _, _. repeat split.
Qed.

Lemma left_shrink_inf : forall i (a : nat) j lo lo',
  - 2 ^ 28 <= di_n i -> di_n i + Z.of_nat a <= 2 ^ 28 -> (a <= 28)%nat ->
  - 2 ^ 28 <= (di_k i - 1) * 2 ^ Z.of_nat a -> di_k i * 2 ^ Z.of_nat a <= 2 ^ 28 ->
  - 2 ^ 28 <= di_k i * 2 ^ Z.of_nat a ->
  shrink_interval_left i a = Ok j -> dinf i = Ok lo -> dinf j = Ok lo' ->
  (to_param lo == to_param lo')%Q /\ di_n j = di_n i + Z.of_nat a /\ di_t j = di_t i.
Proof.
  intros i a j lo lo' H1 H2 H3 H4 H5 H6 Hj Hlo Hlo'.
  rewrite left_iter_eval in Hj by auto. injection Hj as <-. cbn [di_n di_t]. split; [|auto].
  destruct i as [k n t]. unfold dinf, dexcluded, dincluded, di_d, unit in *; cbn [di_k di_n di_t] in *.
  destruct t; cbn [di_k di_n unit_t] in *.
  - injection Hlo as <-. injection Hlo' as <-. rewrite !to_param_dy; cbn [mult power].
    apply dy_scale; lia.
  - apply i32_bind in Hlo as [Hlo _]. apply i32_bind in Hlo' as [Hlo' _].
    injection Hlo as <-. injection Hlo' as <-. rewrite !to_param_dy; cbn [mult power].
    rewrite (dy_scale (k + -1) n (Z.of_nat a)) by lia.
    replace ((k - 1) * 2 ^ Z.of_nat a + 1 + -1) with ((k + -1) * 2 ^ Z.of_nat a) by ring. reflexivity.
Qed.

Lemma expand_of_half : forall i l r, di_t i = Clopen -> half_ok i ->
  shrink_interval_left i 1 = Ok l -> shrink_interval_right i = Ok r ->
  expand_interval l 1 = Ok i /\ expand_interval r 1 = Ok i.
Proof.
  intros [k n t] l r Ht Hi Hl Hr; cbn [di_t] in Ht; subst t.
  destruct (left_right_eval _ Hi) as [El Er]. rewrite El in Hl. rewrite Er in Hr.
  injection Hl as <-. injection Hr as <-. destruct Hi as [H1 H2]; cbn [di_k di_n di_t] in *.
  rewrite !expand_eval; cbn [di_k di_n di_t]; try (unfold small; lia); try lia.
  change (2 ^ 1) with 2. replace (n + 1 - 1) with n by lia.
  rewrite (Z.mul_comm 2 k), Z.div_mul by lia.
  assert (E : (k * 2 + 1) / 2 = k) by (rewrite Z.div_add_l by lia; change (1 / 2) with 0; lia).
  rewrite E. split; reflexivity.
Qed.

Lemma expand_opencl_type : forall i e p, di_t i = Opencl ->
  small (di_k i) -> - 2 ^ 29 <= di_n i <= 2 ^ 29 -> 0 <= e <= 30 ->
  expand_interval i e = Ok p -> di_t p = Clopen.
Proof.
  intros i e p Ht Hk Hn He H. rewrite expand_eval in H by auto. injection H as <-. reflexivity.
Qed.
Lemma expand_opencl_bad : exists i p x, di_t i = Opencl /\
  expand_interval i 1 = Ok p /\ di_pts i x /\ ~ di_pts p x.
Proof.
  exists (mkDI 2 0 Opencl), (mkDI 1 (-1) Clopen), (3 # 2)%Q. split; [reflexivity|]. split; [reflexivity|].
  unfold di_pts; cbn. split.
  - split; vm_compute; intuition discriminate.
  - intros [H _]. vm_compute in H. apply H. reflexivity.
Qed.

Lemma dissection_thm : forall inf sup tol,
  (inf <= sup)%Q -> - 2 ^ 28 <= tol <= 2 ^ 28 -> window inf tol -> window sup tol ->
  forall fuel, (31 <= fuel)%nat ->
  exists l, to_dyadic_intervals fuel inf sup tol Clopen = Ok l /\
    Forall (fun i => di_t i = Clopen /\ di_n i <= tol) l /\
    end_to_end (grid_floor inf tol) (grid_floor sup tol) (map (fun i => (di_k i, di_n i)) l) /\
    (forall x, (exists i, In i l /\ di_pts i x) <-> (grid_floor inf tol <= x /\ x < grid_floor sup tol)%Q).
Proof.
  intros inf sup tol H1 H2 H3 H4 fuel Hf.
  destruct (dissection_correct inf sup tol H1 H2 H3 H4 fuel Hf) as (l & Hl & Hall & He).
  exists l. split; [auto|split; [auto|split; [exact He|]]]. intros x. split.
  - intros (i & Hin & Hp). apply (end_to_end_points _ _ _ x He). exists (cell i). split; [apply in_map; auto|].
    rewrite Forall_forall in Hall. destruct (Hall i Hin) as [Ht _]. unfold di_pts in Hp. rewrite Ht in Hp. exact Hp.
  - intros Hx. apply (end_to_end_points _ _ _ x He) in Hx as (c & Hc & Hp).
    apply in_map_iff in Hc as (i & <- & Hin). exists i. split; auto.
    rewrite Forall_forall in Hall. destruct (Hall i Hin) as [Ht _]. unfold di_pts. rewrite Ht. exact Hp.
Qed.

Lemma key_order : forall a b c,
  di_t a = di_t b -> di_t b = di_t c ->
  (di_lt a a <> Ok true) /\
  (forall ac, di_lt a b = Ok true -> di_lt b c = Ok true -> di_lt a c = Ok ac -> ac = true) /\
  (di_lt a b = Ok false -> di_lt b a = Ok false -> a = b).
Proof.
  intros a b c H1 H2. split; [|split].
  - intros H. apply di_lt_before in H; auto. apply (di_before_irrefl a). apply H; auto.
  - intros ac Hab Hbc Hac. apply di_lt_before in Hab, Hbc, Hac; auto; [|congruence].
    apply Hac. eapply di_before_trans; eauto; [apply Hab|apply Hbc]; auto.
  - intros Hab Hba. apply di_lt_before in Hab; auto. apply di_lt_before in Hba; auto.
    apply di_before_total; auto; intros HH; [apply Hab in HH|apply Hba in HH]; discriminate.
Qed.

(** *** Shifts *)
Lemma dy_add a b n : (dy (a + b) n == dy a n + dy b n)%Q.
Proof. unfold dy. rewrite inject_Z_plus. ring. Qed.
(** One step in the direction of the interval's type: right for clopen, left for
    open-closed. *)
Definition along (t : itype) (a : Z) : Z := match t with Clopen => a | Opencl => - a end.
Lemma pts_shift i j s : di_n j = di_n i -> di_t j = di_t i -> di_k j = di_k i + s -> forall x, di_pts j x <-> di_pts i (x - dy s (di_n i)).
Proof.
  intros En Et Ek x. unfold di_pts. rewrite Et, En, Ek. destruct (di_t i).
  - unfold clopen_pts. replace (di_k i + s + 1) with (di_k i + 1 + s) by lia. rewrite !(dy_add _ s). split; intros []; split; lra.
  - unfold opencl_pts. replace (di_k i + s - 1) with (di_k i - 1 + s) by lia. rewrite !(dy_add _ s). split; intros []; split; lra.
Qed.
Lemma pts_shift' i j s : di_n j = di_n i -> di_t j = di_t i -> di_k j = di_k i - s -> forall x, di_pts j x <-> di_pts i (x + dy s (di_n i)).
Proof.
  intros En Et Ek x. unfold di_pts. rewrite Et, En, Ek. destruct (di_t i).
  - unfold clopen_pts. assert (E := dy_add (di_k i - s) s (di_n i)). assert (E2 := dy_add (di_k i - s + 1) s (di_n i)). replace (di_k i - s + s) with (di_k i) in E by lia. replace (di_k i - s + 1 + s) with (di_k i + 1) in E2 by lia. rewrite E, E2. split; intros []; split; lra.
  - unfold opencl_pts. assert (E := dy_add (di_k i - s) s (di_n i)). assert (E2 := dy_add (di_k i - s - 1) s (di_n i)). replace (di_k i - s + s) with (di_k i) in E by lia. replace (di_k i - s - 1 + s) with (di_k i - 1) in E2 by lia. rewrite E, E2. split; intros []; split; lra.
Qed.
Lemma shift_translates i a j :
  (shift_back i a = Ok j -> di_t j = di_t i /\ di_n j = di_n i /\ forall x, di_pts j x <-> di_pts i (x - dy (along (di_t i) a) (di_n i))) /\
  (shift_forward i a = Ok j -> di_t j = di_t i /\ di_n j = di_n i /\ forall x, di_pts j x <-> di_pts i (x + dy (along (di_t i) a) (di_n i))) /\
  (advance i = Ok j -> di_t j = di_t i /\ di_n j = di_n i /\ forall x, di_pts j x <-> di_pts i (x - dy (along (di_t i) 1) (di_n i))).
Proof.
  assert (I : forall z (f : Z -> outcome dint) r, (let! x := i32 z in f x) = Ok r -> f z = Ok r) by (intros z f r; destruct (i32 z) eqn:E; cbn; try discriminate; apply i32_inv in E; destruct E as [-> _]; auto).
  split; [|split]; intros H; unfold shift_back, shift_forward, advance, unit in H; repeat apply I in H; injection H as <-; split; auto; split; auto.
  - apply pts_shift; auto; cbn; destruct (di_t i); cbn [unit_t along]; lia.
  - apply pts_shift'; auto; cbn; destruct (di_t i); cbn [unit_t along]; lia.
  - apply pts_shift; auto; cbn; destruct (di_t i); cbn [unit_t along]; lia.
Qed.
Lemma shift_exists i a : small (di_k i) -> small (di_k i - along (di_t i) a) -> small a -> exists j, shift_forward i a = Ok j.
Proof.
  unfold small. intros H1 H2 H3. unfold shift_forward, unit. rewrite i32_ok by (unfold INT_MIN, INT_MAX; destruct (di_t i); cbn; lia). cbn [bind].
  rewrite i32_ok by (unfold INT_MIN, INT_MAX; destruct (di_t i); cbn in *; lia). cbn [bind]. eauto.
Qed.
