(** Property theorems C01 - C07: dyadic numbers and dyadic intervals. *)
From Verif Require Import Outcome DyadicModel DyadicSpec DyadicProofs DyadicProofs2 DyadicProofs3 DyadicLemmas DyadicMax.
From Coq Require Import QArith Qround Qpower.
Open Scope Z_scope.

(** ** C01 *)
Theorem C01_rebase_preserves_value : forall d res d' b,
  rebase d res = Ok (d', b) -> (dy (mult d') (power d') == dy (mult d) (power d))%Q.
Proof. exact rebase_value. Qed.
Print Assumptions C01_rebase_preserves_value.
Example C01_ex1 : rebase (mkD (-24) 5) 1 = Ok (mkD (-3) 2, false). Proof. reflexivity. Qed.

(** The flag: with c the requested resolution, or power-30 when the request is 31 or
    more below the power (the clamp in the code). *)
Theorem C01_rebase_flag : forall k n res d' b,
  rebase (mkD k n) res = Ok (d', b) ->
  (k = 0 \/ n <= res -> b = true /\ power d' = res) /\
  (k <> 0 -> res < n < res + 31 -> (b = true <-> power d' = res)) /\
  (k <> 0 -> res + 31 <= n -> (b = true <-> power d' = n - 30)).
Proof. exact rebase_flag_thm. Qed.
Print Assumptions C01_rebase_flag.

(** When the power is lowered, it is lowered as far as exactness allows. *)
Theorem C01_rebase_coarsest : forall k n res d' b,
  k <> 0 -> res < n -> small n -> small res ->
  rebase (mkD k n) res = Ok (d', b) ->
  Z.max res (n - 30) <= power d' <= n /\
  forall p j, Z.max res (n - 30) <= p < power d' -> ~ (dy j p == dy k n)%Q.
Proof. exact rebase_coarsest. Qed.
Print Assumptions C01_rebase_coarsest.
Example C01_ex2 : -24 <> 0 /\ 1 < 5 /\ small 5 /\ small 1. Proof. unfold small; lia. Qed.

(** No undefined behaviour for moderate inputs. *)
Theorem C01_rebase_total : forall k n res,
  small n -> small res -> (n <= res -> res - n <= 30 /\ INT_MIN <= k * 2 ^ (res - n) <= INT_MAX) ->
  exists d' b, rebase (mkD k n) res = Ok (d', b).
Proof. exact rebase_total. Qed.
Print Assumptions C01_rebase_total.

(** The true flag can be reported at a power different from the requested one. *)
Theorem C01_rebase_clamp_refuted : exists d res d',
  rebase d res = Ok (d', true) /\ power d' <> res.
Proof. exact rebase_clamp_witness. Qed.
Print Assumptions C01_rebase_clamp_refuted.

(** ** C02 *)
Theorem C02_rational_equals : forall l r b,
  rational_equals l r = Ok b ->
  (b = true <-> (dy (mult l) (power l) == dy (mult r) (power r))%Q).
Proof. exact rational_equals_correct. Qed.
Print Assumptions C02_rational_equals.
Theorem C02_rational_equals_total : forall l r,
  INT_MIN < mult l <= INT_MAX -> INT_MIN < mult r <= INT_MAX -> Z.abs (power l - power r) <= 30 ->
  exists b, rational_equals l r = Ok b.
Proof. exact rational_equals_total. Qed.
Print Assumptions C02_rational_equals_total.
Theorem C02_dyadic_equals : forall l r, dyadic_equals l r = true <-> l = r.
Proof. exact dyadic_equals_iff. Qed.
Print Assumptions C02_dyadic_equals.
Theorem C02_order_same_power : forall l r,
  power l = power r -> INT_MIN <= mult r <= INT_MAX ->
  (d_lt l r = Ok true <-> (dy (mult l) (power l) < dy (mult r) (power r))%Q) /\
  (d_le l r = Ok true <-> (dy (mult l) (power l) <= dy (mult r) (power r))%Q) /\
  (d_gt l r = Ok true <-> (dy (mult r) (power r) < dy (mult l) (power l))%Q) /\
  (d_ge l r = Ok true <-> (dy (mult r) (power r) <= dy (mult l) (power l))%Q).
Proof. exact order_same_power. Qed.
Print Assumptions C02_order_same_power.
Theorem C02_order_refuted : exists l r,
  d_lt l r = Ok true /\ d_le l r = Ok true /\ (dy (mult r) (power r) < dy (mult l) (power l))%Q.
Proof. exact order_witness. Qed.
Print Assumptions C02_order_refuted.
(** For positive numbers the operator is wrong in a whole region: same multiplier,
    coarser power on the left. *)
Theorem C02_order_refuted_everywhere : forall k n e,
  0 < k -> 0 < e <= 30 -> k * 2 ^ e <= INT_MAX -> small n -> small (n + e) ->
  d_lt (mkD k n) (mkD k (n + e)) = Ok true /\ (dy k (n + e) < dy k n)%Q.
Proof. exact order_wrong_region. Qed.
Print Assumptions C02_order_refuted_everywhere.

(** ** C03 *)
Theorem C03_interval_of_param : forall x n t i,
  di_of_param x n t = Ok i ->
  di_n i = n /\ di_t i = t /\ di_pts i x /\
  (forall j, di_n j = n -> di_t j = t -> di_pts j x -> j = i).
Proof. exact di_of_param_spec. Qed.
Print Assumptions C03_interval_of_param.
Example C03_ex : di_of_param (-13 # 8) 2 Opencl = Ok (mkDI (-6) 2 Opencl). Proof. reflexivity. Qed.
Theorem C03_ends : forall i lo hi, dinf i = Ok lo -> dsup i = Ok hi ->
  (to_param hi - to_param lo == Qpower 2 (- di_n i))%Q /\ (to_param lo < to_param hi)%Q /\
  (forall x, di_pts i x <->
     match di_t i with Clopen => to_param lo <= x /\ x < to_param hi
                     | Opencl => to_param lo < x /\ x <= to_param hi end)%Q.
Proof. exact ends_spec. Qed.
Print Assumptions C03_ends.

(** ** C04 *)
Theorem C04_contains_dyadic : forall i o b,
  di_t o = di_t i -> small (di_k o) -> contains_dyadic i o = Ok b ->
  (b = true <-> forall x, di_pts o x -> di_pts i x).
Proof. exact contains_dyadic_thm. Qed.
Print Assumptions C04_contains_dyadic.
Example C04_ex : contains_dyadic (mkDI (-2) 1 Opencl) (mkDI (-11) 3 Opencl) = Ok true. Proof. reflexivity. Qed.
Theorem C04_contains_dyadic_total : forall i o,
  di_t o = di_t i -> 0 <= di_n o - di_n i <= 30 ->
  small (di_k o) -> INT_MIN <= di_k i * 2 ^ (di_n o - di_n i) <= INT_MAX ->
  exists b, contains_dyadic i o = Ok b.
Proof. exact contains_dyadic_total. Qed.
Print Assumptions C04_contains_dyadic_total.
Theorem C04_type_mismatch : forall i o, di_t o <> di_t i -> contains_dyadic i o = Ok false.
Proof. exact contains_dyadic_types. Qed.
Print Assumptions C04_type_mismatch.
Theorem C04_nested_or_disjoint : forall i o,
  di_t o = di_t i ->
  (forall x, di_pts o x -> di_pts i x) \/ (forall x, di_pts i x -> di_pts o x) \/
  (forall x, ~ (di_pts i x /\ di_pts o x)).
Proof. exact nested_or_disjoint. Qed.
Print Assumptions C04_nested_or_disjoint.

(** ** C05 *)
Theorem C05_halves : forall i l r, half_ok i ->
  shrink_interval_left i 1 = Ok l -> shrink_interval_right i = Ok r ->
  (forall x, di_pts i x <-> di_pts l x \/ di_pts r x) /\
  (forall x, ~ (di_pts l x /\ di_pts r x)) /\
  (forall x y, di_pts l x -> di_pts r y -> (x < y)%Q).
Proof. exact halves_partition. Qed.
Print Assumptions C05_halves.
Theorem C05_halves_exist : forall i, half_ok i ->
  exists l r, shrink_interval_left i 1 = Ok l /\ shrink_interval_right i = Ok r /\
    di_n l = di_n i + 1 /\ di_n r = di_n i + 1 /\ di_t l = di_t i /\ di_t r = di_t i.
Proof. exact halves_exist. Qed.
Print Assumptions C05_halves_exist.
Example C05_ex : half_ok (mkDI (-5) 3 Opencl) /\
  shrink_interval_left (mkDI (-5) 3 Opencl) 1 = Ok (mkDI (-11) 4 Opencl) /\
  shrink_interval_right (mkDI (-5) 3 Opencl) = Ok (mkDI (-10) 4 Opencl).
Proof. split; [unfold half_ok; cbn; lia|split; reflexivity]. Qed.
(** Repeated left-shrinking keeps the infimum. *)
Theorem C05_left_shrink_keeps_inf : forall i (a : nat) j lo lo',
  - 2 ^ 28 <= di_n i -> di_n i + Z.of_nat a <= 2 ^ 28 -> (a <= 28)%nat ->
  - 2 ^ 28 <= (di_k i - 1) * 2 ^ Z.of_nat a -> di_k i * 2 ^ Z.of_nat a <= 2 ^ 28 ->
  - 2 ^ 28 <= di_k i * 2 ^ Z.of_nat a ->
  shrink_interval_left i a = Ok j -> dinf i = Ok lo -> dinf j = Ok lo' ->
  (to_param lo == to_param lo')%Q /\ di_n j = di_n i + Z.of_nat a /\ di_t j = di_t i.
Proof. exact left_shrink_inf. Qed.
Print Assumptions C05_left_shrink_keeps_inf.
Theorem C05_expand_clopen : forall i e p, di_t i = Clopen ->
  small (di_k i) -> - 2 ^ 29 <= di_n i <= 2 ^ 29 -> 0 <= e <= 30 ->
  expand_interval i e = Ok p ->
  di_n p = di_n i - e /\ di_t p = Clopen /\ (forall x, di_pts i x -> di_pts p x) /\
  (forall q, di_n q = di_n i - e -> di_t q = Clopen -> (forall x, di_pts i x -> di_pts q x) -> q = p).
Proof. exact expand_contains. Qed.
Print Assumptions C05_expand_clopen.
Theorem C05_expand_of_half : forall i l r, di_t i = Clopen -> half_ok i ->
  shrink_interval_left i 1 = Ok l -> shrink_interval_right i = Ok r ->
  expand_interval l 1 = Ok i /\ expand_interval r 1 = Ok i.
Proof. exact expand_of_half. Qed.
Print Assumptions C05_expand_of_half.
Theorem C05_expand_opencl_changes_type : forall i e p, di_t i = Opencl ->
  small (di_k i) -> - 2 ^ 29 <= di_n i <= 2 ^ 29 -> 0 <= e <= 30 ->
  expand_interval i e = Ok p -> di_t p = Clopen.
Proof. exact expand_opencl_type. Qed.
Print Assumptions C05_expand_opencl_changes_type.
(** shift_back and advance move a clopen interval right and an open-closed interval left;
    shift_forward does the opposite. *)
Theorem C05_shifts : forall i a j,
  (shift_back i a = Ok j -> di_t j = di_t i /\ di_n j = di_n i /\ forall x, di_pts j x <-> di_pts i (x - dy (along (di_t i) a) (di_n i))) /\
  (shift_forward i a = Ok j -> di_t j = di_t i /\ di_n j = di_n i /\ forall x, di_pts j x <-> di_pts i (x + dy (along (di_t i) a) (di_n i))) /\
  (advance i = Ok j -> di_t j = di_t i /\ di_n j = di_n i /\ forall x, di_pts j x <-> di_pts i (x - dy (along (di_t i) 1) (di_n i))).
Proof. exact shift_translates. Qed.
Print Assumptions C05_shifts.
Example C05_shift_ex : shift_forward (mkDI 5 2 Clopen) 3 = Ok (mkDI 2 2 Clopen) /\ advance (mkDI 5 2 Opencl) = Ok (mkDI 4 2 Opencl).
Proof. split; reflexivity. Qed.
Theorem C05_expand_opencl_refuted : exists i p x, di_t i = Opencl /\
  expand_interval i 1 = Ok p /\ di_pts i x /\ ~ di_pts p x.
Proof. exact expand_opencl_bad. Qed.
Print Assumptions C05_expand_opencl_refuted.

(** ** C06 *)
Theorem C06_dissection : forall inf sup tol,
  (inf <= sup)%Q -> - 2 ^ 28 <= tol <= 2 ^ 28 -> window inf tol -> window sup tol ->
  forall fuel, (31 <= fuel)%nat ->
  exists l, to_dyadic_intervals fuel inf sup tol Clopen = Ok l /\
    Forall (fun i => di_t i = Clopen /\ di_n i <= tol) l /\
    end_to_end (grid_floor inf tol) (grid_floor sup tol) (map (fun i => (di_k i, di_n i)) l) /\
    (forall x, (exists i, In i l /\ di_pts i x) <-> (grid_floor inf tol <= x /\ x < grid_floor sup tol)%Q).
Proof. exact dissection_thm. Qed.
Print Assumptions C06_dissection.
Example C06_ex : to_dyadic_intervals 31 (-3#4) (5#2) 3 Clopen =
  Ok [mkDI (-3) 2 Clopen; mkDI (-1) 1 Clopen; mkDI 0 (-1) Clopen; mkDI 4 1 Clopen] /\
  window (-3#4) 3 /\ window (5#2) 3.
Proof. split; [vm_compute; reflexivity|]. unfold window; vm_compute; intuition discriminate. Qed.
(** No returned interval can be replaced by a coarser one: every coarser dyadic interval
    that contains it leaves the range. *)
Theorem C06_coarsest : forall inf sup tol,
  (inf <= sup)%Q -> - 2 ^ 28 <= tol <= 2 ^ 28 -> window inf tol -> window sup tol ->
  forall fuel l, (31 <= fuel)%nat -> to_dyadic_intervals fuel inf sup tol Clopen = Ok l ->
  forall i k n, In i l -> n < di_n i -> (forall x, di_pts i x -> clopen_pts k n x) ->
  exists x, clopen_pts k n x /\ ~ (grid_floor inf tol <= x /\ x < grid_floor sup tol)%Q.
Proof. exact dissection_coarsest. Qed.
Print Assumptions C06_coarsest.
Theorem C06_opencl_refuted : forall inf sup tol,
  ~ Qceiling (inf * Qpower 2 tol) = Qceiling (sup * Qpower 2 tol) ->
  small (Qceiling (inf * Qpower 2 tol)) -> small (Qceiling (sup * Qpower 2 tol)) ->
  forall fuel l, to_dyadic_intervals fuel inf sup tol Opencl <> Ok l.
Proof. exact opencl_dissection_never. Qed.
Print Assumptions C06_opencl_refuted.
Example C06_opencl_ex : ~ Qceiling ((1#4) * Qpower 2 3) = Qceiling ((7#4) * Qpower 2 3). Proof. vm_compute; discriminate. Qed.

(** ** C07 *)
Theorem C07_key_order_strict : forall a b c,
  di_t a = di_t b -> di_t b = di_t c ->
  (di_lt a a <> Ok true) /\
  (forall ac, di_lt a b = Ok true -> di_lt b c = Ok true -> di_lt a c = Ok ac -> ac = true) /\
  (di_lt a b = Ok false -> di_lt b a = Ok false -> a = b).
Proof. exact key_order. Qed.
Print Assumptions C07_key_order_strict.
Theorem C07_key_order_meaning : forall l r b, di_t l = di_t r -> di_lt l r = Ok b ->
  (b = true <-> di_before l r).
Proof. exact di_lt_before. Qed.
Print Assumptions C07_key_order_meaning.
Example C07_ex : di_lt (mkDI 1 0 Clopen) (mkDI 2 1 Clopen) = Ok true /\
  di_lt (mkDI 2 1 Clopen) (mkDI 5 2 Clopen) = Ok true. Proof. split; reflexivity. Qed.
