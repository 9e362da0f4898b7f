(** C41, C42: polynomials and monomials of the platform's exact scalar types. *)
From Verif Require Import PolySpec PolyProofs PolyProofs2.
Open Scope Z_scope.

(** *** C42: the order on monomials *)
Definition x0 : mono := [(0, 1)].
Definition x1 : mono := [(1, 1)].
Definition x0x1 : mono := [(0, 1); (1, 1)].
Definition x0x2 : mono := [(0, 1); (2, 1)].

(** Exactly one of [a < b], [a == b], [b < a] answers true; [==] is equality, [<] is transitive:
    [<] is a strict total order, as a map key needs. *)
Theorem C42_total : forall a b : mono,
  (mono_lt a b = true /\ mono_eqb a b = false /\ mono_lt b a = false) \/
  (mono_lt a b = false /\ mono_eqb a b = true /\ mono_lt b a = false) \/
  (mono_lt a b = false /\ mono_eqb a b = false /\ mono_lt b a = true).
Proof. exact mono_lt_trichotomy. Qed.
Print Assumptions C42_total.

Theorem C42_transitive : forall a b c : mono, mono_lt a b = true -> mono_lt b c = true -> mono_lt a c = true.
Proof. exact mono_lt_trans. Qed.
Print Assumptions C42_transitive.

Theorem C42_equal : forall a b : mono, mono_eqb a b = true <-> a = b.
Proof. exact mono_eqb_spec. Qed.
Print Assumptions C42_equal.

(** A lower degree always comes first. *)
Theorem C42_graded : forall a b : mono, degree a < degree b -> mono_lt a b = true /\ mono_le a b = true.
Proof. exact (fun a b H => conj (proj2 (mono_lt_spec a b) (or_introl H)) (proj2 (mono_le_spec a b) (or_introl H))). Qed.
Print Assumptions C42_graded.
Example C42_ex : mono_lt x1 x0x2 = true /\ mono_lt x0x1 x0x2 = true /\ mono_lt x0 x1 = true.
Proof. repeat split. Qed.

(** What [<=] answers: at equal degrees only the first factors are compared. It holds whenever
    [<] does. *)
Theorem C42_le : forall a b : mono, mono_le a b = true <->
  degree a < degree b \/
  (degree a = degree b /\
   match a, b with
   | [], [] => False
   | [], _ :: _ => True
   | _ :: _, [] => False
   | (x, e) :: _, (y, f) :: _ => x < y \/ (x = y /\ e <= f)
   end).
Proof. intros a b. rewrite mono_le_spec. destruct a as [|[x e] a], b as [|[y f] b]; reflexivity. Qed.
Print Assumptions C42_le.

Theorem C42_lt_le : forall a b : mono, mono_lt a b = true -> mono_le a b = true.
Proof. exact mono_lt_le. Qed.
Print Assumptions C42_lt_le.

(** Hence [<=] is not "less or equal", nor [>] its converse: the constant monomial is not [<=] itself,
    and distinct monomials of one degree with the same first factor are [<=] both ways. *)
Theorem C42_le_refuted :
  (forall a : mono, mono_le a a = true <-> a <> []) /\
  (forall x a b, degree (x :: a) = degree (x :: b) -> mono_le (x :: a) (x :: b) = true /\ mono_le (x :: b) (x :: a) = true).
Proof. exact (conj mono_le_refl mono_le_both). Qed.
Print Assumptions C42_le_refuted.
Example C42_le_refuted_ex : mono_le [] [] = false /\ mono_gt [] [] = true /\ mono_le x0x2 x0x1 = true /\ mono_lt x0x1 x0x2 = true /\ mono_gt x0x2 x0x1 = false.
Proof. repeat split. Qed.

(** Nor is the order compatible with products. *)
Theorem C42_multiplicative_refuted : exists a b c, mono_ok a /\ mono_ok b /\ mono_ok c /\
  mono_lt a b = true /\ mono_lt (mtimes c a) (mtimes c b) = false /\ mtimes c a <> mtimes c b.
Proof. exact not_multiplicative. Qed.
Print Assumptions C42_multiplicative_refuted.

(** Reading an exponent. *)
Theorem C42_exponent : forall m x, mono_ok m -> exponent m x = Ok (expo m x).
Proof. exact exponent_ok. Qed.
Print Assumptions C42_exponent.
Example C42_exponent_ex : mono_ok x0x2 /\ exponent x0x2 2 = Ok 1 /\ exponent x0x2 1 = Ok 0.
Proof. repeat split. repeat constructor; cbn; reflexivity. Qed.

(** Indeterminates: the prefix (any [char]) and an index below 2^56 are recovered, and the order is by
    the prefix read as an unsigned byte, then by index. *)
Theorem C42_indeterminate : forall c i, -128 <= c < 128 -> 0 <= i < 2 ^ 56 -> indet_prefix (indet c i) = c /\ indet_index (indet c i) = i.
Proof. exact indet_round. Qed.
Print Assumptions C42_indeterminate.

Theorem C42_indeterminate_order : forall c i c' i', -128 <= c < 128 -> -128 <= c' < 128 -> 0 <= i < 2 ^ 56 -> 0 <= i' < 2 ^ 56 ->
  (indet c i <? indet c' i') = true <-> c mod 256 < c' mod 256 \/ (c = c' /\ i < i').
Proof. exact indet_order. Qed.
Print Assumptions C42_indeterminate_order.
Example C42_indeterminate_ex : indet_prefix (indet 120 12) = 120 /\ indet_index (indet 120 12) = 12 /\ indet_prefix (indet (-3) 7) = -3.
Proof. repeat split. Qed.

(** *** C41: arithmetic *)
Definition pxy : poly := [(x0, Q2Qc (1 # 2)); (x1, Q2Qc (3 # 1))].
Definition p0 : poly := [(x0, Q2Qc (1 # 3))].
Lemma pxy_ok : poly_ok pxy.
Proof. split; [repeat constructor|split; repeat constructor; cbn; try discriminate]. Qed.
Lemma p0_ok : poly_ok p0.
Proof. split; [repeat constructor|split; repeat constructor; cbn; try discriminate]. Qed.

(** The product of two monomials, in place: defined exactly if all indeterminates of the right factor
    but its last occur in the left one; then it is the product. *)
Theorem C41_monomial : forall a b, mono_ok a -> mono_ok b ->
  (mono_safe a b -> exists m, mono_mul_inplace a b = Ok m /\ is_product a b m) /\
  (~ mono_safe a b -> mono_mul_inplace a b = UB).
Proof. exact mono_mul_ok. Qed.
Print Assumptions C41_monomial.
Example C41_monomial_ex : mono_mul_inplace x0 x0x2 = Ok [(0, 2); (2, 1)] /\ mono_mul_inplace x1 x0x2 = UB.
Proof. repeat split. Qed.

(** There is exactly one product, the one obtained by merging. *)
Theorem C41_product_unique : forall a b m, mono_ok a -> mono_ok b -> is_product a b m <-> m = mtimes a b.
Proof. exact (fun a b m Ha Hb => conj (product_unique a b m Ha Hb) (fun E => eq_ind_r (is_product a b) (mtimes_product a b Ha Hb) E)). Qed.
Print Assumptions C41_product_unique.

(** Sum and difference, in place: defined exactly if every term of the right operand but the last is
    about a monomial the left operand has, and does not cancel it; then the coefficients are the sums
    (differences) and the result is in normal form. *)
Theorem C41_add : forall p q, poly_ok p -> poly_ok q ->
  (poly_safe (fun c => c) p q -> exists r, poly_add_inplace p q = Ok r /\ poly_ok r /\ forall m, coeff r m = (coeff p m + coeff q m)%Qc) /\
  (~ poly_safe (fun c => c) p q -> poly_add_inplace p q = UB).
Proof. exact add_ok. Qed.
Print Assumptions C41_add.

Theorem C41_sub : forall p q, poly_ok p -> poly_ok q ->
  (poly_safe Qcopp p q -> exists r, poly_sub_inplace p q = Ok r /\ poly_ok r /\ forall m, coeff r m = (coeff p m - coeff q m)%Qc) /\
  (~ poly_safe Qcopp p q -> poly_sub_inplace p q = UB).
Proof. exact sub_ok. Qed.
Print Assumptions C41_sub.
Example C41_add_ex : poly_safe (fun c => c) pxy p0 /\ poly_add_inplace pxy p0 = Ok [(x0, Q2Qc (5 # 6)); (x1, Q2Qc (3 # 1))].
Proof. split; [intros m c []|reflexivity]. Qed.

(** So adding any polynomial with two or more terms to zero is undefined behaviour. *)
Theorem C41_add_refuted : forall p, poly_ok p -> (2 <= length p)%nat -> poly_add_inplace [] p = UB /\ poly_sub_inplace [] p = UB.
Proof. exact add_to_zero. Qed.
Print Assumptions C41_add_refuted.
Example C41_add_refuted_ex : poly_ok pxy /\ (2 <= length pxy)%nat. Proof. split; [exact pxy_ok|cbn; auto]. Qed.

(** Product, in place: defined exactly if every product of monomials is; then the coefficients are
    those of the product polynomial, with no zero stored. *)
Theorem C41_mul : forall p q, poly_ok p -> poly_ok q ->
  ((forall s t, In s p -> In t q -> mono_safe (fst s) (fst t)) -> exists r, poly_mul_inplace p q = Ok r /\ poly_ok r /\ forall m, coeff r m = prod_coeff p q m) /\
  ((exists s t, In s p /\ In t q /\ ~ mono_safe (fst s) (fst t)) -> poly_mul_inplace p q = UB).
Proof. exact mul_ok. Qed.
Print Assumptions C41_mul.

(** In particular for a right operand whose monomials are powers of single indeterminates. *)
Theorem C41_mul_single : forall p q, poly_ok p -> poly_ok q -> (forall t, In t q -> (length (fst t) <= 1)%nat) ->
  exists r, poly_mul_inplace p q = Ok r /\ poly_ok r /\ forall m, coeff r m = prod_coeff p q m.
Proof. exact (fun p q P Q H => proj1 (mul_ok p q P Q) (fun s t _ It => single_safe (fst s) (fst t) (H t It))). Qed.
Print Assumptions C41_mul_single.
Example C41_mul_ex : exists r, poly_mul_inplace pxy pxy = Ok r /\ map (fun t => (fst t, this (snd t))) r = [(x0x1, (3 # 1)%Q); ([(0, 2)], (1 # 4)%Q); ([(1, 2)], (9 # 1)%Q)].
Proof. eexists. split; reflexivity. Qed.

(** One is a right unit, but not a left one: it cannot be multiplied by a polynomial with a monomial
    in two indeterminates. *)
Theorem C41_mul_refuted :
  (forall p, poly_ok p -> exists r, poly_mul_inplace p poly_one = Ok r /\ r = p) /\
  (forall p k c, poly_ok p -> In (k, c) p -> (2 <= length k)%nat -> poly_mul_inplace poly_one p = UB).
Proof. exact (conj times_one one_times). Qed.
Print Assumptions C41_mul_refuted.
Example C41_mul_refuted_ex : poly_ok [(x0x1, 1%Qc)] /\ poly_mul_inplace poly_one [(x0x1, 1%Qc)] = UB.
Proof. split; [split; [repeat constructor|split; repeat constructor; cbn; try discriminate]|reflexivity]. Qed.

(** Division by a rational: throws at zero, else divides every coefficient. *)
Theorem C41_div : forall p c, poly_ok p ->
  (c = 0%Qc -> poly_div_inplace p c = Throw) /\
  (c <> 0%Qc -> exists r, poly_div_inplace p c = Ok r /\ poly_ok r /\ forall m, coeff r m = (coeff p m / c)%Qc).
Proof. exact div_ok. Qed.
Print Assumptions C41_div.
Example C41_div_ex : exists r, poly_div_inplace pxy (Q2Qc (1 # 2)) = Ok r /\ map (fun t => (fst t, this (snd t))) r = [(x0, (1 # 1)%Q); (x1, (6 # 1)%Q)].
Proof. eexists. split; reflexivity. Qed.

(** Equality, zero test, constancy and degree depend on the coefficients only, and as expected. *)
Theorem C41_equal : forall p q, poly_ok p -> poly_ok q -> poly_cmp_equal p q = true <-> forall m, coeff p m = coeff q m.
Proof. exact cmp_equal_spec. Qed.
Print Assumptions C41_equal.

Theorem C41_zero : forall p, poly_ok p -> poly_cmp_is_zero p = true <-> forall m, coeff p m = 0%Qc.
Proof. exact is_zero_spec. Qed.
Print Assumptions C41_zero.

Theorem C41_constant : forall p, poly_ok p -> is_constant p = true <-> forall m, m <> [] -> coeff p m = 0%Qc.
Proof. exact is_constant_spec. Qed.
Print Assumptions C41_constant.

Theorem C41_degree : forall p, poly_ok p ->
  0 <= poly_degree p /\
  (forall m, coeff p m <> 0%Qc -> degree m <= poly_degree p) /\
  (0 < poly_degree p -> exists m, coeff p m <> 0%Qc /\ degree m = poly_degree p).
Proof. exact degree_ok. Qed.
Print Assumptions C41_degree.
Example C41_equal_ex : poly_ok pxy /\ poly_ok p0 /\ poly_cmp_equal pxy p0 = false /\ is_constant poly_one = true /\ poly_degree pxy = 1.
Proof. split; [exact pxy_ok|]. split; [exact p0_ok|]. repeat split. Qed.
