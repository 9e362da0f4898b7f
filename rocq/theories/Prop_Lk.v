(** Property theorem C80: Lie keys of Python.  [means x t]: the object x is the bracket t written in nested
    lists; [stands d t]: the key with this data is written as t; [bracket K k t]: key k of the basis K is t. *)
From Verif Require Import LkModel LkSpec LkProofs LkEx.
From Verif Require LkHall HallSpec Mobius.
Open Scope Z_scope.

(** LieKey takes letters up to the width and nested lists of two of letters, and is written as these. *)
Theorem C80_construct : forall K x args t, (exists d, make_lie_key (Some K) (x :: args) = Ok d /\ stands d t) <-> means x t /\ forall a, t = L a -> a <= b_width K.
Proof. exact make_spec. Qed.
Print Assumptions C80_construct.
(** Everything else is an error. *)
Theorem C80_construct_or_error : forall K args, (exists d t, make_lie_key K args = Ok d /\ stands d t) \/ make_lie_key K args = Throw.
Proof. exact make_or. Qed.
Print Assumptions C80_construct_or_error.
Theorem C80_written_once : forall d t t', stands d t -> stands d t' -> t = t'.
Proof. exact stands_unique. Qed.
Print Assumptions C80_written_once.
(** Keys that come from a basis are written as their brackets. *)
Theorem C80_basis_key : forall K, right_basis K -> forall k, 1 <= k <= dimension K -> exists d t, key_of_basis K k = Ok d /\ bracket K k t /\ stands d t.
Proof. exact key_spec. Qed.
Print Assumptions C80_basis_key.
Theorem C80_one_bracket : forall K, right_basis K -> forall k t t', bracket K k t -> bracket K k t' -> t = t'.
Proof. intros K HK k t t'. exact (bracket_tree K HK _ k t t' (le_n _)). Qed.
Print Assumptions C80_one_bracket.
Theorem C80_one_key : forall K, right_basis K -> forall t k k', bracket K k t -> bracket K k' t -> k = k'.
Proof. exact bracket_unique. Qed.
Print Assumptions C80_one_key.
(** Hall sets are such bases. *)
Theorem C80_hall_sets : forall w N, 0 <= w -> 1 <= N < 46339 * 46339 -> N * w ^ N < Mobius.I64_MAX -> exists K, right_basis K /\ b_width K = w /\
  (forall t, (exists k, bracket K k (LkHall.as_bracket t)) <-> HallSpec.Hall w t /\ HallSpec.tdeg t <= N) /\
  (forall k k' t t', bracket K k (LkHall.as_bracket t) -> bracket K k' (LkHall.as_bracket t') -> (k < k' <-> HallSpec.tlt t t')).
Proof. exact LkHall.hall_bases. Qed.
Print Assumptions C80_hall_sets.
(** Iterating from key a on gives each key up to the last, or up to and with the end asked for. *)
Theorem C80_iterate : forall K a e fuel, right_basis K -> 1 <= a -> (Z.to_nat (Z.min e (dimension K) + 1 - a) < fuel)%nat ->
  exists ds, collect fuel (make_iter K a e) = Ok ds /\ Z.of_nat (length ds) = Z.max 0 (Z.min e (dimension K) + 1 - a) /\
  forall j d, nth_error ds j = Some d -> exists t, stands d t /\ bracket K (a + Z.of_nat j) t.
Proof. exact iterate_spec. Qed.
Print Assumptions C80_iterate.
Example C80_example : right_basis x_basis /\ means x_obj x_tree /\ bracket x_basis 9 x_tree /\
  (make_lie_key (Some x_basis) [x_obj] = Ok x_data /\ key_of_basis x_basis 9 = Ok x_data /\ to_string x_data = Ok (show x_tree)) /\
  exists ds, collect 10 (make_iter x_basis 1 (2 ^ 64 - 1)) = Ok ds /\ length ds = 9%nat /\ nth_error ds 8 = Some x_data.
Proof. exact (conj x_right (conj x_means (conj x_bracket (conj x_make x_iterate)))). Qed.

(** lie[key] for the key of a letter gives the coefficient of this letter; *)
Theorem C80_index_letter : forall K, right_basis K -> forall k d, 1 <= k <= b_width K -> key_of_basis K k = Ok d -> index_of K d = Ok k.
Proof. exact index_letter. Qed.
Print Assumptions C80_index_letter.
(** for the key of a bracket it never gives the coefficient of this bracket, *)
Theorem C80_index_refuted : forall K, right_basis K -> forall k t d, bracket K k t -> b_width K < k -> key_of_basis K k = Ok d -> index_of K d <> Ok k.
Proof. exact index_wrong. Qed.
Print Assumptions C80_index_refuted.
(** for [a,...] it gives that of the letter a. *)
Theorem C80_index_first : forall K x args a r d, means x (B (L a) r) -> make_lie_key (Some K) (x :: args) = Ok d -> index_of K d = Ok a.
Proof. exact index_first. Qed.
Print Assumptions C80_index_first.
Example C80_index_example : bracket x_basis 9 x_tree /\ index_of x_basis x_data = Ok 0 /\ index_of x_basis [Let 1; Let 2] = Ok 1 /\ index_of x_basis [Off 2; Let 2; Let 1; Let 2] = Ok 3.
Proof. exact (conj x_bracket x_index). Qed.
(** Brackets that the basis does not have are accepted, *)
Theorem C80_only_basis_refuted : forall K, exists x t d, make_lie_key (Some K) [x] = Ok d /\ stands d t /\ forall k, ~ bracket K k t.
Proof. exact not_hall. Qed.
Print Assumptions C80_only_basis_refuted.
(** so are letters beyond the width in lists, though not alone, *)
Theorem C80_width_refuted : forall K a, 0 <= b_width K < a -> a < 2 ^ 16 ->
  exists d, make_lie_key (Some K) [OList [OInt 1; OInt a]] = Ok d /\ stands d (B (L 1) (L a)) /\ make_lie_key (Some K) [OInt a] = Throw.
Proof. exact beyond. Qed.
Print Assumptions C80_width_refuted.
(** and the letter 0. *)
Theorem C80_letter_zero_refuted : forall K, 0 <= b_width K -> exists d, make_lie_key (Some K) [OInt 0] = Ok d /\ stands d (L 0) /\ index_of K d = Ok 0.
Proof. exact zero. Qed.
Print Assumptions C80_letter_zero_refuted.
