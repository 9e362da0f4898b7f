(** Property theorem C79: tensor keys of Python.  [word_of k l]: the letters of the key k are l, all from 1 to
    the width; [usual k]: the word of k has at most as many letters as the depth says, and 64 bits are
    enough to number such words; [before]: by length, then letter by letter. *)
From Verif Require Import TkModel TkSpec TkProofs TkTop TkEx.
Open Scope Z_scope.

(** Which calls of TensorKey make which keys.  (Contexts are taken to exist only where the words can be
    numbered.) *)
Theorem C79_construct : forall (context : Z -> Z -> bool) none a, (forall w d, context w d = true -> fits w d) ->
  (none = true -> index a <> None -> width a <> Some 1) -> (none = false \/ index a = None -> ~ In 0 (given a)) -> forall k,
  (construct context none a = Ok k <->
   exists w d l, stands_for none a w d l /\ context w d = true /\ tk_width k = w /\ tk_depth k = d /\ word_of k l /\ 0 <= tk_key k < number w (Z.to_nat d)).
Proof. exact construct_spec. Qed.
Print Assumptions C79_construct.
Example C79_construct_example : (forall w d, x_ctx w d = true -> fits w d) /\ (stands_for false x_letters 3 4 [1; 2; 1; 2] /\ stands_for true x_index 3 4 [1; 2; 1; 2] /\ ~ In 0 (given x_letters)) /\
  construct x_ctx false x_letters = Ok x_key /\ construct x_ctx true x_index = Ok x_key.
Proof. exact (conj x_fits (conj x_stands x_construct)). Qed.
(** Each key has one word, of at most depth letters; each such word has a key; indices order the words. *)
Theorem C79_words : forall k, usual k -> exists l, word_of k l /\ (length l <= Z.to_nat (tk_depth k))%nat /\ forall l', word_of k l' -> l = l'.
Proof. intros k U. destruct (usual_word k U) as (l & W & L & _). exists l. split; [exact W|]. split; [exact L|]. exact (fun l' => word_unique k l l' W). Qed.
Print Assumptions C79_words.
Theorem C79_keys : forall w d l, 1 <= w -> fits w d -> a_word w l -> (length l <= Z.to_nat d)%nat -> usual (from_letters w d l) /\ word_of (from_letters w d l) l.
Proof. intros w d l H F A L. destruct (key_word w d l H F A L) as (U & W & _). exact (conj U W). Qed.
Print Assumptions C79_keys.
Theorem C79_order : forall a b la lb, usual a -> usual b -> tk_width a = tk_width b -> word_of a la -> word_of b lb -> (tk_key a < tk_key b <-> before la lb).
Proof. exact order_spec. Qed.
Print Assumptions C79_order.
(** Keys are equal if their widths and words are. *)
Theorem C79_equal : forall a b la lb, usual a -> usual b -> word_of a la -> word_of b lb -> (tk_equals a b = true <-> tk_width a = tk_width b /\ la = lb).
Proof. exact equals_spec. Qed.
Print Assumptions C79_equal.
Theorem C79_degree : forall k l, word_of k l -> degree k = Ok (Z.of_nat (length l)).
Proof. exact degree_spec. Qed.
Print Assumptions C79_degree.
Theorem C79_reverse : forall k l, usual k -> word_of k l -> exists r, reverse k = Ok r /\ usual r /\ word_of r (rev l) /\ tk_width r = tk_width k /\ tk_depth r = tk_depth k.
Proof. exact reverse_spec. Qed.
Print Assumptions C79_reverse.
Example C79_example : (usual x_key /\ word_of x_key [1; 2; 1; 2]) /\
  reverse x_key = Ok (mkTK 3 4 70) /\ to_letters (mkTK 3 4 70) = Ok [2; 1; 2; 1] /\ degree x_key = Ok 4 /\ split_n x_key 1 = Ok (mkTK 3 4 16, mkTK 3 4 2) /\ to_letters (mkTK 3 4 16) = Ok [1; 2; 1].
Proof. exact (conj x_usual x_others). Qed.

(** split_n splits the last letter off, or all or none. *)
Theorem C79_split : forall k n l a b, usual k -> word_of k l -> splits l n a b -> n <= 1 \/ tk_depth k <= n -> split_right k n a b.
Proof. exact split_spec. Qed.
Print Assumptions C79_split.
(** For other n, it does exactly if the last n letters are among the first width^n words after the empty one; *)
Theorem C79_split_exact : forall k n l a b, usual k -> word_of k l -> splits l n a b -> 0 < n < tk_depth k -> l <> [] -> (split_right k n a b <-> tk_key (from_letters (tk_width k) (tk_depth k) b) <= tk_width k ^ n).
Proof. exact split_inside. Qed.
Print Assumptions C79_split_exact.
(** for all n from 2 on there are words that it does not. *)
Theorem C79_split_refuted : forall w d n, 2 <= w -> fits w d -> 2 <= n < d -> let l := repeat w (Z.to_nat n) in
  usual (from_letters w d l) /\ word_of (from_letters w d l) l /\ splits l n [] l /\ ~ split_right (from_letters w d l) n [] l.
Proof. exact split_wrong. Qed.
Print Assumptions C79_split_refuted.

(** The product of two keys is the word of the second followed by that of the first, *)
Theorem C79_product : forall a b la lb, usual a -> usual b -> word_of a la -> word_of b lb -> tk_width a = tk_width b -> tk_depth a = tk_depth b -> Z.of_nat (length la + length lb) <= tk_depth a ->
  exists c, times a b = Ok c /\ usual c /\ word_of c (lb ++ la) /\ tk_width c = tk_width a /\ tk_depth c = tk_depth a.
Proof. exact times_spec. Qed.
Print Assumptions C79_product.
(** not their concatenation; *)
Theorem C79_concatenation_refuted : forall w d, 2 <= w -> 2 <= d -> fits w d -> exists c, times (from_letters w d [1]) (from_letters w d [2]) = Ok c /\ word_of c [2; 1] /\ ~ word_of c [1; 2].
Proof. exact times_swaps. Qed.
Print Assumptions C79_concatenation_refuted.
(** and it may be longer than the depth. *)
Theorem C79_product_depth_refuted : exists a c, usual a /\ word_of a [1] /\ times a a = Ok c /\ word_of c [1; 1] /\ tk_depth c = 1.
Proof. exact times_deeper. Qed.
Print Assumptions C79_product_depth_refuted.
(** The letter 0 is accepted, and changes the others. *)
Theorem C79_letter_zero_refuted : exists k, construct x_ctx false (mkArgs [1; 0] None (Some 2) (Some 2)) = Ok k /\ word_of k [2].
Proof. exact letter_zero. Qed.
Print Assumptions C79_letter_zero_refuted.
(** Keys by index of width 1 end the process (division by 0). *)
Theorem C79_index_width_one_refuted : forall (context : Z -> Z -> bool) i d, 0 <= i < 2 ^ 64 -> 0 <= d < 2 ^ 31 -> construct context true (mkArgs [] (Some i) (Some 1) (Some d)) = UB.
Proof. exact index_one. Qed.
Print Assumptions C79_index_width_one_refuted.
(** Equal keys can have products with a third where one has and the other has not. *)
Theorem C79_equal_keys_alike_refuted : exists a b c x, usual a /\ usual b /\ usual c /\ tk_equals a b = true /\ times a c = Ok x /\ times b c = Throw.
Proof. exact equal_differ. Qed.
Print Assumptions C79_equal_keys_alike_refuted.

(** Iterating over the basis gives each word of at most depth letters, in order. *)
Theorem C79_iterate : forall w d, 1 <= w -> fits w d -> exists ks, keys (S (Z.to_nat (number w (Z.to_nat d)))) (make_iter w d (number w (Z.to_nat d)) 0 None) = (ks, true) /\
  (forall k, In k ks -> usual k /\ tk_width k = w /\ tk_depth k = d) /\
  (forall l, a_word w l -> (length l <= Z.to_nat d)%nat -> exists k, In k ks /\ word_of k l) /\
  (forall i j a b la lb, (i < j)%nat -> nth_error ks i = Some a -> nth_error ks j = Some b -> word_of a la -> word_of b lb -> before la lb).
Proof. exact iterate_all. Qed.
Print Assumptions C79_iterate.
(** Iterating from one key to another gives those from the first on before the second. *)
Theorem C79_iterate_range : forall w d dim a e fuel, 0 <= a -> (Z.to_nat (Z.min e dim - a) < fuel)%nat ->
  exists ks, keys fuel (make_iter w d dim a (Some e)) = (ks, true) /\ forall j k, nth_error ks j = Some k <-> k = mkTK w d (a + Z.of_nat j) /\ a + Z.of_nat j < Z.min e dim.
Proof. exact iterate_range. Qed.
Print Assumptions C79_iterate_range.
