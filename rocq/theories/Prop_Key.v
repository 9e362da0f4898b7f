(** C44: packed keys, the tensor basis and unpacked words of the vendored algebra library.
    A word is a list of letters counted from 0; [wkey w u] is the key of degree [length u] whose index is
    the rank [idx w u] of [u] among the words of that length; [pos w u] the number of words that are
    shorter, or as long and alphabetically earlier. [packs w N] bounds the basis so that its words fit a
    key, [sized w N] so that the number of words of at most N+1 letters fits 64 bits. *)
From Verif Require Import Outcome Mem Words KeyModel KeyProofs KeyProofs2.
From Coq Require Import ZArith List. Import ListNotations.
Open Scope Z_scope.

(** Degree (8 bits) and index (56 bits) can be read back, every 64-bit pattern is the key of its degree
    and index, and the comparisons compare the degrees, then the indices. *)
Theorem C44_key : forall d i d' i', 0 <= d < 2 ^ 8 -> 0 <= i < 2 ^ 56 -> 0 <= d' < 2 ^ 8 -> 0 <= i' < 2 ^ 56 ->
  (k_degree (mk_key d i) = d /\ k_index (mk_key d i) = i) /\
  (k_ltb (mk_key d i) (mk_key d' i') = true <-> d < d' \/ d = d' /\ i < i') /\ (k_eqb (mk_key d i) (mk_key d' i') = true <-> d = d' /\ i = i')
  /\ (k_leb (mk_key d i) (mk_key d' i') = true <-> d < d' \/ d = d' /\ i <= i').
Proof. exact (fun d i d' i' A B C D => conj (key_round d i A B) (key_lt d i d' i' A B C D)). Qed.
Print Assumptions C44_key.
Theorem C44_key_all : forall k, 0 <= k < 2 ^ 64 -> 0 <= k_degree k < 2 ^ 8 /\ 0 <= k_index k < 2 ^ 56 /\ mk_key (k_degree k) (k_index k) = k.
Proof. exact key_all. Qed.
Print Assumptions C44_key_all.
Example C44_key_ex : k_degree (mk_key 255 (2 ^ 56 - 1)) = 255 /\ k_index (mk_key 255 (2 ^ 56 - 1)) = 2 ^ 56 - 1 /\ k_ltb (mk_key 1 (2 ^ 56 - 1)) (mk_key 2 0) = true.
Proof. repeat split; vm_compute; reflexivity. Qed.

(** A basis can be made for every width and depth. Distinct words have distinct keys, ordered like
    the words. *)
Theorem C44_basis : forall w N, 0 <= N -> exists B, tensor_basis w N = Ok B /\ tb_ok w N B.
Proof. exact tensor_basis_ok. Qed.
Print Assumptions C44_basis.
Theorem C44_word_order : forall w N u v, packs w N -> letters_ok w u -> letters_ok w v -> Z.of_nat (length u) <= N -> Z.of_nat (length v) <= N ->
  (wkey w u = wkey w v -> u = v) /\ (k_ltb (wkey w u) (wkey w v) = true <-> pos w u < pos w v).
Proof. exact (fun w N u v P A B C D => conj (wkey_inj w N u v P A B C D) (wkey_lt w N u v P A B C D)). Qed.
Print Assumptions C44_word_order.

(** The parents of the key of a word are the keys of its first letter and of the rest. *)
Theorem C44_parents : forall w N B x u, packs w N -> tensor_basis w N = Ok B -> letters_ok w (x :: u) -> Z.of_nat (length (x :: u)) <= N ->
  lparent B (wkey w (x :: u)) = Ok (wkey w [x]) /\ rparent B (wkey w (x :: u)) = Ok (wkey w u).
Proof. exact (fun w N B x u P T => lparent_ok w N B x u P (basis_unique w N B P T)). Qed.
Print Assumptions C44_parents.
(** [parents], meant to give both at once, has the left one right but the right one only for words
    starting with the first letter, or of two letters, or over one letter. *)
Theorem C44_parents_refuted : forall w N B x u, packs w N -> tensor_basis w N = Ok B -> letters_ok w (x :: u) -> Z.of_nat (length (x :: u)) <= N ->
  exists k, parents B (wkey w (x :: u)) = Ok (wkey w [x], k) /\ (k = wkey w u <-> x = 0 \/ w = 1 \/ length u = 1%nat).
Proof. exact (fun w N B x u P T => parents_ok w N B x u P (basis_unique w N B P T)). Qed.
Print Assumptions C44_parents_refuted.
Example C44_parents_ex : (let! B := tensor_basis 3 4 in rparent B (wkey 3 [2; 1; 0])) = Ok (wkey 3 [1; 0]) /\ (let! B := tensor_basis 3 4 in parents B (wkey 3 [2; 1; 0])) = Ok (wkey 3 [2], mk_key 2 15).
Proof. split; vm_compute; reflexivity. Qed.

(** Coordinates and keys are mutually inverse; past the words of N+1 letters the answer is the empty word. *)
Theorem C44_index : forall w N B, packs w N -> sized w N -> tensor_basis w N = Ok B ->
  (forall u, letters_ok w u -> Z.of_nat (length u) <= N -> key_to_index B (wkey w u) = Ok (pos w u) /\ index_to_key B (pos w u) = Ok (wkey w u)) /\
  (forall i, words_below w (Z.to_nat N + 2) <= i -> index_to_key B i = Ok (wkey w [])) /\
  (forall d, (0 <= d <= N -> size_of_degree B d = Ok (w ^ d)) /\ (0 <= d <= N + 1 -> tb_size B d = Ok (words_below w (S (Z.to_nat d)))) /\ (d < 0 -> tb_size B d = Ok (words_below w (S (Z.to_nat N))))) /\
  (forall d, 0 <= d <= N + 2 -> start_of_degree B d = Ok (words_below w (Z.to_nat d))).
Proof. exact index_all. Qed.
Print Assumptions C44_index.
Example C44_index_ex : packs 5 24 /\ sized 5 24 /\ (let! B := tensor_basis 5 24 in index_to_key B (pos 5 [4; 0; 3])) = Ok (mk_key 3 103).
Proof. split; [|split]; [unfold packs; repeat split; vm_compute; congruence|vm_compute; reflexivity|vm_compute; reflexivity]. Qed.
(** Without the bound on the sizes, words fit their keys, but the last entry of the table of sizes wraps round and
    the search for the degree goes astray. *)
Theorem C44_index_refuted : exists w N B u, packs w N /\ tensor_basis w N = Ok B /\ letters_ok w u /\ Z.of_nat (length u) <= N /\
  key_to_index B (wkey w u) = Ok (pos w u) /\ index_to_key B (pos w u) = Ok (wkey w []) /\ u <> [].
Proof. exact index_stray. Qed.
Print Assumptions C44_index_refuted.

(** Advancing a key gives the key of the next word, also across degrees. *)
Theorem C44_advance : forall w N B u, packs w N -> tensor_basis w N = Ok B -> letters_ok w u -> Z.of_nat (length u) <= N ->
  (forall v, letters_ok w v -> pos w v = pos w u + 1 -> advance_key B (wkey w u) = Ok (wkey w v)) /\
  (Z.of_nat (length u) = N -> pos w u = words_below w (S (Z.to_nat N)) - 1 -> advance_key B (wkey w u) = Ok (mk_key (N + 1) 0)).
Proof. exact advance_all. Qed.
Print Assumptions C44_advance.
Example C44_advance_ex : pos 3 [0; 0; 0] = pos 3 [2; 2] + 1 /\ (let! B := tensor_basis 3 4 in advance_key B (wkey 3 [2; 2])) = Ok (wkey 3 [0; 0; 0]).
Proof. split; vm_compute; reflexivity. Qed.

(** Reversal of keys and the letters printed for a key (counted from 1). *)
Theorem C44_reverse : forall w N B u, packs w N -> tensor_basis w N = Ok B -> letters_ok w u -> Z.of_nat (length u) <= N ->
  reverse_key B (wkey w u) = Ok (wkey w (rev u)) /\ key_letters B (wkey w u) = Ok (map (Z.add 1) u).
Proof. exact (fun w N B u P T L H => conj (reverse_key_ok w N B u P (basis_unique w N B P T) L H) (key_letters_ok w N B u P (basis_unique w N B P T) L H)). Qed.
Print Assumptions C44_reverse.
Theorem C44_letters : forall w N B x u, packs w N -> tensor_basis w N = Ok B -> letters_ok w (x :: u) -> Z.of_nat (length (x :: u)) <= N ->
  first_letter B (wkey w (x :: u)) = Ok (x + 1) /\ key_of_letter (x + 1) = wkey w [x] /\ to_letter (wkey w [x]) = x + 1 /\ (is_letter (wkey w (x :: u)) = true <-> u = []).
Proof. exact letters_all. Qed.
Print Assumptions C44_letters.

(** Unpacked words of width up to 2^16: unpacking and packing are inverse, indexing reads the letters from
    the left, the index and the reversed index are those of the word, multiplication concatenates and
    splitting undoes it; equality is equality of the words, whatever their widths. *)
Theorem C44_unpacked : forall w N u, packs w N -> letters_ok w u -> Z.of_nat (length u) <= N ->
  (w <= 2 ^ 16 -> unpack w (wkey w u) = Ok (uw_of_list w u)) /\ pack (uw_of_list w u) = wkey w u /\ uw_to_index (uw_of_list w u) = idx w u /\
  uw_to_reverse_index (uw_of_list w u) = idx w (rev u) /\ uw_reverse (uw_of_list w u) = uw_of_list w (rev u).
Proof. exact unpacked_all. Qed.
Print Assumptions C44_unpacked.
Theorem C44_unpacked_words : forall w u v,
  (forall i, 0 <= i < Z.of_nat (length u) -> uw_at (uw_of_list w u) i = Ok (nth (Z.to_nat i) u 0)) /\
  uw_mul (uw_of_list w u) (uw_of_list w v) = uw_of_list w (u ++ v) /\
  uw_split (uw_of_list w (u ++ v)) (Z.of_nat (length u)) = Ok (uw_of_list w u, uw_of_list w v) /\
  (forall n, Z.of_nat (length u) <= n -> uw_split (uw_of_list w u) n = Ok (uw_of_list w u, uw_of_list w [])) /\
  (forall w', uw_eqb (uw_of_list w u) (uw_of_list w' v) = true <-> u = v).
Proof. exact (fun w u v => conj (uw_at_ok w u) (conj (uw_mul_ok w u v) (conj (uw_split_ok w u v) (conj (uw_split_all w u) (fun w' => uw_eqb_ok w w' u v))))). Qed.
Print Assumptions C44_unpacked_words.
Example C44_unpacked_ex : unpack 7 (wkey 7 [6; 0; 2]) = Ok (uw_of_list 7 [6; 0; 2]) /\ uw_at (uw_of_list 7 [6; 0; 2]) 0 = Ok 6 /\ uw_split (uw_of_list 7 [6; 0; 2]) 1 = Ok (uw_of_list 7 [6], uw_of_list 7 [0; 2]).
Proof. repeat split; vm_compute; reflexivity. Qed.

(** Adding n keeps the length and adds n to the index modulo the number of words of that length. *)
Theorem C44_increment : forall w u n, 1 <= w -> letters_ok w u -> 1 <= n -> w - 1 + n < 2 ^ 16 ->
  exists v, letters_ok w v /\ length v = length u /\ uw_advance (uw_of_list w u) n = uw_of_list w v /\ idx w v = (idx w u + n) mod w ^ Z.of_nat (length u).
Proof. exact uw_advance_ok. Qed.
Print Assumptions C44_increment.
Example C44_increment_ex : uw_advance (uw_of_list 3 [0; 2; 1]) 2 = uw_of_list 3 [1; 0; 0] /\ uw_advance (uw_of_list 3 [2; 2]) 1 = uw_of_list 3 [0; 0].
Proof. split; reflexivity. Qed.
(** The bound is sharp: at width 2^16 the letters are 16-bit and the carry is lost. *)
Theorem C44_increment_refuted : forall u, uw_advance (uw_of_list (2 ^ 16) (u ++ [65535])) 1 = uw_of_list (2 ^ 16) (u ++ [0]).
Proof. exact wide_lost. Qed.
Print Assumptions C44_increment_refuted.

(** The order of unpacked words is that of the reversed words, so from two letters on not that of
    their keys. *)
Theorem C44_unpacked_order : forall w u v, 0 < w -> letters_ok w u -> letters_ok w v -> (uw_ltb (uw_of_list w u) (uw_of_list w v) = true <-> pos w (rev u) < pos w (rev v)).
Proof. exact uw_ltb_ok. Qed.
Print Assumptions C44_unpacked_order.
Theorem C44_unpacked_order_refuted : forall w n, 2 <= w -> (2 <= n)%nat -> exists u v, letters_ok w u /\ letters_ok w v /\ length u = n /\ length v = n /\
  uw_ltb (uw_of_list w u) (uw_of_list w v) = true /\ pos w v < pos w u.
Proof. exact order_differs. Qed.
Print Assumptions C44_unpacked_order_refuted.
(** Built from a vector of letters instead of a list, a word is reversed. *)
Theorem C44_vector_refuted : forall w u, uw_of_vector w u = uw_of_list w (rev u) /\ (uw_eqb (uw_of_vector w u) (uw_of_list w u) = true <-> rev u = u).
Proof. exact vector_reversed. Qed.
Print Assumptions C44_vector_refuted.
