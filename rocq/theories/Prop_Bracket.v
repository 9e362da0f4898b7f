(** Property theorems C30 and C33: brackets of basis elements and their cache. *)
From Coq Require Import Sorted.
From Verif Require Import Outcome Alg Mem Series Shuffle HallModel HallSpec LieSpec HallLemmas BracketModel BracketLemmas.
Open Scope Z_scope.

(** ** C30 *)
(** Every call returns, after every history of calls through bases of the same width. *)
Theorem C30_total : forall w c B N q, reachable w c -> standard B w N -> 0 <= fst q -> 0 <= snd q ->
  exists r c', returns B c q r c'.
Proof. exact bracket_total. Qed.
Print Assumptions C30_total.
(** The answer is a list of keys of degree deg a + deg b, strictly increasing, with
    nonzero coefficients, and stands for the commutator. *)
Theorem C30_commutator : forall w c B N a b s t r c', reachable w c -> standard B w N ->
  decodes B a s -> decodes B b t -> tdeg s + tdeg t <= N -> returns B c (a, b) r c' ->
  exists e l, r = Some e /\ StronglySorted Z.lt (map fst e) /\
    Forall2 (fun p q => decodes B (fst p) (fst q) /\ snd p = snd q /\ snd p <> 0 /\ tdeg (fst q) = tdeg s + tdeg t) e l /\
    forall K : cring, teq (tlin K l) (comm (texpand K s) (texpand K t)).
Proof. exact bracket_correct. Qed.
Print Assumptions C30_commutator.
Theorem C30_outside : forall w c B N a b r c', reachable w c -> standard B w N -> 1 <= a -> 1 <= b ->
  returns B c (a, b) r c' -> (forall s t, decodes B a s -> decodes B b t -> N < tdeg s + tdeg t) -> r = Some [].
Proof. exact bracket_outside. Qed.
Print Assumptions C30_outside.
Theorem C30_history_independent : forall w c1 c2 B N q r1 r2 c1' c2', reachable w c1 -> reachable w c2 ->
  standard B w N -> 0 <= fst q -> 0 <= snd q -> returns B c1 q r1 c1' -> returns B c2 q r2 c2' -> r1 = r2.
Proof. exact bracket_transparent. Qed.
Print Assumptions C30_history_independent.
Theorem C30_depth_independent : forall w c1 c2 B1 B2 N1 N2 a b s t r1 r2 c1' c2', reachable w c1 -> reachable w c2 ->
  standard B1 w N1 -> standard B2 w N2 -> decodes B1 a s -> decodes B1 b t -> tdeg s + tdeg t <= N1 -> tdeg s + tdeg t <= N2 ->
  returns B1 c1 (a, b) r1 c1' -> returns B2 c2 (a, b) r2 c2' -> r1 = r2.
Proof. exact bracket_depth_indep. Qed.
Print Assumptions C30_depth_independent.
Theorem C30_antisymmetric : forall w c1 c2 B N a b e r c1' c2', reachable w c1 -> reachable w c2 -> standard B w N ->
  0 <= a -> 0 <= b -> returns B c1 (a, b) (Some e) c1' -> returns B c2 (b, a) r c2' ->
  r = Some (map (fun p => (fst p, - snd p)) e).
Proof. exact bracket_antisym. Qed.
Print Assumptions C30_antisymmetric.
(** The key 0 is an error and leaves the cache alone. *)
Theorem C30_zero_key : forall w c B N a b r c', reachable w c -> standard B w N -> 0 <= a -> 0 <= b -> a = 0 \/ b = 0 ->
  returns B c (a, b) r c' -> r = None /\ c' = c.
Proof. exact bracket_zero. Qed.
Print Assumptions C30_zero_key.
Example C30_ex : exists B, standard B 2 5 /\
  (exists c', returns B lc_empty (3, 4) (Some [(13, 1)]) c') /\ (exists c', returns B lc_empty (1, 5) (Some [(7, 1)]) c') /\
  (exists c', returns B lc_empty (1, 8) (Some [(11, 1); (14, 1)]) c') /\ (exists c', returns B lc_empty (8, 1) (Some [(11, -1); (14, -1)]) c').
Proof. exact ex_brackets. Qed.

(** ** C33 *)
(** With user-supplied data the cache of the width mixes bases: asked first, the second
    basis returns its key 10, which has the queried parents; asked after a standard
    basis of the same width it returns its key 9, which is [1,[2,3]]. *)
Theorem C33_custom_basis_refuted : exists B1 B2 q c1 c2 c3,
  standard B1 3 3 /\ lie_basis_of_data 3 3 15 custom_db custom_data = Ok B2 /\
  returns B1 lc_empty q (Some [(9, 1)]) c1 /\
  returns B2 lc_empty q (Some [(10, 1)]) c2 /\ returns B2 c1 q (Some [(9, 1)]) c3 /\
  get_parents B2 10 = Ok q /\ get_parents B2 9 = Ok (1, 6) /\ get_parents B2 6 = Ok (2, 3).
Proof. exact custom_conflict. Qed.
Print Assumptions C33_custom_basis_refuted.
