(** Property theorems C45 and C54: the vendored Hall set. *)
From Coq Require Import ZArith List Bool.
Import ListNotations.
From Verif Require Import Outcome Mem Mobius HallModel HallSpec HallLemmas KeyModel HsModel HsLemmas.
Open Scope Z_scope.

(** ** C45 *)
Theorem C45_exists : forall w N, 0 <= w -> 1 <= N <= 254 -> N * w ^ N < I64_MAX -> w ^ N <= 2 ^ 56 -> exists B H, both w N B H.
Proof. exact both_ex. Qed.
Print Assumptions C45_exists.
Theorem C45_same_order : forall w N B H, both w N B H -> exists M, lb_size B = Ok M /\
  (forall k, 0 <= k <= M -> exists kk, keyed B k kk) /\
  (forall k k' kk kk', 0 <= k <= M -> 0 <= k' <= M -> keyed B k kk -> keyed B k' kk' -> (kk = kk' <-> k = k') /\ (k_leb kk kk' = true <-> k <= k')).
Proof. exact hs_keys. Qed.
Print Assumptions C45_same_order.
Theorem C45_same_elements : forall w N B H, both w N B H -> forall k a b kk ka kb,
  get_parents B k = Ok (a, b) -> keyed B k kk -> keyed B a ka -> keyed B b kb ->
  hs_parents H kk = Ok (ka, kb) /\ hs_find H (ka, kb) = Some kk /\ hs_key_at H (ka, kb) = kk /\ index_of_key H kk = Ok (k - 1) /\ key_of_index H (k - 1) = Ok kk.
Proof. exact hs_rows. Qed.
Print Assumptions C45_same_elements.
Theorem C45_lookup_finds_only_elements : forall w N B H, both w N B H -> forall p,
  (forall kk, hs_find H p = Some kk -> exists k a b, get_parents B k = Ok (a, b) /\ keyed B k kk /\ keyed B a (fst p) /\ keyed B b (snd p)) /\
  (hs_find H p = None -> hs_key_at H p = mk_key 0 0).
Proof. exact hs_found. Qed.
Print Assumptions C45_lookup_finds_only_elements.
Theorem C45_past_the_end : forall w N B H, both w N B H -> exists M, lb_size B = Ok M /\ forall i, M <= i -> key_of_index H i = Ok (mk_key 0 0).
Proof. exact hs_past. Qed.
Print Assumptions C45_past_the_end.
Theorem C45_sizes : forall w N B H, both w N B H -> exists M, lb_size B = Ok M /\
  (forall d lo hi, 0 <= d <= N -> bget (lb_db B) d = Ok lo -> bget (lb_db B) (d + 1) = Ok hi -> hs_size_of_degree H d = Ok (hi - lo) /\ hs_size H d = Ok (hi - 1)) /\
  hs_size H N = Ok M /\ hs_size H (-1) = Ok M /\ (forall d, N < d -> hs_size H d = Ok M) /\
  (forall d, - (N + 1) <= d < 0 -> hs_size H d = hs_size H (N + 1 + d)) /\ (forall d, d < - (N + 1) -> hs_size H d = Ok M).
Proof. exact hs_sizes_ok. Qed.
Print Assumptions C45_sizes.
(** Stepping through the keys visits the elements in order (every degree is occupied from two letters on). *)
Theorem C45_next : forall w N B H, both w N B H -> 2 <= w -> exists M, lb_size B = Ok M /\
  (forall k kk kk', 1 <= k < M -> keyed B k kk -> keyed B (k + 1) kk' -> hs_advance H kk = Ok kk') /\
  (forall kk, keyed B M kk -> hs_advance H kk = Ok (mk_key (N + 1) 0)).
Proof. exact hs_next. Qed.
Print Assumptions C45_next.
(** Growing a set in any steps gives the set built at once at the largest depth asked for. *)
Theorem C45_growing : forall w N, 0 <= w -> 1 <= N <= 254 -> N * w ^ N < I64_MAX -> w ^ N <= 2 ^ 56 ->
  forall d0 ds, d0 <= N -> (forall d, In d ds -> d <= N) ->
  (let! H := new_hall_set w d0 in for_ ds H (fun d H => grow_up H d)) = new_hall_set w (fold_left Z.max ds d0).
Proof. exact grow_steps. Qed.
Print Assumptions C45_growing.
(** The constructor from an existing set leaves its members empty; every query on the result is undefined. *)
Theorem C45_copy_refuted : forall H junk deg d,
  hs_size (hs_copy junk H deg) d = UB /\ hs_size_of_degree (hs_copy junk H deg) d = UB /\ (forall k, hs_parents (hs_copy junk H deg) k = UB).
Proof. exact copy_broken. Qed.
Print Assumptions C45_copy_refuted.
Example C45_ex : (let! H := new_hall_set 2 4 in
    let! p := hs_parents H (mk_key 4 1) in let! i := index_of_key H (mk_key 4 1) in let! k := key_of_index H 6 in let! n := hs_advance H (mk_key 3 1) in
    Ok (p, hs_find H (mk_key 1 1, mk_key 3 0), hs_find H (mk_key 1 1, mk_key 1 0), i, k, n, hs_sizes H)) =
  Ok ((mk_key 1 1, mk_key 3 0), Some (mk_key 4 1), None, 6, mk_key 4 1, mk_key 4 0, [0; 2; 3; 5; 8]).
Proof. vm_compute. reflexivity. Qed.
Example C45_ex_hyps : 4 * 2 ^ 4 < I64_MAX /\ 2 ^ 4 <= 2 ^ 56 /\ new_hall_set (-1) 3 = Throw.
Proof. repeat split; vm_compute; auto; discriminate. Qed.

(** ** C54 *)
Theorem C54_extension : forall w N B H (A : Type) (func : Z -> A) binop, both w N B H ->
  forall c k t kk, cache_of B H func binop c -> decodes B k t -> keyed B k kk ->
  exists fuel0, forall fuel, (fuel0 <= fuel)%nat -> exists c', extend fuel H func binop kk c = Ok (tfold func binop t, c').
Proof. exact (fun w N B H A f b => @extension w N B H A f b). Qed.
Print Assumptions C54_extension.
(** The element [2,[1,[1,2]]] after a call on [1,[1,2]] filled the cache; the map is string-like: letters to lists, brackets to joined lists. *)
Example C54_ex : (let! H := new_hall_set 2 4 in
    let! (v, c) := extend 10 H (fun l => [l]) (fun a b => [0] ++ a ++ b) (mk_key 3 0) [] in
    let! (u, _) := extend 10 H (fun l => [l]) (fun a b => [0] ++ a ++ b) (mk_key 4 1) c in
    Ok (v, length c, u)) = Ok ([0; 1; 0; 1; 2], 4%nat, [0; 2; 0; 1; 0; 1; 2]).
Proof. vm_compute. reflexivity. Qed.
