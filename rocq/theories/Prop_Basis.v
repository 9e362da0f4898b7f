(** Property theorems C35 and C52: equality and hashes of basis objects, FNV-1a. *)
From Verif Require Import FnvSpec HallLemmas FnvProofs FnvProofs2.
Open Scope Z_scope.

(** ** C35 *)
(** In every history of constructions, truncations, hashes and comparisons: two basis objects
    compare equal exactly if they have the same kind, width and depth. *)
Theorem C35_equality : forall cs H l, Forall lie_in_range cs -> history [] cs = Ok (H, l) ->
  forall p i j b, happened cs l p (Equal i j) (Truth b) ->
  exists s s', nth_error (shapes [] (made cs l)) i = Some s /\ nth_error (shapes [] (made cs l)) j = Some s' /\ (b = true <-> s = s').
Proof. exact equality_is_shape. Qed.
Print Assumptions C35_equality.
(** Objects found equal, neither of them got by truncation, hash equal whenever they are
    hashed, and an object always gives the same hash. *)
Theorem C35_hash : forall cs H l, history [] cs = Ok (H, l) ->
  forall i j ci cj, nth_error (made cs l) i = Some ci -> nth_error (made cs l) j = Some cj -> truncated ci = truncated cj ->
  (i = j \/ exists r, happened cs l r (Equal i j) (Truth true)) ->
  forall p q x y, happened cs l p (HashOf i) (HashIs x) -> happened cs l q (HashOf j) (HashIs y) -> x = y.
Proof. exact equal_hash. Qed.
Print Assumptions C35_hash.
Example C35_hash_ex : exists H x, history [] [NewTensor junk0 2 3; NewLie junk0 (fun _ => 7) 2 3; HashOf 1; NewLie (fun _ => 5) junk0 2 3; Equal 1 2; HashOf 2; Equal 0 1; HashOf 1] =
  Ok (H, [Object; Object; HashIs x; Object; Truth true; HashIs x; Truth false; HashIs x]) /\ x <> 0.
Proof. exact history_ex. Qed.
(** An object got by truncation hashes to 0 in every history. *)
Theorem C35_truncated_hash : forall cs H l, history [] cs = Ok (H, l) -> forall i o n, nth_error (made cs l) i = Some (Truncate o n) ->
  forall p x, happened cs l p (HashOf i) (HashIs x) -> x = 0.
Proof. exact truncated_hash. Qed.
Print Assumptions C35_truncated_hash.
(** So "equal objects hash equal" fails: the truncated object equals the one built directly,
    for all widths and depths, ... *)
Theorem C35_truncation_refuted : forall junk1 junk2 w d n, 0 <= n < d -> (exists db, construct_tensor_db junk1 w d = Ok db) -> (exists db, construct_tensor_db junk2 w n = Ok db) ->
  exists H, history [] [NewTensor junk1 w d; NewTensor junk2 w n; Truncate 0 n; Equal 1 2; HashOf 2] = Ok (H, [Object; Object; Object; Truth true; HashIs 0]).
Proof. exact truncation. Qed.
Print Assumptions C35_truncation_refuted.
(** ... and the latter has a hash other than 0. *)
Example C35_truncation_refuted_ex : exists H x, history [] [NewTensor junk0 2 3; NewTensor junk0 2 2; Truncate 0 2; Equal 1 2; HashOf 1; HashOf 2] = Ok (H, [Object; Object; Object; Truth true; HashIs x; HashIs 0]) /\ x <> 0.
Proof. exact truncation_ex. Qed.

(** ** C52 *)
(** Hashing bytes is FNV-1a as published, in 64 and 32 bits. *)
Theorem C52_published : forall state l, fnv_bytes state l = fnv1a fnv_prime_64 64 state l /\ fnv_bytes32 state l = fnv1a fnv_prime_32 32 state l.
Proof. exact (fun s l => conj (fnv_bytes_std s l) (fnv_bytes32_std s l)). Qed.
Print Assumptions C52_published.
(** A buffer can be hashed in pieces. *)
Theorem C52_incremental : forall state a b, fnv_bytes state (a ++ b) = fnv_bytes (fnv_bytes state a) b.
Proof. exact fnv_bytes_app. Qed.
Print Assumptions C52_incremental.
(** Buffers that differ in exactly one octet never have the same hash. *)
Theorem C52_one_octet : forall state l b b' r, word64 state -> octet b -> octet b' -> Forall octet r ->
  fnv_bytes state (l ++ b :: r) = fnv_bytes state (l ++ b' :: r) -> b = b'.
Proof. exact one_octet. Qed.
Print Assumptions C52_one_octet.
(** Different initial states never meet on the same buffer. *)
Theorem C52_state : forall l, Forall octet l -> forall h h', word64 h -> word64 h' -> fnv_bytes h l = fnv_bytes h' l -> h = h'.
Proof. exact bytes_inj. Qed.
Print Assumptions C52_state.
Example C52_one_octet_ex : word64 FNV_OFFSET /\ octet 84 /\ octet 85 /\ Forall octet [101; 0; 255] /\
  fnv_bytes FNV_OFFSET ([7] ++ 84 :: [101; 0; 255]) <> fnv_bytes FNV_OFFSET ([7] ++ 85 :: [101; 0; 255]).
Proof. exact one_octet_ex. Qed.
(** Hashing a C string is hashing its bytes if they are ASCII ... *)
Theorem C52_string : forall state l, Forall (fun c => 0 < c < 128) l -> fnv_string state l = fnv_bytes state l.
Proof. exact string_ascii. Qed.
Print Assumptions C52_string.
(** ... and never is if exactly one of them is not. *)
Theorem C52_string_refuted : forall state l c r, word64 state -> Forall (fun c => 0 < c < 128) l -> 128 <= c < 256 -> Forall (fun c => 0 < c < 128) r ->
  fnv_string state (l ++ c :: r) <> fnv_bytes state (l ++ c :: r).
Proof. exact string_not_ascii. Qed.
Print Assumptions C52_string_refuted.
(** The value handed to Python is a 64-bit signed integer other than -1; only one state is
    changed for that. *)
Theorem C52_finalize : forall state, word64 state -> fnv_finalize state <> -1 /\ - 2 ^ 63 <= fnv_finalize state < 2 ^ 63 /\
  (state <> 2 ^ 64 - 1 -> fnv_finalize state mod 2 ^ 64 = state).
Proof. exact finalize_not. Qed.
Print Assumptions C52_finalize.
