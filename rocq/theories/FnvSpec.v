(** Vocabulary for hash and equality properties of the basis objects. *)
From Verif Require Export FnvModel.
Open Scope Z_scope.

(** FNV-1a as published: for each octet, xor it into the hash and multiply by the prime. *)
Definition fnv1a (prime bits state : Z) (octets : list Z) : Z := fold_left (fun h b => (Z.lxor h b * prime) mod 2 ^ bits) octets state.
Definition fnv_prime_64 : Z := 2 ^ 40 + 2 ^ 8 + 0xB3.
Definition fnv_prime_32 : Z := 2 ^ 24 + 2 ^ 8 + 0x93.
Definition word64 (z : Z) : Prop := 0 <= z < 2 ^ 64.
Definition octet (z : Z) : Prop := 0 <= z < 256.

(** The calls of a history that created an object, in order: the i-th created object [i]. *)
Fixpoint made (cs : list call) (l : list answer) : list call :=
  match cs, l with
  | c :: cs, Object :: l => c :: made cs l
  | _ :: cs, _ :: l => made cs l
  | _, _ => []
  end.
Definition truncated (c : call) : bool := match c with Truncate _ _ => true | _ => false end.
(** Call number [p] of the history was [c] and was answered [a]. *)
Definition happened (cs : list call) (l : list answer) (p : nat) (c : call) (a : answer) : Prop :=
  nth_error cs p = Some c /\ nth_error l p = Some a.

(** Kind (true for tensor bases), width and depth of the objects created by a list of calls. *)
Fixpoint shapes (known : list (bool * Z * Z)) (cs : list call) : list (bool * Z * Z) :=
  match cs with
  | [] => known
  | NewTensor _ w d :: cs => shapes (known ++ [(true, w, d)]) cs
  | NewLie _ _ w d :: cs => shapes (known ++ [(false, w, d)]) cs
  | Truncate o n :: cs => shapes (known ++ [(true, snd (fst (nth o known (true, 0, 0))), n)]) cs
  | _ :: cs => shapes known cs
  end.
(** Lie bases asked for within the range of 64-bit indices. *)
Definition lie_in_range (c : call) : Prop :=
  match c with NewLie _ _ w N => 0 <= w /\ 1 <= N < 46339 * 46339 /\ N * w ^ N < I64_MAX | _ => True end.
