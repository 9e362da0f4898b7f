(** Model of core/src/fnv1a_hash.c and of the hash and equality of the Python basis
    objects, roughpy/compute/_src/tensor_basis.c and lie_basis.c (64-bit platform). *)
From Verif Require Export HallModel.
Open Scope Z_scope.

(** core/include/roughpy/core/fnv1a_hash.h:14-15 *)
Definition FNV_OFFSET : Z := 0xCBF29CE484222325.
Definition FNV_PRIME : Z := 0x00000100000001B3.
(** Arithmetic of [uint64_t]. *)
Definition u64 (z : Z) : Z := z mod 2 ^ 64.
(** fnv1a_hash.c:11-12, 21-25: [FNV1A_MIX_OCTET_64]; [octet] is already converted to
    [uint64_t]. *)
Definition mix_octet (h octet : Z) : Z :=
  let h := Z.lxor h octet in
  u64 (h + u64 (u64 (u64 (u64 (u64 (u64 (Z.shiftl h 1) + u64 (Z.shiftl h 4)) + u64 (Z.shiftl h 5)) + u64 (Z.shiftl h 7)) + u64 (Z.shiftl h 8)) + u64 (Z.shiftl h 40))).
(** fnv1a_hash.c:53-62 [fnv1a_hash_bytes64]: the octets of an [unsigned char] buffer. *)
Definition fnv_bytes (state : Z) (bytes : list Z) : Z := fold_left mix_octet bytes state.
(** fnv1a_hash.c:13-14, 16-20, 43-51: the 32-bit variant *)
Definition u32 (z : Z) : Z := z mod 2 ^ 32.
Definition mix_octet32 (h octet : Z) : Z :=
  let h := Z.lxor h octet in
  u32 (h + u32 (u32 (u32 (u32 (u32 (Z.shiftl h 1) + u32 (Z.shiftl h 4)) + u32 (Z.shiftl h 7)) + u32 (Z.shiftl h 8)) + u32 (Z.shiftl h 24))).
Definition fnv_bytes32 (state : Z) (bytes : list Z) : Z := fold_left mix_octet32 bytes state.
(** fnv1a_hash.c:35-41 [fnv1a_hash_string64]: [*str] is a (signed) [char], so it is sign
    extended when converted. *)
Definition as_char (b : Z) : Z := if b <? 128 then b else b - 256.
Fixpoint fnv_string (state : Z) (str : list Z) : Z :=
  match str with
  | [] => state
  | c :: str => if c =? 0 then state else fnv_string (mix_octet state (u64 (as_char c))) str
  end.
(** roughpy/pycore fnv1a_hash.h:78-85: conversion to the signed [Py_hash_t]; -1 is taken. *)
Definition to_signed (z : Z) : Z := if z <? 2 ^ 63 then z else z - 2 ^ 64.
Definition fnv_finalize (state : Z) : Z := let hash := to_signed state in if hash =? -1 then -2 else hash.
(** The octets of an integer of [n] bytes, little endian. *)
Definition le_bytes (n : nat) (z : Z) : list Z := map (fun i => Z.land (Z.shiftr z (8 * Z.of_nat i)) 255) (seq 0 n).

(** ** Basis objects *)
(** tensor_basis.c:12-19 and lie_basis.c:20-29.  Reference counts, the multiplication cache
    and the matrix dictionaries are not part of this model. *)
Inductive pyobj :=
| TB (width depth : Z) (db : buf Z) (cached_hash : Z)
| LB (basis : lie_basis) (cached_hash : Z).

(** tensor_basis.c:42-59 [construct_tensor_db] *)
Definition construct_tensor_db (junk : Z -> Z) (width depth : Z) : outcome (buf Z) :=
  let! n := i32 (depth + 2) in
  if n <? 0 then Throw else
  let! data := bset (mkbuf n junk) 0 0 in
  for_ (zseq 1 (Z.to_nat (n - 1))) data (fun i data =>
    let! p := bget data (i - 1) in
    let! m := i64 (p * width) in
    let! v := i64 (1 + m) in
    bset data i v).
(** tensor_basis.c:23-40, 61-133 without the optional argument *)
Definition new_tensor (junk : Z -> Z) (width depth : Z) : outcome pyobj :=
  let! db := construct_tensor_db junk width depth in Ok (TB width depth db (-1)).
(** tensor_basis.c:173-207 [tensor_basis_truncate]; [PyType_GenericAlloc] clears the object *)
Definition truncate (o : pyobj) (new_depth : Z) : outcome pyobj :=
  match o with
  | TB width depth db _ =>
      if new_depth <? 0 then Throw else if new_depth >=? depth then Throw else Ok (TB width new_depth db 0)
  | LB _ _ => Throw
  end.
(** lie_basis.c:149-171, 449-500 without the optional arguments *)
Definition new_lie (junk1 junk2 : Z -> Z) (width depth : Z) : outcome pyobj :=
  let! B := construct_lie_basis junk1 junk2 width depth in Ok (LB B (-1)).
(** The octets of the first [n] entries of an array of [npy_intp]. *)
Definition array_bytes (a : buf Z) (n : Z) : outcome (list Z) :=
  for_ (zseq 0 (Z.to_nat n)) [] (fun i l => let! v := bget a i in Ok (l ++ le_bytes 8 v)).
(** tensor_basis.c:144-171, lie_basis.c:520-560: the hash and the object afterwards *)
Definition hash (o : pyobj) : outcome (Z * pyobj) :=
  match o with
  | TB width depth db cached =>
      if negb (cached =? -1) then Ok (cached, o)
      else
        let state := fnv_bytes FNV_OFFSET [84; 101; 110; 115; 111; 114; 66; 97; 115; 105; 115] in
        let state := fnv_bytes state (le_bytes 4 width) in
        let state := fnv_bytes state (le_bytes 4 depth) in
        let! n := i32 (depth + 2) in
        let! bs := array_bytes db n in
        let h := fnv_finalize (fnv_bytes state bs) in
        Ok (h, TB width depth db h)
  | LB B cached =>
      if negb (cached =? -1) then Ok (cached, o)
      else
        let state := fnv_bytes FNV_OFFSET [76; 105; 101; 66; 97; 115; 105; 115] in
        let state := fnv_bytes state (le_bytes 4 (lb_width B)) in
        let state := fnv_bytes state (le_bytes 4 (lb_depth B)) in
        let! ts := lb_true_size B in
        let! bs := array_bytes (lb_data B) (2 * ts) in
        let state := fnv_bytes state bs in
        let! n := i32 (lb_depth B + 2) in
        let! bs := array_bytes (lb_db B) n in
        let h := fnv_finalize (fnv_bytes state bs) in
        Ok (h, LB B h)
  end.
(** The comparison loops tensor_basis.c:245-247, lie_basis.c:575-577 *)
Fixpoint same_db (l r : buf Z) (ds : list Z) : outcome bool :=
  match ds with
  | [] => Ok true
  | d :: ds => let! x := bget l d in let! y := bget r d in if x =? y then same_db l r ds else Ok false
  end.
(** tensor_basis.c:234-277, lie_basis.c:563-614: [==]; the objects afterwards, as a Lie basis
    is hashed.  Objects of different kinds: both sides return NotImplemented and Python
    compares identities. *)
Definition equal (a b : pyobj) : outcome (bool * pyobj * pyobj) :=
  match a, b with
  | TB w d db _, TB w' d' db' _ =>
      if negb (w =? w') then Ok (false, a, b) else if negb (d =? d') then Ok (false, a, b)
      else let! n := i32 (d + 2) in let! r := same_db db db' (zseq 0 (Z.to_nat n)) in Ok (r, a, b)
  | LB B _, LB B' _ =>
      if negb (lb_width B =? lb_width B') then Ok (false, a, b) else if negb (lb_depth B =? lb_depth B') then Ok (false, a, b)
      else
        let! n := i32 (lb_depth B + 2) in let! r := same_db (lb_db B) (lb_db B') (zseq 0 (Z.to_nat n)) in
        if negb r then Ok (false, a, b)
        else let! (ha, a') := hash a in let! (hb, b') := hash b in Ok (ha =? hb, a', b')
  | _, _ => Ok (false, a, b)
  end.

(** ** Histories: a heap of objects, numbered in order of creation. *)
Inductive call := NewTensor (junk : Z -> Z) (width depth : Z) | NewLie (junk1 junk2 : Z -> Z) (width depth : Z)
  | Truncate (o : nat) (new_depth : Z) | HashOf (o : nat) | Equal (a b : nat).
Inductive answer := Object | Raised | HashIs (h : Z) | Truth (b : bool).
Definition heap := list pyobj.
Fixpoint put (H : heap) (i : nat) (o : pyobj) : heap :=
  match H, i with
  | [], _ => []
  | _ :: H, O => o :: H
  | x :: H, S i => x :: put H i o
  end.
(** A call that creates an object; Python exceptions leave the heap unchanged. *)
Definition create (H : heap) (r : outcome pyobj) : outcome (heap * answer) :=
  match r with Ok o => Ok (H ++ [o], Object) | Throw => Ok (H, Raised) | UB => UB | NoFuel => NoFuel end.
Definition do_call (H : heap) (c : call) : outcome (heap * answer) :=
  match c with
  | NewTensor junk w d => create H (new_tensor junk w d)
  | NewLie j1 j2 w d => create H (new_lie j1 j2 w d)
  | Truncate o n => match nth_error H o with Some x => create H (truncate x n) | None => Ok (H, Raised) end
  | HashOf o => match nth_error H o with Some x => let! (h, x') := hash x in Ok (put H o x', HashIs h) | None => Ok (H, Raised) end
  | Equal a b =>
      match nth_error H a, nth_error H b with
      | Some x, Some y => let! (r, x', y') := equal x y in Ok (put (put H a x') b y', Truth r)
      | _, _ => Ok (H, Raised)
      end
  end.
Fixpoint history (H : heap) (cs : list call) : outcome (heap * list answer) :=
  match cs with
  | [] => Ok (H, [])
  | c :: cs => let! (H, a) := do_call H c in let! (H, l) := history H cs in Ok (H, a :: l)
  end.
