(** LieKey of Python: roughpy/src/algebra/lie_key.cpp:69-119, 180-256, 284-504, lie_letter.h:38-67,
    lie_key_iterator.cpp:41-60, and Lie.__getitem__ (lie.cpp:171).

    A Lie basis is its width and the pairs of parents of its brackets in order (keys count from 1, letters
    first).  A stored key is an array of nodes: letters, and offsets to pairs further on.  Strings are lists
    of signs; a letter is written as a number.  For keys that the basis does not have, parse_key does not
    end: this is [UB]. *)
From Coq Require Export ZArith List Bool Lia.
From Verif Require Export Outcome.
Export ListNotations.
Open Scope Z_scope.

(** lie_letter.h:38-67 *)
Inductive node := Let (a : Z) | Off (o : nat).
Inductive sign := SOpen | SComma | SClose | SNum (a : Z).
Definition at_ (data : list node) (i : nat) : outcome node := match nth_error data i with Some x => Ok x | None => UB end.

(** Lines 85-119 of lie_key.cpp *)
Fixpoint walk_single (fuel : nat) (data : list node) (i : nat) : outcome (list sign) :=
  let! x := at_ data i in
  match x with
  | Off o =>
      match fuel with
      | O => NoFuel
      | S fuel =>
          let! l := walk_single fuel data (i + o) in
          let! r := walk_single fuel data (i + o + 1) in
          Ok (SOpen :: l ++ SComma :: r ++ [SClose])
      end
  | Let a => Ok [SNum a]
  end.
Definition walk_pair (data : list node) : outcome (list sign) :=
  let! l := walk_single (length data) data 0 in
  let! r := walk_single (length data) data 1 in
  Ok (SOpen :: l ++ SComma :: r ++ [SClose]).
(** Lines 264-273; static_cast<let_t> of an offset is its number *)
Definition to_string (data : list node) : outcome (list sign) :=
  match data with
  | [Let a] => Ok [SNum a]
  | [Off o] => Ok [SNum (Z.of_nat o mod 2 ^ 16)]
  | _ => walk_pair data
  end.

(** lie_basis_info.h: width, dimension, parents, letter, child *)
Record basis := mkBasis { b_width : Z; b_pairs : list (Z * Z) }.
Definition dimension (B : basis) : Z := b_width B + Z.of_nat (length (b_pairs B)).
Definition has (B : basis) (k : Z) : bool := (1 <=? k) && (k <=? dimension B).
Definition letter (B : basis) (k : Z) : outcome bool := if has B k then Ok (k <=? b_width B) else UB.
Definition to_letter (B : basis) (k : Z) : outcome Z := if has B k then Ok k else UB.
Definition parents (B : basis) (k : Z) : outcome (Z * Z) :=
  match nth_error (b_pairs B) (Z.to_nat (k - b_width B - 1)) with Some p => if has B k then Ok p else UB | None => UB end.
Fixpoint position (l : list (Z * Z)) (x y : Z) : option nat :=
  match l with
  | [] => None
  | (a, b) :: l => if (a =? x) && (b =? y) then Some O else match position l x y with Some n => Some (S n) | None => None end
  end.
(** keys it has not are turned into its root, of which each letter is the child with itself *)
Definition own (B : basis) (k : Z) : Z := if has B k then k else 0.
Definition child (B : basis) (x y : Z) : option Z :=
  let x := own B x in
  let y := own B y in
  if (x =? 0) && (1 <=? y) && (y <=? b_width B) then Some y
  else match position (b_pairs B) x y with Some n => Some (b_width B + 1 + Z.of_nat n) | None => None end.

(** Lines 199-247 *)
Fixpoint parse_key (fuel : nat) (B : basis) (k : Z) : outcome (list node) :=
  match fuel with
  | O => NoFuel
  | S fuel =>
      let! b := letter B k in
      if b then let! a := to_letter B k in Ok [Let a]
      else
        let! p := parents B k in
        let! ll := letter B (fst p) in
        let! rl := letter B (snd p) in
        if ll && rl then let! a := to_letter B (fst p) in let! b := to_letter B (snd p) in Ok [Let a; Let b]
        else if ll then
          let! r := parse_key fuel B (snd p) in let! a := to_letter B (fst p) in Ok (Let a :: Off 1 :: r)
        else if rl then
          let! l := parse_key fuel B (fst p) in let! b := to_letter B (snd p) in Ok (Off 2 :: Let b :: l)
        else
          let! r := parse_key fuel B (snd p) in let! l := parse_key fuel B (fst p) in
          Ok (Off 2 :: Off (1 + length l) :: l ++ r)
  end.
(** Lines 249-256; keys have fewer generations than there are keys *)
Definition key_of_basis (B : basis) (k : Z) : outcome (list node) := parse_key (S (Z.to_nat k)) B k.

(** Objects of Python *)
Inductive obj := OInt (z : Z) | OList (l : list obj) | OOther.
Definition cast_let (z : Z) : outcome Z := if (0 <=? z) && (z <? 2 ^ 16) then Ok z else Throw.
(** Lines 342-370 *)
Definition join (l r : list node) : list node :=
  let lsize := match l with [_] => O | _ => length l end in
  (match l with [x] => x | _ => Off 2 end) :: (match r with [x] => x | _ => Off (1 + lsize) end) ::
  (match l with [_] => [] | _ => l end) ++ (match r with [_] => [] | _ => r end).
(** Lines 315-370 *)
Fixpoint parse_single (o : obj) : outcome (list node) :=
  match o with
  | OList [x; y] => let! l := parse_single x in let! r := parse_single y in Ok (join l r)
  | OList _ => Throw
  | OInt z => let! a := cast_let z in Ok [Let a]
  | OOther => Throw
  end.
(** Lines 372-383 *)
Definition helper (o : obj) : outcome (list node) :=
  match o with
  | OList [x; y] => let! l := parse_single x in let! r := parse_single y in Ok (join l r)
  | _ => Throw
  end.
(** Lines 406-456; the basis given, or that of the width and depth given *)
Definition make_lie_key (B : option basis) (args : list obj) : outcome (list node) :=
  match args with
  | [] => Throw
  | x :: _ =>
      match B with
      | None => Throw
      | Some B =>
          match x with
          | OInt z => let! a := cast_let z in if b_width B <? a then Throw else Ok [Let a]
          | OList _ => helper x
          | OOther => Throw
          end
      end
  end.

(** Lines 478-495 *)
Fixpoint to_internal (fuel : nat) (B : basis) (data : list node) (i : nat) : outcome (option Z) :=
  let! x := at_ data i in
  match x with
  | Let a => Ok (Some a)
  | Off o =>
      match fuel with
      | O => NoFuel
      | S fuel =>
          let! l := to_internal fuel B data (i + o) in
          let! r := to_internal fuel B data (i + 1) in
          match l, r with Some l, Some r => Ok (child B l r) | _, _ => Ok None end
      end
  end.
(** Lines 499-512: the key whose coefficient lie[key] gives *)
Definition index_of (B : basis) (data : list node) : outcome Z :=
  match data with
  | [Let a] => Ok a
  | [Off o] => Ok (Z.of_nat o)
  | _ => let! c := to_internal (length data) B data 0 in match c with Some k => Ok k | None => Ok 0 end
  end.

(** lie_key_iterator.cpp:41-60 *)
Record lkiter := mkIter { it_cur : Z; it_end : Z; it_basis : basis }.
Definition make_iter (B : basis) (cur stop : Z) : lkiter := mkIter cur (if dimension B <? stop then dimension B else stop) B.
Definition next (i : lkiter) : outcome (option (list node * lkiter)) :=
  if it_end i <? it_cur i then Ok None
  else let! d := key_of_basis (it_basis i) (it_cur i) in Ok (Some (d, mkIter (it_cur i + 1) (it_end i) (it_basis i))).
(** A loop over it *)
Fixpoint collect (fuel : nat) (i : lkiter) : outcome (list (list node)) :=
  match fuel with
  | O => NoFuel
  | S fuel =>
      let! n := next i in
      match n with None => Ok [] | Some (d, i) => let! l := collect fuel i in Ok (d :: l) end
  end.
