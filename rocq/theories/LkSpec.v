(** Brackets of letters, how they are written, and which a basis has. *)
From Verif Require Export LkModel.
Open Scope Z_scope.

Inductive tree := L (a : Z) | B (l r : tree).
Fixpoint show (t : tree) : list sign :=
  match t with L a => [SNum a] | B l r => [SOpen] ++ show l ++ [SComma] ++ show r ++ [SClose] end.
(** nested lists of two, of numbers that fit 16 bits *)
Inductive means : obj -> tree -> Prop :=
| M_int z : 0 <= z < 2 ^ 16 -> means (OInt z) (L z)
| M_list x y l r : means x l -> means y r -> means (OList [x; y]) (B l r).
(** the bracket of a key of a basis *)
Inductive bracket (K : basis) : Z -> tree -> Prop :=
| B_letter k : 1 <= k <= b_width K -> bracket K k (L k)
| B_pair n x y l r : nth_error (b_pairs K) n = Some (x, y) -> bracket K x l -> bracket K y r -> bracket K (b_width K + 1 + Z.of_nat n) (B l r).
(** parents come before their brackets, and no bracket is there twice *)
Definition right_basis (K : basis) : Prop :=
  0 <= b_width K /\ NoDup (b_pairs K) /\
  forall n x y, nth_error (b_pairs K) n = Some (x, y) -> 1 <= x < b_width K + 1 + Z.of_nat n /\ 1 <= y < b_width K + 1 + Z.of_nat n.
(** this data stands for this bracket: it is written so *)
Definition stands (data : list node) (t : tree) : Prop := to_string data = Ok (show t).
