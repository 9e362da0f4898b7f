(** Words and their places in the order of the basis: by length, then letter by letter. *)
From Verif Require Export TkModel.
Open Scope Z_scope.

(** letters 1, ..., w *)
Definition a_word (w : Z) (l : list Z) : Prop := Forall (fun a => 1 <= a <= w) l.
Fixpoint lex (l l' : list Z) : Prop :=
  match l, l' with a :: l, b :: l' => a < b \/ (a = b /\ lex l l') | _, _ => False end.
Definition before (l l' : list Z) : Prop := (length l < length l')%nat \/ (length l = length l' /\ lex l l').
(** [number w d]: how many words of at most [d] letters there are *)
Fixpoint number (w : Z) (d : nat) : Z := match d with O => 1 | S d => 1 + w * number w d end.
(** The word of a key *)
Definition word_of (k : tkey) (l : list Z) : Prop := a_word (tk_width k) l /\ to_letters k = Ok l.
(** Widths and depths whose words can be numbered in 64 bits, with room for one more letter *)
Definition fits (w d : Z) : Prop := 0 <= w < 2 ^ 16 /\ 0 <= d < 2 ^ 31 /\ w ^ (d + 1) <= 2 ^ 64.
(** A key whose word has at most [depth] letters *)
Definition usual (k : tkey) : Prop :=
  1 <= tk_width k /\ fits (tk_width k) (tk_depth k) /\ 0 <= tk_key k < number (tk_width k) (Z.to_nat (tk_depth k)).
(** The last [n] letters of a word (all, if it has fewer), and those before *)
Definition splits (l : list Z) (n : Z) (a b : list Z) : Prop := l = a ++ b /\ Z.of_nat (length b) = Z.min (Z.max n 0) (Z.of_nat (length l)).
(** split_n gives these two words *)
Definition split_right (k : tkey) (n : Z) (a b : list Z) : Prop := exists x y, split_n k n = Ok (x, y) /\ word_of x a /\ word_of y b.
(** What a call stands for: a width, a depth and a word.  [none]: no positional arguments.  An index is that of the
    word's key. *)
Inductive stands_for : bool -> tkargs -> Z -> Z -> list Z -> Prop :=
| Sf_index a i w d l : index a = Some i -> width a = Some w -> depth a = Some d -> (length l <= Z.to_nat d)%nat -> a_word w l -> letters_of w i = Ok l -> stands_for true a w d l
| Sf_letters none a w d : none = false \/ index a = None ->
    (width a = Some w \/ (width a = None /\ (given a = [] /\ w = 0 \/ In w (given a)))) ->
    (depth a = Some d \/ (depth a = None /\ d = Z.of_nat (length (given a)))) -> Z.of_nat (length (given a)) <= d -> a_word w (given a) ->
    stands_for none a w d (given a).
