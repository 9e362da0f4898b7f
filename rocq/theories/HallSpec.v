(** Hall sets, stated on binary trees and without reference to the code. *)
From Verif Require Import Outcome.

(** Bracketings of letters. *)
Inductive tree := Leaf (l : Z) | Node (a b : tree).

Fixpoint tdeg (t : tree) : Z := match t with Leaf _ => 1 | Node a b => tdeg a + tdeg b end.

(** Total order: by degree; letters by number; brackets lexicographically by left then
    right factor. *)
Fixpoint tcmp (s t : tree) : comparison :=
  match Z.compare (tdeg s) (tdeg t) with
  | Eq =>
    match s, t with
    | Leaf x, Leaf y => Z.compare x y
    | Node a b, Node c d => match tcmp a c with Eq => tcmp b d | o => o end
    | Leaf _, Node _ _ => Lt
    | Node _ _, Leaf _ => Gt
    end
  | o => o
  end.
Definition tlt (s t : tree) : Prop := tcmp s t = Lt.
Definition tle (s t : tree) : Prop := tlt s t \/ s = t.

(** The Hall set on letters 1..w: letters, and brackets [a,b] of elements with a < b,
    where b is a letter or the left factor of b is at most a. *)
Inductive Hall (w : Z) : tree -> Prop :=
| Hall_letter l : 1 <= l <= w -> Hall w (Leaf l)
| Hall_letter2 a l : Hall w a -> Hall w (Leaf l) -> tlt a (Leaf l) -> Hall w (Node a (Leaf l))
| Hall_bracket a c d : Hall w a -> Hall w (Node c d) -> tlt a (Node c d) -> tle c a -> Hall w (Node a (Node c d)).

(** Witt's number of degree [n] on [w] letters as a statement about its value:
    n * value = sum over d | n of mu(d) w^(n/d). *)
