(** TensorKey of Python: roughpy/src/algebra/tensor_key.cpp:45-257, tensor_key.h:44-53, and
    tensor_key_iterator.cpp:40-60.

    A basis is its width and its depth (contexts are kept, lite_context.cpp:114, so there is one for each).
    Widths and depths are taken to be at least 0.  The contexts there are are a parameter.  Where the type
    of an argument is wrong, pybind raises an error. *)
From Coq Require Export ZArith List Bool Lia.
From Verif Require Export Outcome.
Export ListNotations.
Open Scope Z_scope.

Definition word64 (z : Z) : Z := z mod 2 ^ 64.
(** [let_t] is 16 bits, core types.hpp:55 *)
Definition let16 (z : Z) : Z := z mod 2 ^ 16.
Record tkey := mkTK { tk_width : Z; tk_depth : Z; tk_key : Z }.

(** Lines 49-58, and 201-206 *)
Definition key_of (w : Z) (l : list Z) : Z := fold_left (fun k a => word64 (word64 (k * w) + a)) l 0.
(** Lines 112-126, before the letters are reversed *)
Fixpoint letters_loop (fuel : nat) (w k : Z) : outcome (list Z) :=
  if k =? 0 then Ok [] else
  match fuel with
  | O => NoFuel
  | S fuel => if w =? 0 then UB else let t := k - 1 in let! l := letters_loop fuel w (t / w) in Ok (let16 (1 + t mod w) :: l)
  end.
Definition letters_of (w k : Z) : outcome (list Z) := let! l := letters_loop (Z.to_nat k) w k in Ok (rev l).
Definition to_letters (k : tkey) : outcome (list Z) := letters_of (tk_width k) (tk_key k).
Definition from_letters (w d : Z) (l : list Z) : tkey := mkTK w d (key_of w l).
(** Lines 83-105 *)
Fixpoint shift (w : Z) (n : nat) : Z := match n with O => 1 | S n => word64 (shift w n * w) end.
Definition split_n (k : tkey) (n : Z) : outcome (tkey * tkey) :=
  let empty := mkTK (tk_width k) (tk_depth k) 0 in
  if tk_key k =? 0 then Ok (empty, empty)
  else if n <=? 0 then Ok (k, empty)
  else if tk_depth k <=? n then Ok (empty, k)
  else
    let s := shift (tk_width k) (Z.to_nat n) in
    if s =? 0 then UB else Ok (mkTK (tk_width k) (tk_depth k) ((tk_key k - 1) / s), mkTK (tk_width k) (tk_depth k) (1 + (tk_key k - 1) mod s)).
(** Lines 127-131 *)
Definition tk_equals (a b : tkey) : bool := (tk_width a =? tk_width b) && (tk_key a =? tk_key b).
(** Lines 136-141 *)
Definition reverse (k : tkey) : outcome tkey := let! l := to_letters k in Ok (from_letters (tk_width k) (tk_depth k) (rev l)).
(** Line 247 *)
Definition degree (k : tkey) : outcome Z := let! l := to_letters k in Ok (Z.of_nat (length l)).
(** vector::insert: the elements with others put before position [p]; the position of the first of them *)
Definition insert (l : list Z) (p : nat) (x : list Z) : list Z * nat := (firstn p l ++ x ++ skipn p l, p).
(** Lines 213-228 *)
Definition times (a b : tkey) : outcome tkey :=
  if (tk_width a =? tk_width b) && (tk_depth a =? tk_depth b) then
    let! la := to_letters a in let! lb := to_letters b in
    let (l, it) := insert [] 0 la in
    let (l, _) := insert l it lb in
    Ok (from_letters (tk_width a) (tk_depth a) l)
  else Throw.

(** tensor_key.h:44-53 *)
Fixpoint power (fuel : nat) (a e : Z) : Z :=
  if e =? 0 then 1 else if e =? 1 then a else
  match fuel with O => 0 | S fuel => let r := power fuel a (e / 2) in word64 (word64 (r * r) * (if e mod 2 =? 1 then a else 1)) end.

Section Construct.
  (** whether there is a context of this width and depth *)
  Variable context : Z -> Z -> bool.
  Definition get_basis (w d k : Z) : outcome tkey := if context w d then Ok (mkTK w d k) else Throw.
  (** The arguments: letters, one by one or in a sequence, and those given by name *)
  Record tkargs := mkArgs { given : list Z; index : option Z; width : option Z; depth : option Z }.
  Definition is_let (a : Z) : bool := (0 <=? a) && (a <? 2 ^ 16).
  Definition is_deg (d : Z) : bool := (0 <=? d) && (d <? 2 ^ 31).
  Definition max_letter (l : list Z) : Z := fold_right Z.max 0 l.
  (** Lines 143-211.  [none]: whether no positional argument is given *)
  Definition construct (none : bool) (a : tkargs) : outcome tkey :=
    match none, index a with
    | true, Some i =>
        match width a, depth a with
        | Some w, Some d =>
            if is_deg w && is_deg d && (0 <=? i) && (i <? 2 ^ 64) then
              if w =? 1 then UB
              else if i <? word64 (power 32 w (d + 1) - 1) / word64 (w - 1) then get_basis w d i else Throw
            else Throw
        | _, _ => Throw
        end
    | _, _ =>
        let l := given a in
        if negb (forallb is_let l) then Throw
        else
          let! w := match width a with Some w => if is_deg w then Ok w else Throw | None => Ok (max_letter l) end in
          let! d := match depth a with Some d => if is_deg d then Ok d else Throw | None => Ok (Z.of_nat (length l)) end in
          if d <? Z.of_nat (length l) then Throw
          else if negb (match l with [] => true | _ => false end) && (w <? max_letter l) then Throw
          else get_basis w d (key_of w l)
    end.
End Construct.

(** tensor_key_iterator.cpp:40-60: the keys still to come; [dim] is the dimension of the basis.  The loop
    runs as long as it is asked; [fuel] is how often. *)
Record tkiter := mkIter { it_cur : Z; it_end : Z; it_width : Z; it_depth : Z }.
Definition make_iter (w d dim : Z) (cur : Z) (stop : option Z) : tkiter :=
  let e := match stop with Some e => e | None => 2 ^ 64 - 1 end in mkIter cur (if dim <=? e then dim else e) w d.
Definition next (i : tkiter) : option (tkey * tkiter) :=
  if it_end i <=? it_cur i then None else Some (mkTK (it_width i) (it_depth i) (it_cur i), mkIter (it_cur i + 1) (it_end i) (it_width i) (it_depth i)).
Fixpoint keys (fuel : nat) (i : tkiter) : list tkey * bool :=
  match fuel with
  | O => ([], false)
  | S fuel => match next i with None => ([], true) | Some (k, i) => let (l, b) := keys fuel i in (k :: l, b) end
  end.
