(** Keys, the tensor basis and unpacked words of the vendored algebra library
    (vendored/libalgebra_lite). *)
From Verif Require Export HssModel.
Open Scope Z_scope.

(** ** index_key.h with 8 degree digits over a 64-bit [size_t] *)
(** lines 46-53 *)
Definition mk_key (degree index : Z) : Z := u64 (u64 (u64 degree * 2 ^ 56) + u64 index).
(** lines 55-63 *)
Definition k_index (k : Z) : Z := Z.land k (2 ^ 56 - 1).
Definition k_degree (k : Z) : Z := Z.shiftr (Z.land k (2 ^ 64 - 2 ^ 56)) 56.
(** lines 65-76 *)
Definition k_eqb (a b : Z) : bool := a =? b.
Definition k_ltb (a b : Z) : bool := a <? b.
Definition k_leb (a b : Z) : bool := a <=? b.
(** lines 97-101 *)
Definition k_succ (k : Z) : Z := u64 (k + 1).

(** ** std::lower_bound: bisection for the first index at which the predicate fails *)
Fixpoint bisect (fuel : nat) (pred : Z -> outcome bool) (first len : Z) : outcome Z :=
  if len <=? 0 then Ok first else
  match fuel with
  | O => NoFuel
  | S fuel =>
      let half := len / 2 in
      let! b := pred (first + half) in
      if b then bisect fuel pred (first + half + 1) (len - half - 1) else bisect fuel pred first half
  end.

(** ** tensor_basis.h, basis/tensor_basis.cpp *)
Record tbasis := mkTB { tb_width : Z; tb_depth : Z; tb_powers : buf Z; tb_sizes : buf Z }.
(** push_back *)
Definition push (b : buf Z) (v : Z) : buf Z := mkbuf (blen b + 1) (fun i => if i =? blen b then v else bat b i).
Definition back (b : buf Z) : outcome Z := bget b (blen b - 1).
(** tensor_basis.cpp:12-25 *)
Definition tensor_basis (width depth : Z) : outcome tbasis :=
  let! (powers, sizes) := for_ (zseq 1 (Z.to_nat depth)) (mkbuf 1 (fun _ => 1), mkbuf 1 (fun _ => 1)) (fun _ s =>
    let '(powers, sizes) := s in
    let! p := back powers in
    let! s := back sizes in
    Ok (push powers (u64 (p * u64 width)), push sizes (u64 (1 + u64 (u64 width * s))))) in
  let! s := back sizes in
  Ok (mkTB width depth powers (push sizes (u64 (1 + u64 (u64 width * s))))).
(** tensor_basis.h:44-55 *)
Definition lparent (B : tbasis) (k : Z) : outcome Z :=
  let degree := k_degree k in
  if degree =? 0 then Ok (mk_key 0 0) else let! p := bget (tb_powers B) (degree - 1) in
  if p =? 0 then UB else Ok (mk_key 1 (k_index k / p)).
Definition rparent (B : tbasis) (k : Z) : outcome Z :=
  let degree := k_degree k in
  if degree =? 0 then Ok (mk_key 0 0) else let! p := bget (tb_powers B) (degree - 1) in
  if p =? 0 then UB else Ok (mk_key (degree - 1) (k_index k mod p)).
(** tensor_basis.h:57-65 *)
Definition parents (B : tbasis) (k : Z) : outcome (Z * Z) :=
  let degree := k_degree k in
  if degree =? 0 then Ok (mk_key 0 0, mk_key 0 0) else
  let tmp := k_index k in
  let! p := bget (tb_powers B) (degree - 1) in
  if p =? 0 then UB else
  let letter := tmp / p in
  Ok (mk_key 1 letter, mk_key (degree - 1) (u64 (tmp - u64 (letter * u64 (tb_width B))))).
(** tensor_basis.h:70-85 *)
Definition key_of_letter (letter : Z) : Z := mk_key 1 (u64 (letter - 1)).
Definition first_letter (B : tbasis) (k : Z) : outcome Z := let! p := lparent B k in Ok (u64 (k_index p + 1)).
Definition to_letter (k : Z) : Z := u64 (k_index k + 1).
Definition is_letter (k : Z) : bool := k_degree k =? 1.
(** tensor_basis.h:87-103, tensor_basis.cpp:47-50 *)
Definition start_of_degree (B : tbasis) (deg : Z) : outcome Z := if deg =? 0 then Ok 0 else bget (tb_sizes B) (deg - 1).
Definition tb_size (B : tbasis) (i : Z) : outcome Z := if i >=? 0 then bget (tb_sizes B) i else bget (tb_sizes B) (tb_depth B).
Definition size_of_degree (B : tbasis) (deg : Z) : outcome Z := bget (tb_powers B) deg.
(** tensor_basis.cpp:27-46 *)
Definition key_to_index (B : tbasis) (k : Z) : outcome Z := let! s := start_of_degree B (k_degree k) in Ok (u64 (s + k_index k)).
Definition index_to_key (B : tbasis) (i : Z) : outcome Z :=
  if i =? 0 then Ok (mk_key 0 0) else
  let n := blen (tb_sizes B) in
  let! it := bisect (Z.to_nat n) (fun j => let! s := bget (tb_sizes B) j in Ok (s <=? i)) 0 n in
  if it =? n then Ok (mk_key 0 0) else
  let! s := bget (tb_sizes B) (it - 1) in Ok (mk_key it (u64 (i - s))).
(** tensor_basis.cpp:82-88 *)
Definition advance_key (B : tbasis) (k : Z) : outcome Z :=
  let degree := k_degree k in
  let k := k_succ k in
  let! p := bget (tb_powers B) degree in
  Ok (if k_index k >=? p then mk_key (degree + 1) 0 else k).
(** tensor_basis.h:114-132 *)
Fixpoint reverse_idx_loop (n : nat) (width idx result : Z) : outcome Z :=
  match n with
  | O => Ok result
  | S n =>
      if u64 width =? 0 then UB else
      let q := idx / u64 width in
      reverse_idx_loop n width q (u64 (u64 (result * u64 width) + u64 (idx - u64 (q * u64 width))))
  end.
Definition reverse_key (B : tbasis) (k : Z) : outcome Z :=
  let! r := reverse_idx_loop (Z.to_nat (k_degree k)) (tb_width B) (k_index k) 0 in Ok (mk_key (k_degree k) r).
(** tensor_basis.cpp:58-80 [print_key]: the letters printed, in order *)
Fixpoint key_letters_loop (n : nat) (width idx : Z) (tmp : list Z) : outcome (list Z) :=
  match n with
  | O => Ok tmp
  | S n => if u64 width =? 0 then UB else key_letters_loop n width (idx / u64 width) (tmp ++ [1 + idx mod u64 width])
  end.
Definition key_letters (B : tbasis) (k : Z) : outcome (list Z) :=
  let! l := key_letters_loop (Z.to_nat (k_degree k)) (tb_width B) (k_index k) [] in Ok (rev l).

(** ** unpacked_tensor_word.h, basis/unpacked_tensor_word.cpp: the letters ([unsigned short]) are
    stored last letter first. *)
Definition u16 (z : Z) : Z := z mod 2 ^ 16.
Record uword := mkUW { uw_width : Z; uw_data : list Z }.
(** cpp:11-22 *)
Fixpoint unpack_loop (n : nat) (width index : Z) : outcome (list Z) :=
  match n with
  | O => Ok []
  | S n =>
      if u64 width =? 0 then UB else
      let q := index / u64 width in
      let! r := unpack_loop n width q in
      Ok (u16 (u64 (index - u64 (q * u64 width))) :: r)
  end.
Definition unpack (width key : Z) : outcome uword :=
  let! d := unpack_loop (Z.to_nat (k_degree key)) width (k_index key) in Ok (mkUW width d).
(** h:28-38: from an initializer list; cpp:37-46: from a vector, stored in the order given *)
Definition uw_of_list (width : Z) (l : list Z) : uword := mkUW width (rev l).
Definition uw_of_vector (width : Z) (l : list Z) : uword := mkUW width l.
(** cpp:48-51: [depth] letters, all zero *)
Definition uw_zero (width depth : Z) : uword := mkUW width (repeat 0 (Z.to_nat depth)).
(** h:50-54 *)
Definition uw_at (u : uword) (i : Z) : outcome Z :=
  let n := Z.of_nat (length (uw_data u)) in
  if (0 <=? i) && (i <? n) then Ok (nth (Z.to_nat (n - 1 - i)) (uw_data u) 0) else UB.
(** cpp:53-70: the do-while loop over positions; width at least 1 *)
Fixpoint advance_data (width : Z) (data : list Z) (number : Z) : list Z :=
  match data with
  | [] => []
  | x :: data =>
      let x := u16 (x + number) in
      if x >=? width then
        let number := x / width in
        u16 (x - number * width) :: (if number >? 0 then advance_data width data number else data)
      else x :: data
  end.
Definition uw_advance (u : uword) (number : Z) : uword := mkUW (uw_width u) (advance_data (uw_width u) (uw_data u) number).
(** cpp:86-116 *)
Definition pack_with_base (u : uword) (base offset : Z) : Z :=
  fold_left (fun r x => u64 (u64 (r * u64 base) + (offset + x))) (rev (uw_data u)) 0.
Definition uw_to_index (u : uword) : Z := pack_with_base u (uw_width u) 0.
Definition uw_to_reverse_index (u : uword) : Z := fold_left (fun r x => u64 (u64 (r * u64 (uw_width u)) + x)) (uw_data u) 0.
Definition pack (u : uword) : Z := mk_key (Z.of_nat (length (uw_data u))) (uw_to_index u).
(** cpp:118-152 *)
Definition uw_reverse (u : uword) : uword := mkUW (uw_width u) (rev (uw_data u)).
Definition uw_split (u : uword) (left_degree : Z) : outcome (uword * uword) :=
  let n := Z.of_nat (length (uw_data u)) in
  if left_degree >=? n then Ok (u, mkUW (uw_width u) [])
  else if left_degree <? 0 then UB
  else Ok (mkUW (uw_width u) (skipn (Z.to_nat (n - left_degree)) (uw_data u)), mkUW (uw_width u) (firstn (Z.to_nat (n - left_degree)) (uw_data u))).
Definition uw_mul (u v : uword) : uword := mkUW (Z.max (uw_width u) (uw_width v)) (uw_data v ++ uw_data u).
(** cpp:154-176 *)
Definition uw_eqb (u v : uword) : bool := Nat.eqb (length (uw_data u)) (length (uw_data v)) && forallb (fun p => fst p =? snd p) (combine (uw_data u) (uw_data v)).
Fixpoint zlex (a b : list Z) : bool :=
  match a, b with
  | [], [] => false
  | [], _ :: _ => true
  | _ :: _, [] => false
  | x :: a, y :: b => if x <? y then true else if y <? x then false else zlex a b
  end.
Definition uw_ltb (u v : uword) : bool :=
  if Nat.ltb (length (uw_data v)) (length (uw_data u)) then false
  else if Nat.ltb (length (uw_data u)) (length (uw_data v)) then true
  else zlex (uw_data u) (uw_data v).
