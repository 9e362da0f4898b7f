(** The Hall set of the vendored algebra library (vendored/libalgebra_lite/hall_set.h and
    basis/hall_set.cpp).  Vectors are lists, read with a bounds check; indices into them are
    mathematical integers (they are bounded by the lengths of vectors in memory). *)
From Verif Require Export KeyModel.
Open Scope Z_scope.

Definition vlen {A} (l : list A) : Z := Z.of_nat (length l).
Definition vget {A} (l : list A) (i : Z) : outcome A :=
  if i <? 0 then UB else match nth_error l (Z.to_nat i) with Some x => Ok x | None => UB end.

(** boost flat_map from pairs of keys to keys: [insert] keeps an entry already present.  Kept as an
    association list; the order of the entries is not observable through [find]. *)
Definition rmap := list ((Z * Z) * Z).
Definition pair_eqb (p q : Z * Z) : bool := k_eqb (fst p) (fst q) && k_eqb (snd p) (snd q).
Fixpoint rm_find (m : rmap) (p : Z * Z) : option Z :=
  match m with [] => None | (q, k) :: m => if pair_eqb q p then Some k else rm_find m p end.
Definition rm_insert (m : rmap) (p : Z * Z) (k : Z) : rmap := match rm_find m p with Some _ => m | None => m ++ [(p, k)] end.

(** hall_set.h:54-76; [letters] and [l2k] are never read *)
Record hall_set := mkHS { hs_degree : Z; hs_data : list (Z * Z); hs_rev : rmap; hs_ranges : list (Z * Z); hs_sizes : list Z }.
Definition root_element : Z := mk_key 0 0.

(** hall_set.cpp:95-104: the loop over [j] *)
Definition grow_j (d e ik j_lower j_upper i : Z) (s : list (Z * Z) * rmap * Z) : outcome (list (Z * Z) * rmap * Z) :=
  let j0 := Z.max j_lower (i + 1) in
  for_ (zseq j0 (Z.to_nat (j_upper - j0))) s (fun j s =>
    let '(data, rev, k_index) := s in
    let jk := mk_key (d - e) (j - j_lower) in
    let! p := vget data j in
    if k_leb (fst p) ik then Ok (data ++ [(ik, jk)], rm_insert rev (ik, jk) (mk_key d k_index), k_index + 1)
    else Ok (data, rev, k_index)).
(** hall_set.cpp:86-106 *)
Definition grow_e (d : Z) (ranges : list (Z * Z)) (e : Z) (s : list (Z * Z) * rmap * Z) : outcome (list (Z * Z) * rmap * Z) :=
  let! ri := vget ranges e in
  let! rj := vget ranges (d - e) in
  for_ (zseq (fst ri) (Z.to_nat (snd ri - fst ri))) s (fun i s => grow_j d e (mk_key e (i - fst ri)) (fst rj) (snd rj) i s).
(** hall_set.cpp:84-117: one degree; [2 * e <= d] *)
Definition grow_degree (d : Z) (H : hall_set) : outcome hall_set :=
  let! s := for_ (zseq 1 (Z.to_nat (d / 2))) (hs_data H, hs_rev H, 0) (fun e s => grow_e d (hs_ranges H) e s) in
  let '(data, rev, _) := s in
  let! r := vget (hs_ranges H) (hs_degree H) in
  Ok (mkHS (hs_degree H + 1) data rev (hs_ranges H ++ [(snd r, vlen data)]) (hs_sizes H ++ [vlen data - 1])).
(** hall_set.cpp:81-118 *)
Definition grow_up (H : hall_set) (new_depth : Z) : outcome hall_set :=
  for_ (zseq (hs_degree H + 1) (Z.to_nat (new_depth - hs_degree H))) H (fun d H => grow_degree d H).
(** hall_set.cpp:42-79; reserving a negative number of elements throws *)
Definition hs_base (width : Z) : hall_set :=
  let letters := zseq 1 (Z.to_nat width) in
  let data := (root_element, root_element) :: map (fun l => (root_element, mk_key 1 (l - 1))) letters in
  let rev := fold_left (fun m l => rm_insert m (root_element, mk_key 1 (l - 1)) (mk_key 1 (l - 1))) letters [] in
  mkHS 1 data rev [(0, 1); (1, vlen data)] [0; width].
Definition new_hall_set (width depth : Z) : outcome hall_set :=
  if width <? 0 then Throw else if depth >? 1 then grow_up (hs_base width) depth else Ok (hs_base width).
(** hall_set.cpp:134-137: nothing is initialised *)
Definition hs_copy (junk : Z) (existing : hall_set) (deg : Z) : hall_set := mkHS junk [] [] [] [].

(** hall_set.cpp:124-133 *)
Definition hs_size (H : hall_set) (deg : Z) : outcome Z :=
  let n := vlen (hs_sizes H) in
  if (deg >=? 0) && (deg <? n) then vget (hs_sizes H) deg
  else if (deg <? 0) && (deg >=? - n) then vget (hs_sizes H) (n + deg)
  else vget (hs_sizes H) (n - 1).
(** hall_set.cpp:138-142 *)
Definition hs_size_of_degree (H : hall_set) (deg : Z) : outcome Z := let! r := vget (hs_ranges H) deg in Ok (snd r - fst r).
(** hall_set.cpp:147-153, 168-176 *)
Definition hs_find (H : hall_set) (p : Z * Z) : option Z := rm_find (hs_rev H) p.
Definition hs_key_at (H : hall_set) (p : Z * Z) : Z := match hs_find H p with Some k => k | None => root_element end.
(** hall_set.cpp:158-167, with assertions off *)
Definition hs_parents (H : hall_set) (k : Z) : outcome (Z * Z) :=
  let! r := vget (hs_ranges H) (k_degree k) in vget (hs_data H) (k_index k + fst r).
(** hall_set.cpp:177-197 *)
Definition index_of_key (H : hall_set) (k : Z) : outcome Z := let! s := hs_size H (k_degree k - 1) in Ok (u64 (k_index k + s)).
Definition key_of_index (H : hall_set) (index : Z) : outcome Z :=
  let n := vlen (hs_sizes H) in
  if n =? 0 then UB else
  let! it := bisect (Z.to_nat n) (fun j => let! s := vget (hs_sizes H) j in Ok (s <=? index)) 1 (n - 1) in
  if it =? n then Ok root_element else
  let! s := vget (hs_sizes H) (it - 1) in Ok (mk_key it (u64 (index - s))).
(** hall_set.cpp:221-228 *)
Definition hs_advance (H : hall_set) (k : Z) : outcome Z :=
  let degree := k_degree k in
  let! bound := hs_size_of_degree H degree in
  let k := k_succ k in
  Ok (if k_index k >=? bound then mk_key (degree + 1) 0 else k).

(** hall_set.h:114-135, 216-243: [hall_extension]; [func] on letters, [binop] on values, a cache that
    only grows.  The recursion is on fuel.  The left operand is computed first here; the two operands are
    indeterminately sequenced in C++, and the second theorem on this covers every starting cache. *)
Fixpoint c_find {A} (c : list (Z * A)) (k : Z) : option A :=
  match c with [] => None | (q, v) :: c => if k_eqb q k then Some v else c_find c k end.
Fixpoint extend {A} (fuel : nat) (H : hall_set) (func : Z -> A) (binop : A -> A -> A) (key : Z) (c : list (Z * A)) : outcome (A * list (Z * A)) :=
  match fuel with
  | O => NoFuel
  | S fuel =>
      match c_find c key with
      | Some v => Ok (v, c)
      | None =>
          if k_degree key =? 1 then let v := func (u64 (k_index key + 1)) in Ok (v, (key, v) :: c)
          else
            let! p := hs_parents H key in
            let! (a, c) := extend fuel H func binop (fst p) c in
            let! (b, c) := extend fuel H func binop (snd p) c in
            let v := binop a b in Ok (v, (key, v) :: c)
      end
  end.
