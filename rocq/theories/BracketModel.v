(** Model of roughpy/compute/_src/lie_multiplication_cache.cpp: brackets of basis
    elements with a cache shared by all bases of one width.  Line numbers refer to that
    file.  Coefficients are unbounded integers here ([npy_intp] in the code; overflow
    of a coefficient is not modelled), and memory exhaustion is not modelled. *)
From Verif Require Export HallModel.
Local Open Scope Z_scope.

(** lines 93-99: one slot of [cache->cache].  [Null] is a default-constructed pointer,
    created by [operator[]] before the value is computed. *)
Inductive cell := Absent | Null | Entry (e : list (Z * Z)).
Definition lcache := Z -> Z -> cell.
Definition cset (c : lcache) (a b : Z) (x : cell) : lcache :=
  fun a' b' => if (a' =? a) && (b' =? b) then x else c a' b'.
Definition lc_empty : lcache := fun _ _ => Absent.

(** lines 207-217: [emplace(key, 0)], add, erase when the sum is zero; [std::map] as a
    list sorted by key *)
Fixpoint vals_add (m : list (Z * Z)) (key v : Z) : list (Z * Z) :=
  match m with
  | [] => if v =? 0 then [] else [(key, v)]
  | (k, x) :: m' =>
    if key <? k then (if v =? 0 then m else (key, v) :: m)
    else if key =? k then (if x + v =? 0 then m' else (k, x + v) :: m')
    else (k, x) :: vals_add m' key v
  end.
Definition vals_add_all (f : Z) (ip m : list (Z * Z)) : list (Z * Z) :=
  fold_left (fun m p => vals_add m (fst p) (f * snd p)) ip m.

(** A call returns an entry, or a null pointer with an error set ([None]); the cache is
    updated in both cases. *)
Definition getter := lcache -> Z * Z -> outcome (option (list (Z * Z)) * lcache).

Section Body.
  Variable get : getter.

  (** lines 195-218: the loop over the terms of the outer product *)
  Fixpoint half_loop (outer : list (Z * Z)) (inner_right sign : Z) (vals : list (Z * Z)) (c : lcache)
      : outcome (option (list (Z * Z)) * lcache) :=
    match outer with
    | [] => Ok (Some vals, c)
    | (x, val) :: rest =>
      let! r := get c (x, inner_right) in
      match r with
      | (None, c) => Ok (None, c)
      | (Some ip, c) => half_loop rest inner_right sign (vals_add_all (sign * val) ip vals) c
      end
    end.

  (** lines 178-221 [compute_bracket_half] *)
  Definition bracket_half (outer_word : Z * Z) (inner_right sign : Z) (vals : list (Z * Z)) (c : lcache)
      : outcome (option (list (Z * Z)) * lcache) :=
    let! r := get c outer_word in
    match r with
    | (None, c) => Ok (None, c)
    | (Some op, c) => half_loop op inner_right sign vals c
    end.

  (** lines 242-308 [compute_bracket_slow] *)
  Definition bracket_slow (B : lie_basis) (c : lcache) (word : Z * Z) (sign : Z)
      : outcome (option (list (Z * Z)) * lcache) :=
    match get_parents B (snd word) with
    | Ok (p0, p1) =>
      let! r := (if (p0 >? 0) && negb (fst word =? p0) then bracket_half (fst word, p0) p1 sign [] c
                 else Ok (Some [], c)) in
      match r with
      | (None, c) => Ok (None, c)
      | (Some vals, c) =>
        if negb (fst word =? p1) then bracket_half (fst word, p1) p0 (- sign) vals c
        else Ok (Some vals, c)
      end
    | Throw => Ok (None, c)
    | UB => UB
    | NoFuel => NoFuel
    end.

  (** lines 310-367 [compute_bracket] *)
  Definition compute_bracket (B : lie_basis) (c : lcache) (word : Z * Z) (degree : Z)
      : outcome (option (list (Z * Z)) * lcache) :=
    let '(target, sign) := if fst word >? snd word then ((snd word, fst word), -1) else (word, 1) in
    let! pos := find_word B target degree in
    if pos >? 0 then Ok (Some [(pos, sign)], c)
    else bracket_slow B c target sign.
End Body.

(** lines 369-434 [PyLieMultiplicationCache_get]; the width of the cache equals that of
    the basis, as both come from [get_lie_multiplication_cache] (lines 143-176). *)
Fixpoint lmc_get (fuel : nat) (B : lie_basis) : getter := fun c word =>
  match fuel with
  | O => NoFuel
  | S fuel =>
    let '(a, b) := word in
    if (a =? 0) || (b =? 0) then Ok (None, c)
    else if a =? b then Ok (Some [], c)
    else
      let! lhs_deg := lb_degree B a in
      let! rhs_deg := lb_degree B b in
      let degree := lhs_deg + rhs_deg in
      if degree >? lb_depth B then Ok (Some [], c)
      else
        let! true_size := lb_true_size B in
        if (a >=? true_size) || (b >=? true_size) then Ok (Some [], c)
        else
          match c a b with
          | Entry e => Ok (Some e, c)
          | _ =>
            let c := match c a b with Absent => cset c a b Null | _ => c end in
            match c b a with
            | Null => UB (* it->second is a null pointer *)
            | Entry e =>
              let e' := map (fun p => (fst p, - snd p)) e in
              Ok (Some e', cset c a b (Entry e'))
            | Absent =>
              let! r := compute_bracket (lmc_get fuel B) B c (a, b) degree in
              match r with
              | (None, c) => Ok (None, c)
              | (Some e, c) => Ok (Some e, cset c a b (Entry e))
              end
            end
          end
  end.

(** lie_basis.c lines 341-411 [check_data_arrays_basics] and 451-501 [lie_basis_init]
    with user-supplied arrays (already known to be contiguous [intp] arrays of the right
    rank): [rows] is the first dimension of [data]. *)
Definition lie_basis_of_data (width depth rows : Z) (db data : buf Z) : outcome lie_basis :=
  if blen db <? depth + 2 then Throw
  else
    let! d0 := bget db 0 in
    if negb (d0 =? 0) then Throw
    else
      let! ok1 := (if depth >=? 1 then let! d2 := bget db 2 in let! d1 := bget db 1 in Ok (d2 - d1 =? width) else Ok true) in
      if negb ok1 then Throw
      else
        let! ok2 := for_ (zseq 2 (Z.to_nat (depth - 1))) true (fun i ok =>
          let! a := bget db i in let! b := bget db (i - 1) in Ok (ok && negb (a <=? b))) in
        if negb ok2 then Throw
        else
          let! top := bget db (depth + 1) in
          if negb (rows =? top) then Throw
          else Ok (mkLB width depth data db).
