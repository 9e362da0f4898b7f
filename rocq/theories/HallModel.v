(** Model of the Lie basis of roughpy/compute/_src/lie_basis.c: dimension
    computation, construction of the Hall set, and lookups.  Line numbers refer to
    that file. *)
From Verif Require Export Outcome Mem Mobius.
Local Open Scope Z_scope.

(** lines 1775-1786 [int_pow]; [npy_intp] products may overflow *)
Fixpoint int_pow_loop (fuel : nat) (result b e : Z) : outcome Z :=
  match fuel with
  | O => NoFuel
  | S fuel =>
    if e >? 0 then
      let! r := (if Z.odd e then i64 (result * b) else Ok result) in
      let e' := Z.shiftr e 1 in
      let! b' := (if e' =? 0 then Ok b else i64 (b * b)) in
      int_pow_loop fuel r b' e'
    else Ok result
  end.
Definition int_pow (base exp : Z) : outcome Z := int_pow_loop (S (Z.to_nat exp)) 1 base exp.

(** lines 1788-1803 [compute_lie_degree_dim] *)
Definition compute_lie_degree_dim (width degree : Z) : outcome Z :=
  if degree <=? 0 then Ok 0
  else if degree =? 1 then Ok width
  else
    let! sum := for_ (zseq 1 (Z.to_nat degree)) 0 (fun d sum =>
      if Z.rem degree d =? 0 then
        let! mu := mobius_func d in
        if mu =? 0 then Ok sum
        else
          let! p := int_pow width (Z.quot degree d) in
          let! t := i64 (mu * p) in
          i64 (sum + t)
      else Ok sum) in
    Ok (Z.quot sum degree).

(** lines 1804-1813 [compute_lie_dim] *)
Definition compute_lie_dim (width depth : Z) : outcome Z :=
  for_ (zseq 1 (Z.to_nat depth)) 0 (fun d result =>
    let! x := compute_lie_degree_dim width d in i64 (result + x)).

(** [PyLieBasis]: width, depth, the (N,2) array [data] stored row by row, and
    [degree_begin].  The matrix caches and the hash are modelled elsewhere. *)
Record lie_basis := mkLB { lb_width : Z; lb_depth : Z; lb_data : buf Z; lb_db : buf Z }.

(** lines 273-279: the inner loop over [j], appending accepted pairs *)
Definition construct_j (i j_start j_upper : Z) (s : buf Z * Z) : outcome (buf Z * Z) :=
  for_ (zseq j_start (Z.to_nat (j_upper - j_start))) s (fun j s =>
    let '(data, size) := s in
    let! l := bget data (2 * j) in
    if l <=? i then
      let! data := bset data (2 * size) i in
      let! data := bset data (2 * size + 1) j in
      Ok (data, size + 1)
    else Ok (data, size)).

(** lines 263-283: body of the loop over [left_degree] *)
Definition construct_left (degree left_degree : Z) (s : buf Z * buf Z * Z) : outcome (buf Z * buf Z * Z) :=
  let '(data, db, size) := s in
  let right_degree := degree - left_degree in
  let! i_lower := bget db left_degree in
  let! i_upper := bget db (left_degree + 1) in
  let! j_lower := bget db right_degree in
  let! j_upper := bget db (right_degree + 1) in
  let! r := for_ (zseq i_lower (Z.to_nat (i_upper - i_lower))) (data, size) (fun i s =>
      let j_start := if i + 1 >? j_lower then i + 1 else j_lower in
      construct_j i j_start j_upper s) in
  let '(data, size) := r in
  let! db := bset db (degree + 1) size in
  Ok (data, db, size).

(** lines 201-334 [construct_lie_basis].  [junk1], [junk2] are the contents of the
    freshly allocated arrays; a negative array dimension is rejected by NumPy. *)
Definition construct_lie_basis (junk1 junk2 : Z -> Z) (width depth : Z) : outcome lie_basis :=
  let! dim := compute_lie_dim width depth in
  let! alloc := i64 (1 + dim) in
  let! dbn := i32 (depth + 2) in
  if dbn <? 0 then Throw else
  if alloc <? 0 then Throw else
  let db := mkbuf dbn junk1 in
  let data := mkbuf (2 * alloc) junk2 in
  let! db := bset db 0 0 in
  let! data := bset data 0 0 in
  let! data := bset data 1 0 in
  let! r := (if depth >? 0 then
      let! db := bset db 1 1 in
      let! data := for_ (zseq 1 (Z.to_nat width)) data (fun letter data =>
          let! data := bset data (2 * letter) 0 in
          bset data (2 * letter + 1) letter) in
      let size := 1 + width in
      let! db := bset db 2 size in
      Ok (data, db, size)
    else Ok (data, db, 1)) in
  let! r := for_ (zseq 2 (Z.to_nat (depth - 1))) r (fun degree s =>
      for_ (zseq 1 (Z.to_nat (degree / 2))) s (fun left_degree s => construct_left degree left_degree s)) in
  let '(data, db, _) := r in
  Ok (mkLB width depth data db).

(** lines 506-518, 618-626: [PyLieBasis_true_size], [size] *)
Definition lb_true_size (B : lie_basis) : outcome Z := bget (lb_db B) (lb_depth B + 1).
Definition lb_size (B : lie_basis) : outcome Z := let! s := lb_true_size B in Ok (s - 1).

(** lines 634-643 [get_basis_word] *)
Definition get_basis_word (B : lie_basis) (i : Z) : outcome (Z * Z) :=
  let! l := bget (lb_data B) (2 * i) in
  let! r := bget (lb_data B) (2 * i + 1) in
  Ok (l, r).

(** lines 645-659 [PyLieBasis_get_parents] *)
Definition get_parents (B : lie_basis) (index : Z) : outcome (Z * Z) :=
  let! ts := lb_true_size B in
  if (index <=? 0) || (index >=? ts) then Throw else get_basis_word B index.

(** lie_basis.h:90-98 *)
Definition hall_word_less (l r : Z * Z) : bool := (fst l <? fst r) || ((fst l =? fst r) && (snd l <? snd r)).
Definition hall_word_equal (l r : Z * Z) : bool := (fst l =? fst r) && (snd l =? snd r).

(** lines 717-737 [PyLieBasis_degree] *)
Fixpoint degree_loop (fuel : nat) (db : buf Z) (key pos diff : Z) : outcome Z :=
  match fuel with
  | O => NoFuel
  | S fuel =>
    if diff >? 0 then
      let half := Z.quot diff 2 in
      let other := pos + half in
      let! x := bget db other in
      if x <=? key then degree_loop fuel db key (other + 1) (diff - (half + 1))
      else degree_loop fuel db key pos half
    else Ok pos
  end.
Definition lb_degree (B : lie_basis) (key : Z) : outcome Z :=
  let! p := degree_loop (S (Z.to_nat (lb_depth B + 1))) (lb_db B) key 0 (lb_depth B + 1) in
  Ok (p - 1).

(** lines 690-706: the binary search of [PyLieBasis_find_word]; [inl] is the early
    return, [inr pos] normal exit. *)
Fixpoint find_loop (fuel : nat) (B : lie_basis) (target : Z * Z) (pos diff : Z) : outcome (Z + Z) :=
  match fuel with
  | O => NoFuel
  | S fuel =>
    if diff >? 0 then
      let half := Z.quot diff 2 in
      let other := pos + half in
      let! t := get_basis_word B other in
      if hall_word_equal t target then Ok (inl other)
      else if hall_word_less t target then find_loop fuel B target (other + 1) (diff - (half + 1))
      else find_loop fuel B target pos half
    else Ok (inr pos)
  end.

(** lines 661-715 [PyLieBasis_find_word]; [degree_hint] = -1 means "not known".
    Note the read of row [pos] before the test [pos < degree_end]. *)
Definition find_word (B : lie_basis) (target : Z * Z) (degree_hint : Z) : outcome Z :=
  let! degree := (if degree_hint =? -1 then
      let! l := lb_degree B (fst target) in
      let! r := lb_degree B (snd target) in
      Ok (l + r)
    else Ok degree_hint) in
  if degree >? lb_depth B then Ok (-1) else
  let! pos := bget (lb_db B) degree in
  let! degree_end := bget (lb_db B) (degree + 1) in
  let! s := find_loop (S (Z.to_nat (degree_end - pos))) B target pos (degree_end - pos) in
  match s with
  | inl p => Ok p
  | inr p =>
    let! t := get_basis_word B p in
    if (p <? degree_end) && hall_word_equal t target then Ok p else Ok (-1)
  end.
