(** Model of intervals/src/segmentation.cpp, dyadic_searcher.{h,cpp} and
    scaled_predicate.cpp: [segment(interval, predicate, max_depth)].
    The predicate is a pure function of the interval it is given.  Parameters are
    exact rationals (the rounding of  y * scale + shift  is not modelled). *)
From Verif Require Export IntervalModel.
Open Scope Z_scope.

(** dyadic_searcher.h:50-66: the operands of both comparators are brought to the
    larger power with [<<].  A left shift of a negative number is given its usual
    two's complement value. *)
Definition lsh (k n : Z) : outcome Z :=
  if (0 <=? n) && (n <=? 31) then i32 (k * 2 ^ n) else UB.
Definition ds_cmp (cmp : Z -> Z -> bool) (l r : dyadic) : outcome bool :=
  let m := Z.max (power l) (power r) in
  let! dl := i32 (m - power l) in let! dr := i32 (m - power r) in
  let! a := lsh (mult l) dl in let! b := lsh (mult r) dr in Ok (cmp a b).
Definition ds_less := ds_cmp Z.ltb.
Definition ds_greater := ds_cmp Z.gtb.

(** scaled_predicate.cpp:37-45 applied to a DyadicInterval. *)
Definition scaled (P : ri -> bool) (shift scale : Q) (di : dint) : outcome bool :=
  let! lo := dinf di in let! hi := dsup di in
  Ok (P (ri_make (to_param lo * scale + shift) (to_param hi * scale + shift) (di_t di))%Q).

Section Searcher.
  Variable pred : dint -> outcome bool.
  Variable max_depth : Z.

  (** [--di], [++di]: dyadic.cpp:52-67 *)
  Definition di_decr (di : dint) : outcome dint := let! k := i32 (di_k di - 1) in Ok (mkDI k (di_n di) (di_t di)).
  Definition di_incr (di : dint) : outcome dint := let! k := i32 (di_k di + 1) in Ok (mkDI k (di_n di) (di_t di)).

  (** dyadic_searcher.cpp:62-80; the deque is a list, front first. *)
  Fixpoint left_loop (fuel : nat) (di : dint) (current : list dint) : outcome (list dint) :=
    match fuel with
    | O => NoFuel
    | S f =>
        if di_n di <? max_depth then
          let! lft := shrink_interval_left di 1 in
          let! rgt := shrink_interval_right di in
          let! g := pred rgt in
          if g then left_loop f lft (rgt :: current) else left_loop f rgt current
        else Ok current
    end.
  (** dyadic_searcher.cpp:41-81 *)
  Definition expand_left (current : list dint) : outcome (list dint) :=
    match current with
    | [] => UB
    | di :: _ =>
        let fuel := S (Z.to_nat (max_depth - di_n di)) in
        let! al := aligned di in
        let! di := di_decr di in
        if al then
          let! g := pred di in
          if g then let! di' := di_decr di in left_loop fuel di' (di :: current)
          else left_loop fuel di current
        else left_loop fuel di current
    end.
  (** dyadic_searcher.cpp:93-112 *)
  Fixpoint right_loop (fuel : nat) (di : dint) (current : list dint) : outcome (list dint) :=
    match fuel with
    | O => NoFuel
    | S f =>
        if di_n di <? max_depth then
          let! rgt := shrink_interval_right di in
          let! lft := shrink_interval_left di 1 in
          let! g := pred lft in
          if g then right_loop f rgt (current ++ [lft]) else right_loop f lft current
        else Ok current
    end.
  (** dyadic_searcher.cpp:82-113 *)
  Definition expand_right (current : list dint) : outcome (list dint) :=
    match current with
    | [] => UB
    | d0 :: _ =>
        let di := last current d0 in
        let! di := di_incr di in
        right_loop (S (Z.to_nat (max_depth - di_n di))) di current
    end.

  (** m_seen (dyadic_searcher.h:71): pairs (sup, inf) in decreasing order of sup;
      [m_seen[s] = i] overwrites the value under an equivalent key.  The map is
      searched from the front instead of down a tree. *)
  Definition seen := list (dyadic * dyadic).
  Fixpoint seen_put (s i : dyadic) (l : seen) : outcome seen :=
    match l with
    | [] => Ok [(s, i)]
    | (s', i') :: r =>
        let! g := ds_greater s s' in
        if g then Ok ((s, i) :: l)
        else
          let! g' := ds_greater s' s in
          if g' then let! r' := seen_put s i r in Ok ((s', i') :: r') else Ok ((s', i) :: r)
    end.
  (** dyadic_searcher.cpp:114-122 *)
  Definition expand (found : dint) (sn : seen) : outcome seen :=
    let! l := expand_left [found] in
    let! r := expand_right l in
    match r with
    | [] => UB
    | d0 :: _ => let! s := dsup (last r d0) in let! i := dinf d0 in seen_put s i sn
    end.

  (** dyadic_searcher.cpp:153-201 *)
  Fixpoint skip_loop (k n : Z) (l : seen) : outcome Z :=
    match l with
    | [] => Ok k
    | (s, i) :: r =>
        let! b := ds_less (mkD k n) i in
        if b then skip_loop k n r
        else
          let! g := ds_greater (mkD k n) s in
          if g then Ok k
          else if n <? power i then skip_loop (mult i / 2 ^ (power i - n)) n r
          else if n >? power i then let! k' := lsh (mult i) (n - power i) in skip_loop k' n r
          else skip_loop (mult i) n r
    end.
  (** dyadic_searcher.cpp:144-210 *)
  Definition get_next (cur : dint) (sn : seen) : outcome dint :=
    let! k := skip_loop (di_k cur) (di_n cur) sn in
    let! k' := i32 (k - 1) in Ok (mkDI k' (di_n cur) (di_t cur)).

  (** dyadic_searcher.cpp:224-237 *)
  Fixpoint level_loop (fuel : nat) (cur : dint) (sn : seen) : outcome seen :=
    match fuel with
    | O => NoFuel
    | S f =>
        if di_k cur >=? 0 then
          let! g := pred cur in
          let! sn' := (if g then expand cur sn else Ok sn) in
          let! cur' := get_next cur sn' in level_loop f cur' sn'
        else Ok sn
    end.
  (** dyadic_searcher.cpp:217-238; [todo] levels from [depth]. *)
  Fixpoint depth_loop (todo : nat) (depth : Z) (sn : seen) : outcome seen :=
    match todo with
    | O => Ok sn
    | S t =>
        let! k := lsh 1 depth in
        let! cur := get_next (mkDI k depth Clopen) sn in
        let! sn' := level_loop (S (Z.to_nat k)) cur sn in
        depth_loop t (depth + 1) sn'
    end.
  (** dyadic_searcher.cpp:211-247; each pair becomes the interval [inf, sup). *)
  Definition find_in_unit : outcome (list ri) :=
    let! sn := depth_loop (Z.to_nat max_depth) 1 [] in
    Ok (rev (map (fun p => ri_make (to_param (snd p)) (to_param (fst p)) Clopen) sn)).
End Searcher.

(** dyadic_searcher.cpp:123-143, 248-264 and segmentation.cpp:45-51. *)
Definition segment (original : ri) (P : ri -> bool) (max_depth : Z) : outcome (list ri) :=
  if P original then Ok [original]
  else
    let a := ri_inf original in let b := ri_sup original in
    if qlt a b then
      let! found := find_in_unit (scaled P a (b - a)%Q) max_depth in
      Ok (map (fun i => ri_make (ri_inf i * (b - a) + a)%Q (ri_sup i * (b - a) + a)%Q (ri_t i)) found)
    else Throw.

