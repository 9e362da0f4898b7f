(** Model of intervals/src/interval.cpp, intersection_and_union.cpp, partition.cpp.
    Parameters ([param_t], a double) are exact rationals.  The functions here only
    compare parameters, except [refine_midpoints] and [mesh], where the rounding of
    (a + b) / 2 and |a - b| is not modelled. *)
From Verif Require Export Outcome.
From Verif Require Export DyadicModel.
From Coq Require Export QArith Qabs Qminmax Lqa.
Open Scope Q_scope.

(** Comparisons of parameters. *)
Definition qle (x y : Q) : bool := Qle_bool x y.
Definition qlt (x y : Q) : bool := negb (Qle_bool y x).
Definition qeq (x y : Q) : bool := Qeq_bool x y.
(** std::max(a, b) is [(a < b) ? b : a], std::min(a, b) is [(b < a) ? b : a]. *)
Definition qmax (a b : Q) : Q := if qlt a b then b else a.
Definition qmin (a b : Q) : Q := if qlt b a then b else a.

(** intervals/include/roughpy/intervals/real_interval.h:44-45 *)
Record ri := mkRI { ri_inf : Q; ri_sup : Q; ri_t : itype }.
(** real_interval.h:48, 44-45: the default interval [0, 1). *)
Definition ri_default : ri := mkRI 0 1 Clopen.
(** real_interval.h:55-61 *)
Definition ri_make (a b : Q) (t : itype) : ri := if qlt b a then mkRI b a t else mkRI a b t.

(** interval.cpp:47-60 *)
Definition included_end (i : ri) : Q := match ri_t i with Clopen => ri_inf i | Opencl => ri_sup i end.
Definition excluded_end (i : ri) : Q := match ri_t i with Clopen => ri_sup i | Opencl => ri_inf i end.
(** interval.cpp:61-71 *)
Definition contains_point (i : ri) (x : Q) : bool :=
  match ri_t i with
  | Clopen => qle (ri_inf i) x && qlt x (ri_sup i)
  | Opencl => qlt (ri_inf i) x && qle x (ri_sup i)
  end.
(** interval.cpp:72-75 *)
Definition is_associated (i arg : ri) : bool := contains_point i (included_end arg).
(** interval.cpp:76-79 *)
Definition contains (i arg : ri) : bool := qle (ri_inf i) (ri_inf arg) && qle (ri_sup arg) (ri_sup i).
(** interval.cpp:80-103 *)
Definition intersects_with (i arg : ri) : bool :=
  let li := ri_inf i in let ls := ri_sup i in
  let ri_ := ri_inf arg in let rs := ri_sup arg in
  if (qle li ri_ && qlt ri_ ls) || (qle ri_ li && qlt li rs) then true
  else if qeq ri_ ls then itype_eqb (ri_t i) Opencl && itype_eqb (ri_t arg) Clopen
  else if qeq li rs then itype_eqb (ri_t i) Clopen && itype_eqb (ri_t arg) Opencl
  else false.
(** interval.cpp:104-112 *)
Definition interval_eq (i o : ri) : bool := itype_eqb (ri_t i) (ri_t o) && qeq (ri_inf i) (ri_inf o) && qeq (ri_sup i) (ri_sup o).

(** intersection_and_union.cpp:16-30 *)
Definition intersection (l r : ri) : ri :=
  if qle (ri_sup r) (ri_inf l) || qle (ri_sup l) (ri_inf r) then ri_default
  else ri_make (qmax (ri_inf l) (ri_inf r)) (qmin (ri_sup l) (ri_sup r)) Clopen.
(** intersection_and_union.cpp:33-38 *)
Definition interval_union (l r : ri) : ri :=
  ri_make (qmin (ri_inf l) (ri_inf r)) (qmax (ri_sup l) (ri_sup r)) Clopen.

(** ** Partition *)
(** partition.h:44-50 *)
Record partition := mkP { p_base : ri; p_pts : list Q }.
Definition p_inf (p : partition) := ri_inf (p_base p).
Definition p_sup (p : partition) := ri_sup (p_base p).
Definition p_type (p : partition) := ri_t (p_base p).

(** std::sort on doubles, as an insertion sort (equal doubles are the same number). *)
Fixpoint insert_sorted (x : Q) (l : list Q) : list Q :=
  match l with [] => [x] | y :: l' => if qlt y x then y :: insert_sorted x l' else x :: l end.
Definition sort_q (l : list Q) : list Q := fold_right insert_sorted [] l.

(** partition.cpp:46-56 *)
Definition partition_new (base : ri) (points : list Q) : partition :=
  mkP base (sort_q (filter (fun m => contains_point base m && negb (qeq m (ri_inf base)) && negb (qeq m (ri_sup base))) points)).

(** partition.h:70 *)
Definition p_size (p : partition) : nat := S (length (p_pts p)).

(** partition.cpp:57-73.  Loop 64-69 over the old points, then line 70. *)
Fixpoint refine_loop (prev : Q) (pts : list Q) (sup : Q) : list Q :=
  match pts with
  | [] => [(sup + prev) / 2]
  | x :: pts' => (x + prev) / 2 :: x :: refine_loop x pts' sup
  end.
Definition refine_midpoints (p : partition) : partition :=
  mkP (p_base p) (refine_loop (p_inf p) (p_pts p) (p_sup p)).

(** partition.cpp:75-91; [None] is the initial infinity. *)
Definition mesh_step (diff : option Q) (new_diff : Q) : option Q :=
  match diff with None => Some new_diff | Some d => if qlt new_diff d then Some new_diff else Some d end.
Fixpoint mesh_loop (prev : Q) (pts : list Q) (sup : Q) (diff : option Q) : option Q :=
  match pts with
  | [] => mesh_step diff (Qabs (sup - prev))
  | x :: pts' => mesh_loop x pts' sup (mesh_step diff (Qabs (x - prev)))
  end.
Definition mesh (p : partition) : option Q := mesh_loop (p_inf p) (p_pts p) (p_sup p) None.

(** partition.cpp:93-118.  Vector reads are bounds-checked ([UB] if outside). *)
Definition vec_get (l : list Q) (i : nat) : outcome Q := match nth_error l i with Some x => Ok x | None => UB end.
Definition piece (p : partition) (i : nat) : outcome ri :=
  let n := length (p_pts p) in
  if Nat.ltb n i then Throw
  else if Nat.eqb n 0 then Ok (p_base p)
  else if Nat.eqb i 0 then let! m := vec_get (p_pts p) 0 in Ok (ri_make (p_inf p) m (p_type p))
  else if Nat.eqb i n then let! m := vec_get (p_pts p) (n - 1) in Ok (ri_make m (p_sup p) (p_type p))
  else let! a := vec_get (p_pts p) (i - 1) in let! b := vec_get (p_pts p) i in Ok (ri_make a b (p_type p)).

(** partition.cpp:120-133; std::lower_bound followed by insert, on a sorted vector. *)
Fixpoint lower_insert (x : Q) (l : list Q) : list Q :=
  match l with [] => [x] | y :: l' => if qlt y x then y :: lower_insert x l' else x :: l end.
Definition insert_intermediate (p : partition) (x : Q) : outcome partition :=
  if contains_point (p_base p) x then Ok (mkP (p_base p) (lower_insert x (p_pts p))) else Throw.

(** The loops [for (; it != end and it points below b; ++it) push it] of partition.cpp:179-184
    and 223-228: pushed points and remaining points. *)
Fixpoint span_lt (b : Q) (l : list Q) : list Q * list Q :=
  match l with
  | [] => ([], [])
  | x :: l' => if qlt x b then let (p, r) := span_lt b l' in (x :: p, r) else ([], l)
  end.
(** [if (it != end && *it == m) ++it], lines 193-194 and 239-240. *)
Definition skip_eq (m : Q) (l : list Q) : list Q :=
  match l with x :: l' => if qeq x m then l' else l | [] => [] end.
(** Lines 205-217: pushed points, remaining left points, remaining right points. *)
Fixpoint interleave (l : list Q) : list Q -> list Q * list Q * list Q :=
  match l with
  | [] => fun r => ([], [], r)
  | x :: l' =>
      fix inner (r : list Q) : list Q * list Q * list Q :=
        match r with
        | [] => ([], x :: l', [])
        | y :: r' =>
            if qeq x y then let '(p, a, b) := interleave l' r' in (x :: p, a, b)
            else if qlt x y then let '(p, a, b) := interleave l' (y :: r') in (x :: p, a, b)
            else let '(p, a, b) := inner r' in (y :: p, a, b)
        end
  end.
(** partition.cpp:163-251, the overlapping case. *)
Definition merge_points (linf lsup rinf rsup : Q) (lp rp : list Q) : list Q :=
  let max_inf := qmax linf rinf in
  let min_sup := qmin lsup rsup in
  let (a1, l1) := span_lt rinf lp in
  let (b1, r1) := span_lt linf rp in
  let '(mid, l2, r2) :=
    if qeq linf rinf then ([], l1, r1) else ([max_inf], skip_eq max_inf l1, skip_eq max_inf r1) in
  let '(il, l3, r3) := interleave l2 r2 in
  let (a4, l4) := span_lt rsup l3 in
  let (b4, r4) := span_lt lsup r3 in
  let '(top, l5, r5) :=
    if negb (qeq lsup rsup) && negb (qeq min_sup max_inf) then ([min_sup], skip_eq min_sup l4, skip_eq min_sup r4) else ([], l4, r4) in
  a1 ++ b1 ++ mid ++ il ++ a4 ++ b4 ++ top ++ l5 ++ r5.
(** partition.cpp:135-254 *)
Definition merge (p o : partition) : outcome partition :=
  if negb (itype_eqb (p_type p) (p_type o)) then Throw
  else
    let linf := p_inf p in let lsup := p_sup p in
    let rinf := p_inf o in let rsup := p_sup o in
    let base := ri_make (qmin linf rinf) (qmax lsup rsup) (p_type p) in
    if qlt lsup rinf then
      Ok (mkP base ((if qeq lsup linf then [] else [lsup]) ++ (if qeq rinf rsup then [] else [rinf])))
    else if qlt rsup linf then
      Ok (mkP base ((if qeq rinf rsup then [] else [rsup]) ++ (if qeq lsup linf then [] else [linf])))
    else Ok (mkP base (merge_points linf lsup rinf rsup (p_pts p) (p_pts o))).
