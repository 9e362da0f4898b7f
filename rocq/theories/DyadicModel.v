(** Model of intervals/src/dyadic.cpp and intervals/src/dyadic_interval.cpp. *)
From Verif Require Import Outcome.
From Coq Require Import QArith Qround Qpower.
Open Scope Z_scope.

(** intervals/include/roughpy/intervals/dyadic.h:45-53.  A dyadic is the pair
    (multiplier k, power n); its value is k * 2^-n. *)
Record dyadic := mkD { mult : Z; power : Z }.

(** dyadic.h:62-67 [int_two_to_int_power].  [1 << e] on a 32-bit int; shifts by a
    negative amount or by 31 and more are treated as undefined (for exactly 31,
    C++17 makes the result implementation-defined, not usable here either). *)
Definition two_pow (e : Z) : outcome Z :=
  if (0 <=? e) && (e <=? 30) then Ok (2 ^ e) else UB.

(** dyadic.h:69-72 [shift]: [k * (1 << n)], signed overflow undefined. *)
Definition shift (k n : Z) : outcome Z :=
  let! p := two_pow n in i32 (k * p).

(** dyadic.h:56-60 [mod]: C remainder made non-negative.  Only called with b>0. *)
Definition cmod (a b : Z) : outcome Z :=
  if b =? 0 then UB else
  let r := Z.rem a b in
  if r <? 0 then i32 (r + Z.abs b) else Ok r.

(** dyadic.cpp:92-93, the search loop of [rebase]: decrease r until 2^r divides k.
    r is a non-negative 32-bit number, so the loop is structural recursion on it. *)
Fixpoint rebase_loop (k : Z) (r : nat) : outcome Z :=
  let! p := two_pow (Z.of_nat r) in
  if Z.rem k p =? 0 then Ok (Z.of_nat r)
  else match r with O => UB (* r would become -1: bad shift *) | S r' => rebase_loop k r' end.

(** dyadic.cpp:74-101 [Dyadic::rebase]; returns the updated dyadic and the flag. *)
Definition rebase (d : dyadic) (resolution : Z) : outcome (dyadic * bool) :=
  if mult d =? 0 then Ok (mkD 0 resolution, true)
  else if resolution >=? power d then
    let! e := i32 (resolution - power d) in
    let! k := shift (mult d) e in
    Ok (mkD k resolution, true)
  else
    let! lim := i32 (31 + resolution) in
    let! res := (if power d >=? lim then
                   let! a := i32 (power d - 31) in i32 (a + 1)
                 else Ok resolution) in
    let! rel := i32 (power d - res) in
    if rel <? 0 then UB else
    let! r := rebase_loop (mult d) (Z.to_nat rel) in
    let! p := two_pow r in
    let! pw := i32 (power d - r) in
    Ok (mkD (Z.quot (mult d) p) pw, res =? pw).

(** dyadic.cpp:103-142, the four relational operators; they share the branch
    structure and differ only in the final integer comparison. *)
Definition d_rel (cmp : Z -> Z -> bool) (l r : dyadic) : outcome bool :=
  if power l <=? power r then
    let! e := i32 (power r - power l) in
    let! s := shift (mult r) e in
    Ok (cmp (mult l) s)
  else
    let! e := i32 (power l - power r) in
    let! s := shift (mult l) e in
    Ok (cmp s (mult r)).
Definition d_lt := d_rel Z.ltb.
Definition d_le := d_rel Z.leb.
Definition d_gt := d_rel Z.gtb.
Definition d_ge := d_rel Z.geb.

(** dyadic.cpp:147-150 *)
Definition dyadic_equals (l r : dyadic) : bool :=
  (power l =? power r) && (mult l =? mult r).

(** dyadic.cpp:151-174.  The quotient INT_MIN / -1 overflows (undefined). *)
Definition rational_equals (l r : dyadic) : outcome bool :=
  if (mult l =? 0) && (mult r =? 0) then Ok true
  else if (mult l =? 0) || (mult r =? 0) then Ok false
  else
    let! _ := i32 (Z.quot (mult l) (mult r)) in
    if (Z.rem (mult l) (mult r) =? 0) && (Z.quot (mult l) (mult r) >=? 1) then
      let! t := i32 (power l - power r) in
      if t <? 0 then Ok false
      else let! p := two_pow t in Ok (Z.quot (mult l) (mult r) =? p)
    else
    let! _ := i32 (Z.quot (mult r) (mult l)) in
    if (Z.rem (mult r) (mult l) =? 0) && (Z.quot (mult r) (mult l) >=? 1) then
      let! t := i32 (power r - power l) in
      if t <? 0 then Ok false
      else let! p := two_pow t in Ok (Z.quot (mult r) (mult l) =? p)
    else Ok false.

(** dyadic.cpp:47-73 move_forward, ++, --. *)
Definition move_forward (d : dyadic) (arg : Z) : outcome dyadic :=
  let! k := i32 (mult d + arg) in Ok (mkD k (power d)).
Definition d_incr (d : dyadic) : outcome dyadic := move_forward d 1.
Definition d_decr (d : dyadic) : outcome dyadic := move_forward d (-1).

(** intervals/include/roughpy/intervals/interval.h: IntervalType. *)
Inductive itype := Clopen | Opencl.
Definition itype_eqb (a b : itype) : bool :=
  match a, b with Clopen, Clopen | Opencl, Opencl => true | _, _ => false end.

(** dyadic_interval.h: a Dyadic plus an interval type. *)
Record dint := mkDI { di_k : Z; di_n : Z; di_t : itype }.
Definition di_d (i : dint) : dyadic := mkD (di_k i) (di_n i).
Definition of_d (d : dyadic) (t : itype) : dint := mkDI (mult d) (power d) t.

(** dyadic_interval.h [unit]. *)
Definition unit_t (t : itype) : Z := match t with Clopen => 1 | Opencl => -1 end.
Definition unit (i : dint) : Z := unit_t (di_t i).

(** dyadic_interval.cpp:47-59, constructor from a dyadic.  [Throw] is the
    RPY_CHECK failure. *)
Definition di_make (d : dyadic) (resolution : Z) (t : itype) : outcome dint :=
  let! (d1, ok) := rebase d resolution in
  if ok then Ok (of_d d1 t)
  else
    let k1 := mult d1 in
    let one := unit_t t in
    let! e := i32 (power d1 - resolution) in
    let! pow := two_pow e in
    let! a := i32 (k1 * one) in
    let! m := cmod a pow in
    let! b := i32 (a - m) in
    let! c := i32 (one * b) in
    let! (d2, is_int) := rebase (mkD c (power d1)) resolution in
    if is_int then Ok (of_d d2 t) else Throw.

(** x * 2^n for rational x ([ldexp], exact). *)
Definition qscale (x : Q) (n : Z) : Q := (x * Qpower 2 n)%Q.

(** dyadic_interval.cpp:60-71, constructor from a parameter.  The conversion of an
    out-of-range double to int is undefined. *)
Definition di_of_param (x : Q) (resolution : Z) (t : itype) : outcome dint :=
  let rescaled := qscale x resolution in
  let! k := i32 (match t with Opencl => Qceiling rescaled | Clopen => Qfloor rescaled end) in
  Ok (mkDI k resolution t).

(** dyadic_interval.cpp:72-99, the ends. *)
Definition dincluded (i : dint) : dyadic := di_d i.
Definition dexcluded (i : dint) : outcome dyadic :=
  let! k := i32 (di_k i + unit i) in Ok (mkD k (di_n i)).
Definition dinf (i : dint) : outcome dyadic :=
  match di_t i with Clopen => Ok (dincluded i) | Opencl => dexcluded i end.
Definition dsup (i : dint) : outcome dyadic :=
  match di_t i with Clopen => dexcluded i | Opencl => Ok (dincluded i) end.
(** dyadic.cpp:42-45: conversion to param_t. *)
Definition to_param (d : dyadic) : Q := qscale (inject_Z (mult d)) (- power d).

(** dyadic_interval.cpp:158-166 *)
Definition flip_interval (i : dint) : outcome dint :=
  let! k := i32 (if Z.rem (di_k i) 2 =? 0 then di_k i + unit i else di_k i - unit i) in
  Ok (mkDI k (di_n i) (di_t i)).

(** dyadic_interval.cpp:101-105 *)
Definition shrink_to_contained_end (i : dint) (arg : Z) : outcome dint :=
  let! p := i32 (arg + di_n i) in di_make (di_d i) p (di_t i).
(** dyadic_interval.cpp:106-109 *)
Definition shrink_to_omitted_end (i : dint) : outcome dint :=
  let! c := shrink_to_contained_end i 1 in flip_interval c.
(** dyadic_interval.cpp:110-118 *)
Definition shrink_interval_right (i : dint) : outcome dint :=
  match di_t i with Opencl => shrink_to_contained_end i 1 | Clopen => shrink_to_omitted_end i end.
(** dyadic_interval.cpp:119-130 (the loop runs [arg] times). *)
Fixpoint shrink_interval_left (i : dint) (arg : nat) : outcome dint :=
  match arg with
  | O => Ok i
  | S a =>
      let! i' := (match di_t i with Clopen => shrink_to_contained_end i 1
                                  | Opencl => shrink_to_omitted_end i end) in
      shrink_interval_left i' a
  end.
(** dyadic_interval.cpp:131-135: note that the interval type is not passed on. *)
Definition expand_interval (i : dint) (arg : Z) : outcome dint :=
  let! p := i32 (di_n i - arg) in di_make (dincluded i) p Clopen.

(** dyadic_interval.cpp:136-150 *)
Definition contains_dyadic (i other : dint) : outcome bool :=
  if negb (itype_eqb (di_t other) (di_t i)) then Ok false
  else if di_n other >=? di_n i then
    let one := unit i in
    let! e := i32 (di_n other - di_n i) in
    let! pow := two_pow e in
    let! shifted := shift (di_k i) e in
    let! a := i32 (di_k other * one) in
    let! m := cmod a pow in
    let! b := i32 (a - m) in
    let! al := i32 (one * b) in
    Ok (shifted =? al)
  else Ok false.

(** interval.cpp:103-107 [Interval::operator==] on two dyadic intervals: same type
    and same real ends. *)
Definition di_interval_eq (a b : dint) : outcome bool :=
  if negb (itype_eqb (di_t a) (di_t b)) then Ok false else
  let! ai := dinf a in let! bi := dinf b in
  let! as_ := dsup a in let! bs := dsup b in
  Ok (Qeq_bool (to_param ai) (to_param bi) && Qeq_bool (to_param as_) (to_param bs)).

(** dyadic_interval.cpp:151-157; the comparison interval is built with the default
    (clopen) type. *)
Definition aligned (i : dint) : outcome bool :=
  let! p := i32 (di_n i - 1) in
  let! parent := di_make (di_d i) p (di_t i) in
  let! back := di_make (di_d parent) (di_n i) Clopen in
  di_interval_eq i back.

(** dyadic_interval.cpp:167-183 *)
Definition shift_forward (i : dint) (arg : Z) : outcome dint :=
  let! a := i32 (unit i * arg) in
  let! k := i32 (di_k i - a) in Ok (mkDI k (di_n i) (di_t i)).
Definition shift_back (i : dint) (arg : Z) : outcome dint :=
  let! a := i32 (unit i * arg) in
  let! k := i32 (di_k i + a) in Ok (mkDI k (di_n i) (di_t i)).
Definition advance (i : dint) : outcome dint :=
  let! k := i32 (di_k i + unit i) in Ok (mkDI k (di_n i) (di_t i)).

(** dyadic_interval.cpp:213-218, first loop of [to_dyadic_intervals]:
    returns the final [begin] and the pieces pushed (in order). *)
Fixpoint tdi_loop1 (fuel : nat) (begin_ end_ : dint) (acc : list dint)
  : outcome (dint * list dint) :=
  match fuel with
  | O => NoFuel
  | S f =>
      let! c := contains_dyadic begin_ end_ in
      if c then Ok (begin_, acc)
      else
        let! next := expand_interval begin_ 1 in
        let! al := aligned begin_ in
        if al then tdi_loop1 f next end_ acc
        else
          let! piece := shrink_to_omitted_end next in
          let! next' := advance next in
          tdi_loop1 f next' end_ (acc ++ [piece])
  end.

(** dyadic_interval.cpp:220-224, second loop.  [next] and [end_] are the loop
    variables; pieces are inserted before the previously inserted one, so the list
    of inserted pieces grows at the front. *)
Fixpoint tdi_loop2 (fuel : nat) (begin_ end_ next : dint) (acc : list dint)
  : outcome (list dint) :=
  match fuel with
  | O => NoFuel
  | S f =>
      let! next := expand_interval next 1 in
      let! c := contains_dyadic begin_ next in
      if c then
        let! al := aligned end_ in
        if al then tdi_loop2 f begin_ next next acc
        else
          let! piece := shrink_to_contained_end next 1 in
          tdi_loop2 f begin_ next next (piece :: acc)
      else Ok acc
  end.

(** dyadic_interval.cpp:191-228 [to_dyadic_intervals] for the real interval with
    ends inf, sup. *)
Definition to_dyadic_intervals (fuel : nat) (inf sup : Q) (tol : Z) (t : itype)
  : outcome (list dint) :=
  let inc := match t with Clopen => inf | Opencl => sup end in
  let exc := match t with Clopen => sup | Opencl => inf end in
  let! begin_ := di_of_param inc tol t in
  let! end_ := di_of_param exc tol t in
  let! (b, l1) := tdi_loop1 fuel begin_ end_ [] in
  let! l2 := tdi_loop2 fuel b end_ end_ [] in
  let l := l1 ++ l2 in
  Ok (match t with Opencl => rev l | Clopen => l end).

(** dyadic_interval.cpp:230-251, operator< on dyadic intervals. *)
Definition di_lt (l r : dint) : outcome bool :=
  if negb (itype_eqb (di_t l) (di_t r)) then Ok false
  else
    let u := unit l in
    if di_n l =? di_n r then
      let! d := i32 (di_k r - di_k l) in let! m := i32 (u * d) in Ok (m >? 0)
    else if di_n l >? di_n r then
      let! e := i32 (di_n l - di_n r) in
      let! rk := shift (di_k r) e in
      let! d := i32 (rk - di_k l) in let! m := i32 (u * d) in Ok (m >? 0)
    else
      let! e := i32 (di_n r - di_n l) in
      let! lk := shift (di_k l) e in
      let! d := i32 (di_k r - lk) in let! m := i32 (u * d) in Ok (m >=? 0).
