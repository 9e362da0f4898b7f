(** Arrays of scalars: scalars/src/scalar_array.cpp:48-429, scalar_array.h:58-240, over the buffers of
    platform/devices/buffer.h and device_object_base.h:88-222 (counted references), host_buffer.cpp:47-89
    and host_device_impl.cpp:205-217.

    Element types and elements are parameters; buffers hold elements of one type, all on the host.
    Counts of new buffers start at 0 (the member is not initialised, device_object_base.h:81).  What
    makes an array from a buffer, serialisation and conversions between types are left out.  Memory is a
    list of blocks; a freed block is [None].  A pointer to a buffer object taken for a pointer to
    elements, and a size below 0, count as undefined where they are made. *)
From Coq Require Export List Bool Arith Lia.
From Verif Require Export Outcome.
Export ListNotations.
Open Scope nat_scope.

Section Sa.
  Variables T V : Type.
  Variable ty_eqb : T -> T -> bool.
  (** T(0), standard_scalar_type.h:87-98 *)
  Variable zero : T -> V.

  (** A block of memory: its elements and the references counted, none where it is not a buffer *)
  Record block := mkBlock { bk_ty : T; bk_vals : list V; bk_refs : option nat }.
  Definition mem : Type := list (option block).
  Inductive mode := BorrowConst | BorrowMut | Owned.
  (** The union: no pointer, a pointer to elements, a buffer, or nothing initialised *)
  Inductive slot := SNull | SPtr (b off : nat) | SBuf (b : nat) | SJunk.
  (** [a_ty]: whether the type is given by a type object, and the type *)
  Record arr := mkArr { a_ty : option (bool * T); a_mode : mode; a_slot : slot; a_size : nat }.

  Fixpoint put {A} (p : nat) (c : A) (m : list A) : list A := match p, m with O, _ :: m' => c :: m' | S p', x :: m' => x :: put p' c m' | _, [] => [] end.
  Definition load (m : mem) (t : T) (b i : nat) : outcome V :=
    match nth_error m b with
    | Some (Some k) => if ty_eqb t (bk_ty k) then match nth_error (bk_vals k) i with Some v => Ok v | None => UB end else UB
    | _ => UB
    end.
  Definition store (m : mem) (t : T) (b i : nat) (v : V) : outcome mem :=
    match nth_error m b with
    | Some (Some k) => if ty_eqb t (bk_ty k) && Nat.ltb i (length (bk_vals k)) then Ok (put b (Some (mkBlock (bk_ty k) (put i v (bk_vals k)) (bk_refs k))) m) else UB
    | _ => UB
    end.
  (** device_object_base.h:162-166, 182-187 *)
  Definition inc_ref (m : mem) (b : nat) : outcome mem :=
    match nth_error m b with
    | Some (Some (mkBlock t v (Some r))) => Ok (put b (Some (mkBlock t v (Some (S r)))) m)
    | _ => UB
    end.
  (** device_object_base.h:167-172, 194-200: the last one frees. *)
  Definition dec_ref (m : mem) (b : nat) : outcome mem :=
    match nth_error m b with
    | Some (Some (mkBlock t v (Some (S r)))) => Ok (put b (match r with O => None | _ => Some (mkBlock t v (Some r)) end) m)
    | _ => UB
    end.
  Definition release (m : mem) (s : slot) : outcome mem :=
    match s with SNull => Ok m | SBuf b => dec_ref m b | SPtr _ _ | SJunk => UB end.
  (** host_device_impl.cpp:205-213, filled *)
  Definition raw_alloc (m : mem) (t : T) (l : list V) : mem * nat := (m ++ [Some (mkBlock t l (Some 1))], length m).

  (** Line 57 *)
  Definition null : arr := mkArr None BorrowConst SNull 0.
  (** Lines 59-75 *)
  Definition copy (m : mem) (a : arr) : outcome (mem * arr) :=
    match a_mode a with
    | Owned => match a_slot a with SBuf b => let! m := inc_ref m b in Ok (m, a) | SNull => Ok (m, a) | _ => UB end
    | _ => Ok (m, a)
    end.
  (** Lines 77-94: the new array and what is left of the old one *)
  Definition move (a : arr) : arr * arr := (a, mkArr (a_ty a) (a_mode a) SNull (a_size a)).
  (** Lines 96-105, of type objects *)
  Definition alloc (m : mem) (t : T) (n : nat) : mem * arr :=
    match n with
    | O => (m, mkArr (Some (true, t)) BorrowConst SNull 0)
    | _ => let (m, b) := raw_alloc m t (repeat (zero t) n) in (m, mkArr (Some (true, t)) Owned (SBuf b) n)
    end.
  (** Lines 107-116: the buffer assigned to is not initialised. *)
  Definition alloc_info (m : mem) (t : T) (n : nat) : outcome (mem * arr) :=
    match n with
    | O => Ok (m, mkArr (Some (false, t)) Owned SJunk 0)
    | _ => let (m, b) := raw_alloc m t (repeat (zero t) n) in let! m := release m SJunk in Ok (m, mkArr (Some (false, t)) Owned (SBuf b) n)
    end.
  (** Lines 118-140 *)
  Definition from_ptr (obj const : bool) (t : T) (b off n : nat) : arr := mkArr (Some (obj, t)) (if const then BorrowConst else BorrowMut) (SPtr b off) n.
  (** Lines 154-162; the size stays. *)
  Definition destroy (m : mem) (a : arr) : outcome mem := match a_mode a with Owned => release m (a_slot a) | _ => Ok m end.

  (** Lines 242-260, 262-279 [raw_pointer], [raw_mut_pointer] of element 0 *)
  Definition raw_pointer (a : arr) : outcome (option (nat * nat)) :=
    match a_mode a, a_slot a with
    | _, SNull => Ok None
    | Owned, SBuf b => Ok (Some (b, 0))
    | BorrowConst, SPtr b o | BorrowMut, SPtr b o => Ok (Some (b, o))
    | _, _ => UB
    end.
  (** Lines 281-298: buffers that are not there have no device. *)
  Definition pointer (a : arr) : outcome (option (nat * nat)) :=
    match a_mode a, a_slot a with Owned, SNull => Throw | _, _ => raw_pointer a end.
  (** Lines 300-323 *)
  Definition mut_pointer (a : arr) : outcome (option (nat * nat)) := match a_mode a with BorrowConst => Throw | _ => pointer a end.
  Definition is_const (a : arr) : bool := match a_mode a with BorrowConst => true | _ => false end.
  (** Lines 343-352, and reading the scalar.  Lines 416-419: without a type, a null pointer is read. *)
  Definition get (m : mem) (a : arr) (i : nat) : outcome V :=
    match a_ty a with
    | None => UB
    | Some (_, t) =>
        if Nat.ltb i (a_size a) then let! p := raw_pointer a in match p with Some (b, o) => load m t b (o + i) | None => UB end
        else Throw
    end.
  (** Lines 354-368, and assigning to the scalar *)
  Definition set (m : mem) (a : arr) (i : nat) (v : V) : outcome mem :=
    match a_ty a with
    | None => UB
    | Some (_, t) =>
        if is_const a then Throw
        else if Nat.ltb i (a_size a) then let! p := raw_pointer a in match p with Some (b, o) => store m t b (o + i) v | None => UB end
        else Throw
    end.
  Definition slot_at (p : option (nat * nat)) (i : nat) : slot := match p with Some (b, o) => SPtr b (o + i) | None => SNull end.
  (** Lines 399-424 *)
  Definition slice (a : arr) (b e : nat) : outcome arr :=
    if Nat.leb e (a_size a) then
      let! p := pointer a in
      if Nat.leb b e then Ok (mkArr (a_ty a) BorrowConst (slot_at p b) (e - b)) else UB
    else Throw.
  (** Lines 370-397 *)
  Definition slice_mut (a : arr) (b e : nat) : outcome arr :=
    if Nat.leb e (a_size a) then
      let! p := mut_pointer a in
      if Nat.leb b e then Ok (mkArr (a_ty a) BorrowMut (slot_at p b) (e - b)) else UB
    else Throw.
  (** Lines 478-486 *)
  Definition borrow (a : arr) : outcome arr := let! p := pointer a in Ok (mkArr (a_ty a) BorrowConst (slot_at p 0) (a_size a)).
  Definition borrow_mut (a : arr) : outcome arr := let! p := mut_pointer a in Ok (mkArr (a_ty a) BorrowMut (slot_at p 0) (a_size a)).

  (** [n] elements from a pointer *)
  Fixpoint load_all (m : mem) (t : T) (b o n : nat) : outcome (list V) :=
    match n with O => Ok [] | S n => let! v := load m t b o in let! l := load_all m t b (S o) n in Ok (v :: l) end.
  Definition load_from (m : mem) (t : T) (p : option (nat * nat)) (n : nat) : outcome (list V) :=
    match n with O => Ok [] | _ => match p with Some (b, o) => load_all m t b o n | None => UB end end.
  (** Lines 164-218, of two arrays that are not the same: the word that holds the type is copied with the
      mode of the other array.  (Where it throws, the array assigned to has been changed; here it is as
      before.)  Line 177 is standard_scalar_type.h:122-186 for equal types and enough
      space. *)
  Definition assign (m : mem) (x y : arr) : outcome (mem * arr) :=
    match a_ty y with
    | None => Ok (m, x)
    | Some (obj, t) =>
        let! m := destroy m x in
        let n := a_size y in
        if obj then
          match n, a_mode y with
          | O, md => let (m, b) := raw_alloc m t [] in Ok (m, mkArr (Some (obj, t)) md (SBuf b) 0)
          | _, BorrowConst => Throw
          | _, BorrowMut => UB
          | _, Owned =>
              let! p := pointer y in let! l := load_from m t p n in
              let (m, b) := raw_alloc m t l in Ok (m, mkArr (Some (obj, t)) Owned (SBuf b) n)
          end
        else
          let! p := raw_pointer y in let! l := load_from m t p n in
          let (m, b) := raw_alloc m t l in Ok (m, mkArr (Some (obj, t)) (a_mode y) (SBuf b) n)
    end.
  (** Lines 220-238: the new array and what is left of the other *)
  Definition move_assign (m : mem) (x y : arr) : outcome (mem * arr * arr) :=
    let! m := destroy m x in
    Ok (m, y, match a_mode y with Owned => mkArr (a_ty y) Owned SNull (a_size y) | _ => y end).

  (** *** Programs: variables are numbered in the order they are made. *)
  Inductive cmd :=
  | CNull | CAlloc (t : T) (n : nat) | CBorrowMem (obj const : bool) (t : T) (b off n : nat) | CCopy (x : nat) | CMove (x : nat) | CDrop (x : nat)
  | CAssign (x y : nat) | CMoveAssign (x y : nat) | CGet (x i : nat) | CSet (x i : nat) (v : V)
  | CSlice (const : bool) (x b e : nat) | CBorrow (const : bool) (x : nat).
  Definition state : Type := mem * list (option arr).
  Definition var {A} (l : list (option A)) (x : nat) : option A := match nth_error l x with Some o => o | None => None end.
  Definition made (m : mem) (e : list (option arr)) (a : arr) : state * option V := ((m, e ++ [Some a]), None).
  Definition step (s : state) (c : cmd) : outcome (state * option V) :=
    let (m, e) := s in
    match c with
    | CNull => Ok (made m e null)
    | CAlloc t n => let (m, a) := alloc m t n in Ok (made m e a)
    | CBorrowMem obj const t b off n => Ok (made m e (from_ptr obj const t b off n))
    | CCopy x => match var e x with Some a => let! (m, a) := copy m a in Ok (made m e a) | None => UB end
    | CMove x => match var e x with Some a => let (n, o) := move a in Ok (made m (put x (Some o) e) n) | None => UB end
    | CDrop x => match var e x with Some a => let! m := destroy m a in Ok ((m, put x None e), None) | None => UB end
    | CAssign x y =>
        match var e x, var e y with
        | Some a, Some b => if Nat.eqb x y then Ok ((m, e), None) else let! (m, a) := assign m a b in Ok ((m, put x (Some a) e), None)
        | _, _ => UB
        end
    | CMoveAssign x y =>
        match var e x, var e y with
        | Some a, Some b => if Nat.eqb x y then Ok ((m, e), None) else let! (m, a, b) := move_assign m a b in Ok ((m, put y (Some b) (put x (Some a) e)), None)
        | _, _ => UB
        end
    | CGet x i => match var e x with Some a => let! v := get m a i in Ok ((m, e), Some v) | None => UB end
    | CSet x i v => match var e x with Some a => let! m := set m a i v in Ok ((m, e), None) | None => UB end
    | CSlice const x b n => match var e x with Some a => let! a := if const then slice a b n else slice_mut a b n in Ok (made m e a) | None => UB end
    | CBorrow const x => match var e x with Some a => let! a := if const then borrow a else borrow_mut a in Ok (made m e a) | None => UB end
    end.
  (** Exceptions are caught; the variables are as before. *)
  Inductive reply := RDone | RValue (v : V) | RError.
  Fixpoint run (s : state) (l : list cmd) : outcome (state * list reply) :=
    match l with
    | [] => Ok (s, [])
    | c :: l =>
        match step s c with
        | Ok (s, o) => let! (s, r) := run s l in Ok (s, match o with Some v => RValue v | None => RDone end :: r)
        | Throw => let! (s, r) := run s l in Ok (s, RError :: r)
        | UB => UB
        | NoFuel => NoFuel
        end
    end.
End Sa.
