(** How Python data becomes scalars: roughpy/src/args/parse_data_argument.cpp,
    roughpy/src/args/strided_copy.cpp, scalars/src/scalar/type_promotion.cpp, and the callers
    in roughpy/src/streams/lie_increment_stream.cpp, roughpy/src/algebra/lie.cpp,
    free_tensor.cpp. *)
From Coq Require Export QArith.
From Verif Require Export Outcome.
Open Scope Z_scope.

(** devices::TypeInfo: code and size in bytes.  Alignment and lanes are left out. *)
Inductive tcode := TInt | TUInt | TFloat | TBFloat | TRational | TPoly | TOther.
Record tinfo := mkTI { ti_code : tcode; ti_bytes : Z }.
Definition tcode_eqb (a b : tcode) : bool :=
  match a, b with
  | TInt, TInt | TUInt, TUInt | TFloat, TFloat | TBFloat, TBFloat | TRational, TRational | TPoly, TPoly | TOther, TOther => true
  | _, _ => false
  end.
Definition tinfo_eqb (a b : tinfo) : bool := tcode_eqb (ti_code a) (ti_code b) && (ti_bytes a =? ti_bytes b).
(** The scalar types of the library.  16 and 24 bytes stand for the sizes of the two
    arbitrary precision types; only their being fixed matters. *)
Inductive stype := SFloat | SDouble | SRational | SPoly.
Definition st_info (t : stype) : tinfo :=
  match t with SFloat => mkTI TFloat 4 | SDouble => mkTI TFloat 8 | SRational => mkTI TRational 16 | SPoly => mkTI TPoly 24 end.
Definition is_integral (i : tinfo) : bool := match ti_code i with TInt | TUInt => true | _ => false end.
Definition is_signed (i : tinfo) : bool := match ti_code i with TInt => true | _ => false end.
Definition is_floating (i : tinfo) : bool := match ti_code i with TFloat => true | _ => false end.

(** type_promotion.cpp:19-53 *)
Definition compute_int_promotion (dst src : tinfo) : tinfo :=
  if is_integral src then
    let b := Z.max (ti_bytes dst) (ti_bytes src) in
    if negb (tcode_eqb (ti_code src) (ti_code dst)) then
      if is_signed src then mkTI (ti_code src) b
      else if (b <=? ti_bytes src) && (b <? 8) then mkTI (ti_code dst) (b * 2) else mkTI (ti_code dst) b
    else mkTI (ti_code dst) b
  else src.
(** lines 55-78 *)
Definition compute_float_promotion (dst src : tinfo) : tinfo :=
  if is_integral src then dst
  else if is_floating src then if ti_bytes src >? ti_bytes dst then mkTI TFloat (ti_bytes src) else dst
  else src.
(** lines 80-97 *)
Definition compute_bfloat_promotion (dst src : tinfo) : tinfo :=
  if is_integral src then
    if ti_bytes src =? 1 then dst else if ti_bytes src <=? 4 then mkTI TFloat 4 else mkTI TFloat 8
  else src.
(** lines 99-110 *)
Definition compute_aprational_promotion (dst src : tinfo) : tinfo :=
  match ti_code src with TPoly => src | _ => dst end.
(** lines 133-158 *)
Definition compute_type_promotion (left right : tinfo) : outcome tinfo :=
  if tinfo_eqb left right then Ok left
  else match ti_code right with
  | TInt | TUInt => Ok (compute_int_promotion right left)
  | TFloat => Ok (compute_float_promotion right left)
  | TBFloat => Ok (compute_bfloat_promotion right left)
  | TRational => Ok (compute_aprational_promotion right left)
  | TPoly => Ok right
  | TOther => Throw
  end.
(** scalar_type.cpp:47-78 [for_info] *)
Definition for_info (i : tinfo) : outcome stype :=
  match ti_code i with
  | TInt | TUInt => Ok SDouble
  | TFloat => if ti_bytes i =? 4 then Ok SFloat else if ti_bytes i =? 8 then Ok SDouble else Throw
  | TRational => Ok SRational
  | TPoly => Ok SPoly
  | TBFloat | TOther => Throw
  end.

(** The type remembered by a ScalarArray made from a type description: unsigned becomes signed
    (PackedModel.v; C72).  Opaque handles are left out. *)
Definition held_info (i : tinfo) : tinfo := match ti_code i with TUInt => mkTI TInt (ti_bytes i) | _ => i end.
(** do_macro.h:8-41 for the remembered type; arbitrary-precision rationals have a code that no
    longer exists. *)
Definition readable_info (i : tinfo) : bool :=
  match ti_code i with
  | TInt | TUInt => existsb (Z.eqb (ti_bytes i)) [1; 2; 4; 8]
  | TFloat => existsb (Z.eqb (ti_bytes i)) [2; 4; 8]
  | TBFloat => ti_bytes i =? 2
  | TPoly => true
  | TRational | TOther => false
  end.

Section Data.
  (** Values of scalars of every type; Python integers as values; conversion of a value to a
      scalar type, [None] when it raises an exception; zero of a type. *)
  Variable V : Type.
  Variable of_int : Z -> V.
  Variable conv : stype -> V -> option V.
  Variable zero : stype -> V.

  (** An array in memory: type of the elements, shape, strides if given (in elements for
      DLPack, in bytes for the buffer protocol), and the value read at a byte offset from the
      data pointer when the bytes there are taken as an element of a type, [None] where there is
      no element. *)
  Record arr := mkArr { a_info : tinfo; a_shape : list Z; a_strides : option (list Z); a_mem : tinfo -> Z -> option V }.

  (** Python objects, as the parser tells them apart. *)
  Inductive pyval :=
  | PInt (exact : bool) (z : Z)                      (* int; not [exact]: an instance of a subclass *)
  | PNum (ti : option tinfo) (v : V)                 (* float, Scalar, polynomial, Fraction; [None]: type not registered *)
  | PKey (k : Z)                                     (* a key object (TensorKey) *)
  | PStr | PNone | POther
  | PTuple (l : list pyval)
  | PList (l : list pyval)
  | PDict (kv : list (pyval * pyval))
  | PLieD (t : stype) (l : list V)                   (* dense Lie element *)
  | PLieS (t : stype) (l : list (Z * V))             (* sparse Lie element *)
  | PDl (a : arr)                                    (* has __dlpack__ *)
  | PBuf (a : arr).                                  (* other buffers *)

  (** parse_data_argument.h:85-98 *)
  Record dopts := mkOpts { o_type : option stype; o_alt : bool; o_nested : Z; o_none : bool; o_scalar : bool; o_kv : bool }.

  Inductive leaf_type := KScalar | KKeyScalar | KLie | KDl | KBuf | KDict | KSeq.
  Inductive value_type := VVal | VKeyVal.
  (** parse_data_argument.cpp:44-52 *)
  Record leaf := mkLeaf { lf_shape : list Z; lf_obj : pyval; lf_size : Z; lf_info : tinfo; lf_type : leaf_type; lf_vt : value_type }.
  (** parse_data_argument.h:39-66 *)
  Record leafdata := mkLD { ld_shape : list Z; ld_vals : list V; ld_keys : option (list Z); ld_size : Z; ld_type : leaf_type; ld_vt : value_type }.

  (** parse_data_argument.cpp:121-138, with check_imported_scalars on *)
  Definition is_scalar (v : pyval) : bool := match v with PInt _ _ | PNum _ _ => true | _ => false end.
  (** scalars.h:104-112 [is_key]; the same test at parse_data_argument.cpp:489-496, 549-557 *)
  Definition is_key (o : dopts) (v : pyval) : bool := match v with PInt _ _ => true | PKey _ => o_alt o | _ => false end.
  (** scalars.h:114-121 *)
  Definition is_kv_pair (o : dopts) (v : pyval) : bool := match v with PTuple [k; _] => is_key o k | _ => false end.
  (** parse_data_argument.cpp:142-152; key_type is uint64_t *)
  Definition convert_key (o : dopts) (v : pyval) : outcome Z :=
    match v with
    | PInt _ z => if (0 <=? z) && (z <? 2 ^ 64) then Ok z else Throw
    | PKey k => if o_alt o then Ok k else Throw
    | _ => Throw
    end.
  (** parse_data_argument.cpp:154-157, scalars.cpp:60-83, 821-828; int is read through int64_t *)
  Definition convert_scalar (t : stype) (v : pyval) : outcome V :=
    match v with
    | PInt _ z => if (- 2 ^ 63 <=? z) && (z <? 2 ^ 63) then match conv t (of_int z) with Some x => Ok x | None => Throw end else Throw
    | PNum _ x => match conv t x with Some y => Ok y | None => Throw end
    | _ => Throw
    end.
  (** parse_data_argument.cpp:159-170, pytype_conversion.cpp:56-81: int counts as double *)
  Definition type_info_from (v : pyval) : outcome tinfo :=
    match v with
    | PInt true _ => Ok (mkTI TFloat 8)
    | PNum (Some i) _ => Ok i
    | _ => Throw
    end.

  Definition zprod (l : list Z) : Z := fold_right Z.mul 1 l.
  Definition llen {A} (l : list A) : Z := Z.of_nat (length l).

  (** lines 529-579: the test of the items of a sequence, stopping at the first [false]. *)
  Fixpoint scan (o : dopts) (l : list pyval) (expected : option value_type) : outcome (bool * option value_type) :=
    match l with
    | [] => Ok (true, expected)
    | item :: l' =>
      match item with
      | PTuple t =>
        match expected with
        | Some VVal => Throw
        | _ =>
          match t with
          | [k; s] => if is_scalar s && is_key o k then scan o l' (Some VKeyVal) else Ok (false, Some VKeyVal)
          | _ => Ok (false, Some VKeyVal)
          end
        end
      | PStr => Throw
      | _ =>
        match expected with
        | Some VKeyVal => Throw
        | _ => if is_scalar item then scan o l' (Some VVal) else Ok (false, Some VVal)
        end
      end
    end.
  Definition second (v : pyval) : pyval := match v with PTuple [_; s] => s | _ => POther end.

  (** lines 411-432, 434-454; the depth test *)
  Definition check_array (o : dopts) (a : arr) (k : leaf_type) (v : pyval) (depth : Z) : outcome (list leaf) :=
    if depth + llen (a_shape a) <=? o_nested o
    then Ok [mkLeaf (a_shape a) v (zprod (a_shape a)) (a_info a) k VVal]
    else Throw.

  (** lines 456-615 with allow_timestamped off, as in all calls; the leaves in the order in
      which they are added. *)
  Fixpoint check_recurse (o : dopts) (depth : Z) (v : pyval) : outcome (list leaf) :=
    let seq := fun l : list pyval =>
      match l with
      | [] => Throw
      | x :: _ =>
        let! (is_leaf, expected) := scan o l None in
        if (is_leaf : bool) then
          match expected with
          | Some VKeyVal =>
            let! i := type_info_from (second x) in
            Ok [mkLeaf [llen l] v (llen l) i KSeq VKeyVal]
          | _ =>
            let! i := type_info_from x in
            Ok [mkLeaf [llen l] v (llen l) i KSeq VVal]
          end
        else
          (fix go (l : list pyval) : outcome (list leaf) :=
            match l with
            | [] => Ok []
            | y :: l' => let! a := check_recurse o (depth + 1) y in let! b := go l' in Ok (a ++ b)
            end) l
      end in
    if negb (depth <? o_nested o) then Throw else
    match v with
    | PLieD t l => Ok [mkLeaf [llen l] v (llen l) (st_info t) KLie VVal]
    | PLieS t l => Ok [mkLeaf [llen l] v (llen l) (st_info t) KLie VKeyVal]
    | PDl a => check_array o a KDl v depth
    | PBuf a => check_array o a KBuf v depth
    | PDict kv =>
      match kv with
      | [] => Throw
      | (_, x) :: _ =>
        if forallb (fun p => is_scalar (snd p) && is_key o (fst p)) kv then
          let! i := type_info_from x in
          Ok [mkLeaf [llen kv] v (llen kv) i KDict VKeyVal]
        else Throw
      end
    | PStr => Throw
    | PTuple l => seq l
    | PList l => seq l
    | _ => Throw
    end.

  (** lines 616-638 *)
  Definition check_size_and_type (o : dopts) (v : pyval) : outcome (list leaf) :=
    if o_scalar o && is_scalar v then
      let! i := type_info_from v in
      Ok [mkLeaf [1] v 1 i KScalar VVal]
    else if o_kv o && is_kv_pair o v then
      let! i := type_info_from (second v) in
      Ok [mkLeaf [1] v 1 i KKeyScalar VKeyVal]
    else check_recurse o 0 v.

  (** lines 640-651 *)
  Fixpoint promote_all (i : tinfo) (l : list leaf) : outcome tinfo :=
    match l with
    | [] => Ok i
    | x :: l' => let! j := compute_type_promotion i (lf_info x) in promote_all j l'
    end.
  Definition compute_scalar_type (o : dopts) (l : list leaf) : outcome stype :=
    match o_type o with
    | Some t => Ok t
    | None => let! i := promote_all (mkTI TInt 4) l in for_info i
    end.

  (** *** Filling the leaves *)
  Fixpoint set_nth {A} (n : nat) (x : A) (l : list A) : list A :=
    match l, n with
    | [], _ => []
    | _ :: l', O => x :: l'
    | y :: l', S n' => y :: set_nth n' x l'
    end.
  (** lines 180-192 [push]; the index of data is checked (scalar_array.cpp:365-378), that of keys
      is not.  State: values, keys, offset. *)
  Definition fill := (list V * option (list Z) * nat)%type.
  Definition push (x : V) (f : fill) : outcome fill :=
    let '(vals, keys, off) := f in
    if (off <? length vals)%nat then Ok (set_nth off x vals, keys, S off) else Throw.
  Definition push_key (k : Z) (x : V) (f : fill) : outcome fill :=
    let '(vals, keys, off) := f in
    match keys with
    | None => UB
    | Some ks => if (off <? length ks)%nat then push x (vals, Some (set_nth off k ks), off) else UB
    end.
  (** lines 220-227, standard_scalar_type.h:87-98: zeros, and keys for key-value leaves *)
  Definition allocate_leaf (t : stype) (l : leaf) : fill :=
    (repeat (zero t) (Z.to_nat (lf_size l)),
     match lf_vt l with VKeyVal => if lf_size l =? 0 then None else Some (repeat 0 (Z.to_nat (lf_size l))) | VVal => None end, O).
  Fixpoint pushes {A} (step : A -> fill -> outcome fill) (l : list A) (f : fill) : outcome fill :=
    match l with [] => Ok f | x :: l' => let! g := step x f in pushes step l' g end.
  Definition handle_scalar (t : stype) (v : pyval) (f : fill) : outcome fill := let! x := convert_scalar t v in push x f.
  Definition handle_key_scalar (o : dopts) (t : stype) (v : pyval) (f : fill) : outcome fill :=
    match v with
    | PTuple (k :: s :: _) => let! k := convert_key o k in let! x := convert_scalar t s in push_key k x f
    | _ => Throw
    end.

  (** *** Arrays *)
  Definition a_held (a : arr) (off : Z) : option V := a_mem a (held_info (a_info a)) off.
  Definition read (a : arr) (off : Z) : outcome V := match a_held a off with Some v => Ok v | None => UB end.
  (** strided_copy.h:80-100; the strides are added up in an int *)
  Fixpoint c_contiguous_from (strides shape : list Z) (size : Z) : bool :=
    match strides, shape with
    | s :: st', n :: sh' => (s =? size) && c_contiguous_from st' sh' (size * n)
    | _, _ => true
    end.
  Definition is_C_contiguous (strides : option (list Z)) (shape : list Z) (itemsize : Z) : bool :=
    match strides with
    | None | Some [] => true
    | Some st => if (fold_right Z.add 0 st) mod 2 ^ 32 =? 0 then true else c_contiguous_from (rev st) (rev shape) itemsize
    end.
  (** strided_copy.cpp:102-119 *)
  Fixpoint compressed_from (i : Z) (strides shape : list Z) (stride : Z) : Z :=
    match strides, shape with
    | s :: st', n :: sh' => if negb (s =? stride) then i - 1 else compressed_from (i + 1) st' sh' (stride * n)
    | _, _ => i - 1
    end.
  Definition get_compressed_dims (ndim bytes : Z) (shape : list Z) (strides : option (list Z)) : Z :=
    match strides with
    | None => ndim
    | Some st => compressed_from 1 (rev (firstn (Z.to_nat ndim) st)) (rev (firstn (Z.to_nat ndim) shape)) bytes
    end.
  (** scalar_type.cpp:119-143 [convert_copy] of [n] elements, the source read at byte offset
      [src], the destination written from [off] on *)
  Fixpoint copy_elems (t : stype) (a : arr) (bytes : Z) (n : nat) (src : Z) (off : nat) (out : list V) : outcome (list V) :=
    match n with
    | O => Ok out
    | S n' =>
      let! v := read a src in
      match conv t v with
      | None => Throw
      | Some x => copy_elems t a bytes n' (src + bytes) (S off) (set_nth off x out)
      end
    end.
  (** Elements of other types: for float and double (standard_scalar_type.h:127-194) the
      [noexcept] function [src.type()] (scalar_array.cpp:244-249) throws, which ends the
      process; else the conversion fails. *)
  Definition convert_copy (t : stype) (a : arr) (bytes : Z) (n : nat) (src : Z) (off : nat) (out : list V) : outcome (list V) :=
    if readable_info (a_info a) then copy_elems t a bytes n src off out
    else match t with
    | SFloat | SDouble => match n with O => Ok out | S _ => UB end
    | SRational | SPoly => Throw
    end.
  Definition nthz (l : list Z) (i : Z) : Z := nth (Z.to_nat i) l 0.
  Fixpoint dotp (a b : list Z) : Z := match a, b with x :: a', y :: b' => x * y + dotp a' b' | _, _ => 0 end.
  (** strided_copy.cpp:156-162 *)
  Definition dst_offset (shape index : list Z) : Z := last index 0 + dotp (tl shape) (removelast index).
  (** lines 164-173; dimension 0 is not reset.  Least significant dimension first. *)
  Fixpoint adv_rev (ix sh : list Z) : list Z :=
    match ix, sh with
    | i :: ix', n :: sh' =>
      match ix' with
      | [] => [i + 1]
      | _ => if i + 1 >=? n then 0 :: adv_rev ix' sh' else (i + 1) :: ix'
      end
    | _, _ => ix
    end.
  Definition advance_index (shape index : list Z) : list Z := rev (adv_rev (rev index) (rev (firstn (length index) shape))).
  (** lines 182-191.  Offsets are computed modulo 2^64 in the code; here as integers. *)
  Fixpoint copy_loop (fuel : nat) (t : stype) (a : arr) (bytes : Z) (shape strides : list Z) (csz : Z) (index : list Z) (out : list V) : outcome (list V) :=
    if hd 0 index <? hd 0 shape then
      match fuel with
      | O => NoFuel
      | S fuel =>
        let off := dst_offset (firstn (length index) shape) index in
        if off + csz >? llen out then Throw
        else
          let! out := convert_copy t a bytes (Z.to_nat csz) (dotp strides index) (Z.to_nat off) out in
          copy_loop fuel t a bytes shape strides csz (advance_index shape index) out
      end
    else Ok out.
  Definition copy_fuel (shape : list Z) : nat := Z.to_nat (zprod (map (fun n => Z.max 1 n) shape)).
  (** strided_copy.cpp:123-193.  The strides are in bytes. *)
  Definition stride_copy (t : stype) (a : arr) (ndim : Z) (shape : list Z) (strides : option (list Z)) (out : list V) : outcome (list V) :=
    if ndim =? 0 then Ok out
    else
      let bytes := ti_bytes (a_info a) in
      let compressed := get_compressed_dims ndim bytes shape strides in
      if compressed =? ndim then convert_copy t a bytes (length out) 0 0 out
      else
        let uncompressed := Z.to_nat (ndim - compressed) in
        let csz := zprod (skipn uncompressed (firstn (Z.to_nat ndim) shape)) in
        copy_loop (copy_fuel shape) t a bytes shape (match strides with Some st => st | None => [] end) csz (repeat 0 uncompressed) out.

  (** A borrowed array of [n] elements: read here, in the code when it is used.  It is made
      with a type object. *)
  Definition read_typed (a : arr) (off : Z) : outcome V := match a_mem a (a_info a) off with Some v => Ok v | None => UB end.
  Fixpoint read_elems (a : arr) (bytes : Z) (n : nat) (src : Z) : outcome (list V) :=
    match n with
    | O => Ok []
    | S n' => let! v := read_typed a src in let! r := read_elems a bytes n' (src + bytes) in Ok (v :: r)
    end.
  (** parse_data_argument.cpp:283-331 *)
  Definition handle_dl (t : stype) (l : leaf) (a : arr) : outcome (list V) :=
    let bytes := ti_bytes (a_info a) in
    if is_C_contiguous (a_strides a) (a_shape a) bytes && tinfo_eqb (st_info t) (a_info a)
    then read_elems a bytes (Z.to_nat (lf_size l)) 0
    else stride_copy t a (llen (a_shape a)) (a_shape a) (match a_strides a with Some st => Some (map (fun s => s * bytes) st) | None => None end)
           (fst (fst (allocate_leaf t l))).
  (** PyBuffer_IsContiguous(view, 'A'): no strides, or C or Fortran order.  Dimensions of one
      element may have any stride. *)
  Fixpoint contig (strides shape : list Z) (size : Z) : bool :=
    match strides, shape with
    | s :: st', n :: sh' => ((n =? 1) || (s =? size)) && contig st' sh' (size * n)
    | _, _ => true
    end.
  Definition buf_contiguous (a : arr) : bool :=
    match a_strides a with
    | None => true
    | Some st => (zprod (a_shape a) =? 0) || contig (rev st) (rev (a_shape a)) (ti_bytes (a_info a)) || contig st (a_shape a) (ti_bytes (a_info a))
    end.
  (** lines 333-359.  BufferInfo::ndim() returns the item size (buffer_info.h:51-54), so
      stride_copy reads that many entries of shape and strides. *)
  Definition handle_buf (t : stype) (l : leaf) (a : arr) : outcome (list V) :=
    let bytes := ti_bytes (a_info a) in
    if buf_contiguous a && tinfo_eqb (st_info t) (a_info a)
    then read_elems a bytes (Z.to_nat (lf_size l)) 0
    else if bytes >? llen (a_shape a) then UB
    else stride_copy t a bytes (a_shape a) (a_strides a) (fst (fst (allocate_leaf t l))).

  Fixpoint conv_list (t : stype) (l : list V) : outcome (list V) :=
    match l with
    | [] => Ok []
    | v :: l' => match conv t v with Some x => let! r := conv_list t l' in Ok (x :: r) | None => Throw end
    end.
  Definition stype_eqb (a b : stype) : bool :=
    match a, b with SFloat, SFloat | SDouble, SDouble | SRational, SRational | SPoly, SPoly => true | _, _ => false end.

  (** lines 249-385, 387-400 *)
  Definition convert_leaf (o : dopts) (t : stype) (l : leaf) : outcome leafdata :=
    let done (f : fill) := mkLD (lf_shape l) (fst (fst f)) (snd (fst f)) (lf_size l) (lf_type l) (lf_vt l) in
    let plain vals := Ok (mkLD (lf_shape l) vals None (lf_size l) (lf_type l) (lf_vt l)) in
    let start := allocate_leaf t l in
    match lf_type l, lf_obj l with
    | KScalar, v => let! f := handle_scalar t v start in Ok (done f)
    | KKeyScalar, v => let! f := handle_key_scalar o t v start in Ok (done f)
    | KLie, PLieD s d => if stype_eqb s t then plain d else let! d := conv_list t d in plain d
    | KLie, PLieS s d =>
      let! f := pushes (fun p f => match conv t (snd p) with Some x => push_key (fst p) x f | None => Throw end) d start in Ok (done f)
    | KDl, PDl a => let! vals := handle_dl t l a in plain vals
    | KBuf, PBuf a => let! vals := handle_buf t l a in plain vals
    | KDict, PDict kv =>
      let! f := pushes (fun p f => let! k := convert_key o (fst p) in let! x := convert_scalar t (snd p) in push_key k x f) kv start in Ok (done f)
    | KSeq, (PTuple s | PList s) =>
      match lf_vt l with
      | VVal => let! f := pushes (handle_scalar t) s start in Ok (done f)
      | VKeyVal => let! f := pushes (handle_key_scalar o t) s start in Ok (done f)
      end
    | _, _ => Throw
    end.
  Fixpoint do_conversion (o : dopts) (t : stype) (l : list leaf) : outcome (list leafdata) :=
    match l with
    | [] => Ok []
    | x :: l' => let! d := convert_leaf o t x in let! r := do_conversion o t l' in Ok (d :: r)
    end.

  (** lines 674-681: the leaves and the scalar type chosen *)
  Definition parse_argument (o : dopts) (v : pyval) : outcome (list leafdata * option stype) :=
    match v with
    | PNone => if o_none o then Ok ([], o_type o) else Throw
    | _ =>
      let! leaves := check_size_and_type o v in
      let! t := compute_scalar_type o leaves in
      let! d := do_conversion o t leaves in
      Ok (d, Some t)
    end.

  (** *** Rows of a KeyScalarStream *)
  (** lines 701-704 *)
  Fixpoint cut (fuel : nat) (sz : nat) (vals : list V) : list (list V) :=
    match fuel with
    | O => []
    | S f => match vals with [] => [] | _ => firstn sz vals :: cut f sz (skipn sz vals) end
    end.
  (** lines 683-714 [fill_ks_stream]: [borrow()] and slicing give plain scalar arrays
      (scalar_array.cpp:411-436, 496-499), so no keys reach the stream. *)
  Definition leaf_rows (d : leafdata) : outcome (list (list V)) :=
    match ld_type d with
    | KScalar | KKeyScalar => Throw
    | KDl | KBuf =>
      if ld_size d =? 0 then Ok []
      else match ld_shape d with
      | [] => UB
      | [_] => Ok [ld_vals d]
      | sh => Ok (cut (length (ld_vals d)) (Z.to_nat (last sh 0)) (ld_vals d))
      end
    | KLie | KDict | KSeq => Ok [ld_vals d]
    end.
  Fixpoint fill_ks_stream (l : list leafdata) : outcome (list (list V)) :=
    match l with
    | [] => Ok []
    | d :: l' => let! a := leaf_rows d in let! b := fill_ks_stream l' in Ok (a ++ b)
    end.

  (** Rows as read by LieIncrementStream.from_increments (lie_increment_stream.cpp:77-98). *)
  Definition stream_opts (t : option stype) : dopts := mkOpts t false 2 true false true.
  Definition increments (t : option stype) (v : pyval) : outcome (list (list V) * stype) :=
    let! (d, st) := parse_argument (stream_opts t) v in
    let! rows := fill_ks_stream d in
    match st with Some s => Ok (rows, s) | None => Throw end.

  (** Coefficients of Lie(data) (lie.cpp:111-136), FreeTensor(data), ShuffleTensor(data)
      (free_tensor.cpp:97-130): values with keys if there are any.  Without data the buffer
      stays empty. *)
  Definition lie_opts (t : option stype) : dopts := mkOpts t false 1 true false true.
  Definition tensor_opts (t : option stype) : dopts := mkOpts t true 1 true true true.
  Definition coefficients (o : dopts) (v : pyval) : outcome (list V * option (list Z) * stype) :=
    let! (d, st) := parse_argument o v in
    let b := match d with [x] => (ld_vals x, ld_keys x) | _ => ([], None) end in
    match st with Some s => Ok (b, s) | None => Throw end.
End Data.
Arguments PInt {V}. Arguments PNum {V}. Arguments PKey {V}. Arguments PStr {V}. Arguments PNone {V}. Arguments POther {V}.
Arguments PTuple {V}. Arguments PList {V}. Arguments PDict {V}. Arguments PLieD {V}. Arguments PLieS {V}. Arguments PDl {V}. Arguments PBuf {V}.
Arguments mkArr {V}. Arguments a_info {V}. Arguments a_shape {V}. Arguments a_strides {V}. Arguments a_mem {V}.
Arguments mkLeaf {V}. Arguments lf_shape {V}. Arguments lf_obj {V}. Arguments lf_size {V}. Arguments lf_info {V}. Arguments lf_type {V}. Arguments lf_vt {V}.
Arguments mkLD {V}. Arguments ld_shape {V}. Arguments ld_vals {V}. Arguments ld_keys {V}. Arguments ld_size {V}. Arguments ld_type {V}. Arguments ld_vt {V}.
Arguments is_scalar {V}. Arguments is_key {V}. Arguments is_kv_pair {V}. Arguments convert_key {V}. Arguments type_info_from {V}. Arguments scan {V}.
Arguments second {V}. Arguments check_array {V}. Arguments check_recurse {V}. Arguments check_size_and_type {V}. Arguments promote_all {V}.
Arguments compute_scalar_type {V}. Arguments push {V}. Arguments push_key {V}. Arguments pushes {V A}. Arguments a_held {V}. Arguments read {V}. Arguments read_typed {V}. Arguments copy_elems {V}. Arguments read_elems {V}.
Arguments cut {V}. Arguments leaf_rows {V}. Arguments fill_ks_stream {V}. Arguments convert_scalar {V}. Arguments convert_copy {V}. Arguments copy_loop {V}.
Arguments stride_copy {V}. Arguments handle_dl {V}. Arguments handle_buf {V}. Arguments allocate_leaf {V}. Arguments handle_scalar {V}. Arguments handle_key_scalar {V}.
Arguments conv_list {V}. Arguments convert_leaf {V}. Arguments do_conversion {V}. Arguments parse_argument {V}. Arguments increments {V}. Arguments coefficients {V}.
Arguments buf_contiguous {V}.
