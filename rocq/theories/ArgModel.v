(** The arguments of the Python methods of streams: roughpy/src/streams/signature_arguments.cpp,
    roughpy/src/streams/stream.cpp:180-527, over the stream of StreamModel and SimpModel.

    Ints are unbounded, floats finite and exact; ints taken for floats are not rounded.  The scalar
    type of a context is looked at only where contexts are made and compared.  A C++ exception that
    leaves one of these C functions ends the process: [UB]. *)
From Coq Require Export String.
From Verif Require Export SimpModel IndexModel.
Open Scope Z_scope.

(** Scalar types: those there are contexts of (lite_context.cpp:50-54), and others (half, bfloat16). *)
Inductive ctype := TFloat | TDouble | TRational | TPolynomial | TNoContext.
Definition ctype_eqb (a b : ctype) : bool :=
  match a, b with TFloat, TFloat | TDouble, TDouble | TRational, TRational | TPolynomial, TPolynomial | TNoContext, TNoContext => true | _, _ => false end.

(** core/include/roughpy/core/types.hpp:63, [int]; C conversion of a 64-bit number *)
Definition to_int (z : Z) : Z := (z + 2 ^ 31) mod 2 ^ 32 - 2 ^ 31.
(** PyLong_AsLong: out of range it returns -1 and leaves an error behind. *)
Definition as_long (z : Z) : Z * bool := if (- 2 ^ 63 <=? z) && (z <? 2 ^ 63) then (z, false) else (- 1, true).
(** PyLong_AsDouble *)
Definition as_double (z : Z) : Q * bool := if Z.abs z <? 2 ^ 1024 - 2 ^ 970 then (inject_Z z, false) else ((- 1)%Q, true).

Section Args.
  Variable lie tensor : Type.
  Variable is_zero : lie -> bool.
  Variable none : lie.
  (** Context::to_signature, Context::sig_derivative *)
  Variable to_signature : actx lie -> lie -> tensor.
  Variable sig_derivative : actx lie -> list (lie * lie) -> outcome tensor.
  (** algebra::get_context for a width, a depth and a scalar type *)
  Variable get_context : Z -> Z -> ctype -> actx lie.
  (** scalars::get_type, scalar_type.cpp:191-207 *)
  Variable get_type : string -> option ctype.

  (** A context of Python: the context and its scalar type. *)
  Record pctx := mkPC { pc_ctx : actx lie; pc_type : ctype }.
  (** A Python object: None; an int; another object with __index__ (bool, NumPy integers); a float;
      an object of exactly the class RealInterval, DyadicInterval; a Partition; another Interval; a
      Context; a scalar type; a str; a NumPy dtype of exactly the class numpy.dtype (single precision or
      not); a Lie; a tuple; a list; any other object, such as NumPy floats, which are not exactly of
      class float. *)
  Inductive pyarg :=
  | ANone | AInt (z : Z) | AIndex (z : Z) | AFloat (x : Q) | AReal (i : ri) | ADyadic (d : dint) | APartition (p : IntervalModel.partition)
  | AInterval (i : ri) | ACtx (c : pctx) | AType (t : ctype) | AStr (s : string) | ADescr (single : bool) | ALie (x : lie)
  | ATuple (l : list pyarg) | AList (l : list pyarg) | AOther.

  (** A Stream of Python: the stream and the members of its metadata that are not in it. *)
  Record pystream := mkPy { py_s : stream lie; py_width : Z; py_type : ctype; py_ctype : ctype; py_effective : ri }.

  (** *** PyArg_ParseTupleAndKeywords *)
  (** The keyword arguments of a call have different names. *)
  Definition keyword (kw : list (string * pyarg)) (n : string) : option pyarg :=
    match find (fun e => String.eqb (fst e) n) kw with Some e => Some (snd e) | None => None end.
  Fixpoint take_args (names : list string) (pos : list pyarg) (kw : list (string * pyarg)) : outcome (list (option pyarg)) :=
    match names, pos with
    | [], _ => Ok []
    | n :: names, a :: pos =>
        match keyword kw n with
        | Some _ => Throw
        | None => let! l := take_args names pos kw in Ok (Some a :: l)
        end
    | n :: names, [] => let! l := take_args names [] kw in Ok (keyword kw n :: l)
    end.
  Definition parse_args (names : list string) (max_pos : nat) (pos : list pyarg) (kw : list (string * pyarg)) : outcome (list (option pyarg)) :=
    if Nat.ltb max_pos (length pos) then Throw
    else if negb (forallb (fun e => existsb (String.eqb (fst e)) names) kw) then Throw
    else take_args names pos kw.
  Definition nth_arg (l : list (option pyarg)) (n : nat) : option pyarg := nth n l None.
  (** Format "i"; [pending]: an error is left behind already. *)
  Definition int_arg (pending : bool) (a : pyarg) : outcome Z :=
    match a with
    | AInt z | AIndex z => if negb ((- 2 ^ 31 <=? z) && (z <? 2 ^ 31)) then Throw else if (z =? -1) && pending then Throw else Ok z
    | _ => Throw
    end.

  (** *** signature_arguments.cpp *)
  (** Lines 29-51.  The resolution so far, and whether an error is left behind. *)
  Definition resolution_converter (a : pyarg) (r : option Z) : outcome (option Z * bool) :=
    match a with
    | AFloat x => Ok (Some (py_param_to_resolution x), false)
    | AInt z => let (l, e) := as_long z in Ok (Some (to_int l), e)
    | ANone => Ok (r, false)
    | _ => Throw
    end.
  (** Lines 108-144: the two ends given as numbers *)
  Definition ends (inf : Q * bool) (sup : pyarg) : outcome (ri * bool) :=
    let! (b, e) := match sup with AFloat x => Ok (x, false) | AInt z => Ok (as_double z) | _ => Throw end in
    if qlt b (fst inf) then Throw else Ok (ri_make (fst inf) b Clopen, snd inf || e).
  (** real_interval.h:63-66 of a dyadic interval *)
  Definition of_dyadic (d : dint) : outcome ri := let! a := dinf d in let! b := dsup d in Ok (mkRI (to_param a) (to_param b) (di_t d)).
  (** Lines 145-184: an interval and then perhaps the resolution *)
  Definition interval_then (i : ri) (sup : option pyarg) (r : option Z) : outcome (option ri * option Z * bool) :=
    match sup with
    | None => Ok (Some i, r, false)
    | Some a => let! (r, e) := resolution_converter a r in Ok (Some i, r, e)
    end.
  (** Lines 88-184 *)
  Definition read_interval (first sup : option pyarg) (r : option Z) : outcome (option ri * option Z * bool) :=
    match first with
    | None | Some ANone => Ok (None, r, false)
    | Some (AInt z) =>
        match sup with
        | None => let (l, e) := as_long z in Ok (None, Some (to_int l), e)
        | Some b => let! (i, e) := ends (as_double z) b in Ok (Some i, r, e)
        end
    | Some (AFloat x) =>
        match sup with
        | None => Throw
        | Some b => let! (i, e) := ends (x, false) b in Ok (Some i, r, e)
        end
    | Some (AReal i) => interval_then i sup r
    | Some (ADyadic d) =>
        let! (r, e) := match sup with None => Ok (r, false) | Some a => resolution_converter a r end in
        let! i := of_dyadic d in Ok (Some i, r, e)
    | Some _ => Throw
    end.
  (** lite_context.h:728-766, context.cpp:259-296, lite_context.cpp:67-107.  A negative depth gives no
      usable context: the tables of the tensor basis are empty, or std::length_error. *)
  Definition get_alike (s : pystream) (depth : Z) (t : ctype) : outcome pctx :=
    if depth <? 0 then UB
    else match t with TNoContext => UB | _ => Ok (mkPC (get_context (cx_width (st_ctx (py_s s))) depth t) t) end.
  (** Lines 192-230: the scalar type.  Line 202: a known name is refused; an unknown one
      dereferences an empty optional. *)
  Definition read_dtype (s : pystream) (dtype : option pyarg) : outcome ctype :=
    match dtype with
    | None => Ok (py_type s)
    | Some (AType t) => Ok t
    | Some (AStr n) => match get_type n with Some _ => Throw | None => UB end
    | Some (ADescr single) => Ok (if single then TFloat else TDouble)
    | Some _ => Throw
    end.
  Record sigargs := mkSA { sa_interval : option ri; sa_resolution : option Z; sa_ctx : pctx }.
  Definition sig_names : list string := ["interval_or_inf"; "sup"; "resolution"; "ctx"; "depth"; "dtype"]%string.
  (** Lines 55-242.  Format "|OOO&$O!iO": the first three by position or name. *)
  Definition parse_sig_args (s : pystream) (pos : list pyarg) (kw : list (string * pyarg)) : outcome sigargs :=
    let! l := parse_args sig_names 3 pos kw in
    let! (r, e) := match nth_arg l 2 with None => Ok (None, false) | Some a => resolution_converter a None end in
    let! c := match nth_arg l 3 with None => Ok None | Some (ACtx c) => Ok (Some c) | Some _ => Throw end in
    let! depth := match nth_arg l 4 with None => Ok 0 | Some a => int_arg e a end in
    let! (i, r, e') := read_interval (nth_arg l 0) (nth_arg l 1) r in
    let! c := match c, nth_arg l 5 with
      | Some c, _ => Ok c
      | None, dtype =>
          if (depth =? 0) && (match dtype with None => true | Some _ => false end) then Ok (mkPC (st_ctx (py_s s)) (py_ctype s))
          else let! t := read_dtype s dtype in get_alike s depth t
      end in
    if e || e' then Throw else Ok (mkSA i r c).

  (** *** stream.cpp *)
  (** Lines 237-260 over stream.h:132-160 *)
  Definition dispatch (fuel : nat) (s : stream lie) (c : cache lie) (a : sigargs) : outcome (lie * cache lie) :=
    let ctx := pc_ctx (sa_ctx a) in
    match sa_interval a, sa_resolution a with
    | Some i, Some r => log_signature_at is_zero none fuel s c i r ctx
    | Some i, None => log_signature is_zero none fuel s c i ctx
    | None, Some r => log_signature_at is_zero none fuel s c (st_support s) r ctx
    | None, None => log_signature is_zero none fuel s c (st_support s) ctx
    end.
  (** Lines 224-269 *)
  Definition py_log_signature (fuel : nat) (s : pystream) (c : cache lie) (pos : list pyarg) (kw : list (string * pyarg)) : outcome (lie * cache lie) :=
    let! a := parse_sig_args s pos kw in dispatch fuel (py_s s) c a.
  (** Lines 178-222 *)
  Definition py_signature (fuel : nat) (s : pystream) (c : cache lie) (pos : list pyarg) (kw : list (string * pyarg)) : outcome (tensor * cache lie) :=
    let! a := parse_sig_args s pos kw in
    let! (x, c) := dispatch fuel (py_s s) c a in
    Ok (to_signature (pc_ctx (sa_ctx a)) x, c).

  (** Exceptions leave the function. *)
  Definition uncaught {A} (x : outcome A) : outcome A := match x with Throw => UB | _ => x end.
  (** isinstance(a, Interval), and its ends *)
  Definition as_interval (a : pyarg) : outcome (option ri) :=
    match a with
    | AReal i | AInterval i => Ok (Some i)
    | ADyadic d => let! i := of_dyadic d in Ok (Some i)
    | APartition p => Ok (Some (p_base p))
    | _ => Ok None
    end.
  (** Lines 318-344, 377-391: PyArg_ParseTuple of the format "O!O!" *)
  Definition pair_arg (l : list pyarg) : outcome (ri * lie) :=
    match l with
    | [a; ALie x] => let! i := as_interval a in match i with Some i => Ok (i, x) | None => Throw end
    | _ => Throw
    end.
  (** Lines 362-400.  A pair has to be a tuple: PyArg_ParseTuple refuses lists. *)
  Fixpoint pairs_arg (l : list pyarg) : outcome (list (ri * lie)) :=
    match l with
    | [] => Ok []
    | ATuple p :: l => let! x := pair_arg p in let! xs := pairs_arg l in Ok (x :: xs)
    | _ :: _ => Throw
    end.
  Definition deriv_names : list string := ["interval"; "perturbation"; "resolution"; "depth"]%string.
  Record derivargs := mkDA { da_list : list (ri * lie); da_resolution : Z; da_ctx : pctx }.
  (** Lines 275-409, format "O|Oi$i" *)
  Definition parse_deriv (s : pystream) (pos : list pyarg) (kw : list (string * pyarg)) : outcome derivargs :=
    let! l := parse_args deriv_names 3 pos kw in
    match nth_arg l 0 with
    | None => Throw
    | Some a =>
        let! r := match nth_arg l 2 with None => Ok (st_res (py_s s)) | Some a => int_arg false a end in
        let! depth := match nth_arg l 3 with None => Ok (-1) | Some a => int_arg false a end in
        let! c := if depth =? -1 then Ok (mkPC (st_ctx (py_s s)) (py_ctype s)) else get_alike s depth (py_ctype s) in
        let '(second, r, e) := match nth_arg l 1 with Some (AInt z) => let (v, e) := as_long z in (None, to_int v, e) | x => (x, r, false) end in
        let! i := as_interval a in
        let! d := match i, second with
          | Some i, Some (ALie x) => Ok [(i, x)]
          | _, _ =>
              match a with
              | ATuple [x; y] => let! p := pair_arg [x; y] in Ok [p]
              | ATuple (x :: l) | AList (x :: l) => pairs_arg (x :: l)
              | _ => Throw
              end
          end in
        if e then Throw else Ok (mkDA d r c)
    end.
  (** stream.cpp:204-230 of the stream library *)
  Fixpoint deriv_infos (fuel : nat) (s : stream lie) (ctx : actx lie) (c : cache lie) (r : Z) (l : list (ri * lie)) : outcome (list (lie * lie) * cache lie) :=
    match l with
    | [] => Ok ([], c)
    | (i, x) :: l =>
        let! (y, c) := log_signature_at is_zero none fuel s c i r ctx in
        let! (l, c) := deriv_infos fuel s ctx c r l in Ok ((y, x) :: l, c)
    end.
  Definition py_signature_derivative (fuel : nat) (s : pystream) (c : cache lie) (pos : list pyarg) (kw : list (string * pyarg)) : outcome (tensor * cache lie) :=
    let! a := parse_deriv s pos kw in
    uncaught (let! (l, c) := deriv_infos fuel (py_s s) (pc_ctx (da_ctx a)) c (da_resolution a) (da_list a) in
              let! t := sig_derivative (pc_ctx (da_ctx a)) l in Ok (t, c)).

  Definition simplify_names : list string := ["partition"; "resolution"; "ctx"; "depth"]%string.
  (** Lines 415-469, format "O!|iO!i": the partition, the resolution and the context *)
  Definition parse_simplify (s : pystream) (pos : list pyarg) (kw : list (string * pyarg)) : outcome (IntervalModel.partition * Z * pctx) :=
    let! l := parse_args simplify_names 4 pos kw in
    let! p := match nth_arg l 0 with Some (APartition p) => Ok p | _ => Throw end in
    let! r := match nth_arg l 1 with None => Ok (st_res (py_s s)) | Some a => int_arg false a end in
    let! c := match nth_arg l 2 with None => Ok None | Some (ACtx c) => Ok (Some c) | Some _ => Throw end in
    let! depth := match nth_arg l 3 with None => Ok 0 | Some a => int_arg false a end in
    match c with
    | Some c => if negb (cx_width (pc_ctx c) =? py_width s) then Throw else if negb (ctype_eqb (pc_type c) (py_type s)) then Throw else Ok (p, r, c)
    | None => if depth =? 0 then Ok (p, r, mkPC (st_ctx (py_s s)) (py_ctype s)) else let! c := get_alike s depth (py_ctype s) in Ok (p, r, c)
    end.
  Definition py_simplify (fuel : nat) (s : pystream) (c : cache lie) (pos : list pyarg) (kw : list (string * pyarg)) : outcome (pwstream lie * cache lie) :=
    let! (p, r, x) := parse_simplify s pos kw in
    uncaught (simplify is_zero none fuel (py_s s) (py_effective s) c p r (pc_ctx x)).

  (** Lines 473-497, format "O".  py::cast throws for objects that are no intervals. *)
  Definition py_restrict (s : pystream) (pos : list pyarg) (kw : list (string * pyarg)) : outcome pystream :=
    let! l := parse_args ["interval"]%string 1 pos kw in
    match nth_arg l 0 with
    | None => Throw
    | Some a =>
        let! i := as_interval a in
        match i with
        | None => UB
        | Some i => Ok (mkPy (restrict (py_s s) i) (py_width s) (py_type s) (py_ctype s) (py_effective s))
        end
    end.
End Args.
