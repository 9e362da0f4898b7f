(** What the arguments of the Python methods of streams mean. *)
From Verif Require Export ArgModel StreamSpec.
Open Scope Z_scope.

Section Spec.
  Variable lie : Type.
  Variable get_context : Z -> Z -> ctype -> actx lie.
  Notation arg := (pyarg lie).

  (** *** Calls *)
  (** [pos], [kw]: the arguments given by position and by name.  The argument number [i], called
      [n], of a call is [a] or is not given. *)
  Definition given (pos : list arg) (kw : list (string * arg)) (i : nat) (n : string) (a : option arg) : Prop :=
    match a with
    | Some a => nth_error pos i = Some a \/ nth_error pos i = None /\ In (n, a) kw
    | None => nth_error pos i = None /\ forall a, ~ In (n, a) kw
    end.
  (** Not more than [m] arguments by position, no unknown names, none given twice. *)
  Definition well_called (names : list string) (m : nat) (pos : list arg) (kw : list (string * arg)) : Prop :=
    (length pos <= m)%nat /\ NoDup (map fst kw) /\ (forall n a, In (n, a) kw -> In n names) /\ forall i n a, nth_error names i = Some n -> (i < length pos)%nat -> ~ In (n, a) kw.
  (** The arguments of such a call, in the order of [names]. *)
  Definition arguments (names : list string) (m : nat) (pos : list arg) (kw : list (string * arg)) (l : list (option arg)) : Prop :=
    well_called names m pos kw /\ length l = length names /\ forall i n, nth_error names i = Some n -> given pos kw i n (nth i l None).

  (** *** Numbers, resolutions, intervals *)
  Inductive number : arg -> Q -> Prop :=
  | N_float x : number (AFloat lie x) x
  | N_int z : Z.abs z < 2 ^ 1024 - 2 ^ 970 -> number (AInt lie z) (inject_Z z).
  (** A float stands for cells of its size, at most 32 long. *)
  Definition float_resolution (x : Q) (r : Z) : Prop := ((x == 0)%Q /\ r = 1) \/ exists e, (Qpower 2 e <= Qabs x)%Q /\ (Qabs x < Qpower 2 (e + 1))%Q /\ r = Z.max (- 5) (- e).
  (** Ints are reduced to 32 bits. *)
  Inductive resolution : arg -> Z -> Prop :=
  | R_int z r : - 2 ^ 63 <= z < 2 ^ 63 -> - 2 ^ 31 <= r < 2 ^ 31 -> (z - r) mod 2 ^ 32 = 0 -> resolution (AInt lie z) r
  | R_float x r : float_resolution x r -> resolution (AFloat lie x) r.
  (** An argument that may be left out or None, in place of [r]. *)
  Definition or_resolution (a : option arg) (r r' : option Z) : Prop :=
    ((a = None \/ a = Some (ANone lie)) /\ r' = r) \/ exists b z, a = Some b /\ resolution b z /\ r' = Some z.
  (** 32-bit ints: Python ints and objects that count as such *)
  Inductive small_int : arg -> Z -> Prop :=
  | I_int z : - 2 ^ 31 <= z < 2 ^ 31 -> small_int (AInt lie z) z
  | I_index z : - 2 ^ 31 <= z < 2 ^ 31 -> small_int (AIndex lie z) z.
  Definition or_int (a : option arg) (d z : Z) : Prop := (a = None /\ z = d) \/ exists b, a = Some b /\ small_int b z.
  (** The real interval with the ends of a dyadic one, whose multiplier is below 2^31 - 1 and
      above -2^31 *)
  Definition real_of (d : dint) (i : ri) : Prop :=
    exists a b, dinf d = Ok a /\ dsup d = Ok b /\ i = mkRI (to_param a) (to_param b) (di_t d).
  Inductive exact_interval : arg -> ri -> Prop :=
  | E_real i : exact_interval (AReal lie i) i
  | E_dyadic d i : real_of d i -> exact_interval (ADyadic lie d) i.

  (** *** Queries: the interval (None: the whole support) and the resolution (None: the default)
      that the first, second and third argument stand for *)
  Inductive asks (first sup res : option arg) : option ri -> option Z -> Prop :=
  | A_whole r : first = None \/ first = Some (ANone lie) -> or_resolution res None r -> asks first sup res None r
  | A_resolution z r r' : first = Some (AInt lie z) -> sup = None -> or_resolution res None r' -> resolution (AInt lie z) r -> asks first sup res None (Some r)
  | A_ends a b x y r : first = Some a -> sup = Some b -> number a x -> number b y -> (x <= y)%Q -> or_resolution res None r -> asks first sup res (Some (mkRI x y Clopen)) r
  | A_interval a i r r' : first = Some a -> exact_interval a i -> or_resolution res None r' -> or_resolution sup r' r -> asks first sup res (Some i) r.
  (** The scalar type meant by the dtype argument of a stream of data of type [own] *)
  Inductive type_asked (own : ctype) : option arg -> ctype -> Prop :=
  | T_own : type_asked own None own
  | T_type t : type_asked own (Some (AType lie t)) t
  | T_descr b : type_asked own (Some (ADescr lie b)) (if b then TFloat else TDouble).
  (** The context meant *)
  Inductive context_asked (s : pystream lie) (ctx depth dtype : option arg) : pctx lie -> Prop :=
  | C_given c d : ctx = Some (ACtx lie c) -> or_int depth 0 d -> context_asked s ctx depth dtype c
  | C_own : ctx = None -> or_int depth 0 0 -> dtype = None -> context_asked s ctx depth dtype (mkPC lie (st_ctx (py_s lie s)) (py_ctype lie s))
  | C_alike d t : ctx = None -> or_int depth 0 d -> 0 <= d -> (d <> 0 \/ dtype <> None) -> type_asked (py_type lie s) dtype t -> t <> TNoContext ->
      context_asked s ctx depth dtype (mkPC lie (get_context (cx_width (st_ctx (py_s lie s))) d t) t).

  (** The query that an interval and a resolution, if any, stand for *)
  Definition query_for (s : stream lie) (i : option ri) (r : option Z) : query :=
    let i := match i with Some i => i | None => st_support s end in
    match r with Some r => QAt i r | None => QDefault i end.

  (** *** Derivatives: pairs of an interval and a perturbation *)
  Inductive any_interval : arg -> ri -> Prop :=
  | V_exact a i : exact_interval a i -> any_interval a i
  | V_other i : any_interval (AInterval lie i) i
  | V_partition p : any_interval (APartition lie p) (p_base p).
  Definition pair (a : arg) (p : ri * lie) : Prop := exists b, a = ATuple lie [b; ALie lie (snd p)] /\ any_interval b (fst p).
  Inductive directions : arg -> option arg -> list (ri * lie) -> Prop :=
  | D_two a i x : any_interval a i -> directions a (Some (ALie lie x)) [(i, x)]
  | D_pair a o p : pair a p -> directions a o [p]
  | D_tuple a l o ps : length (a :: l) <> 2%nat -> Forall2 pair (a :: l) ps -> directions (ATuple lie (a :: l)) o ps
  | D_list a l o ps : Forall2 pair (a :: l) ps -> directions (AList lie (a :: l)) o ps.
  (** What is asked of signature_derivative with these four arguments: directions, resolution
      (an int in second place stands for it) and context. *)
  Inductive derivative_asked (s : pystream lie) (first second res depth : option arg) : list (ri * lie) -> Z -> pctx lie -> Prop :=
  | DA a o d r r' c : first = Some a -> or_int res (st_res (py_s lie s)) r ->
      ((exists z, second = Some (AInt lie z) /\ resolution (AInt lie z) r' /\ o = None) \/ ((forall z, second <> Some (AInt lie z)) /\ r' = r /\ o = second)) ->
      directions a o d ->
      (or_int depth (-1) (-1) /\ c = mkPC lie (st_ctx (py_s lie s)) (py_ctype lie s) \/
       exists n, or_int depth (-1) n /\ 0 <= n /\ py_ctype lie s <> TNoContext /\ c = mkPC lie (get_context (cx_width (st_ctx (py_s lie s))) n (py_ctype lie s)) (py_ctype lie s)) ->
      derivative_asked s first second res depth d r' c.

  (** What is asked of simplify with these four arguments: partition, resolution and context. *)
  Inductive simplify_asked (s : pystream lie) (part res ctx depth : option arg) : IntervalModel.partition -> Z -> pctx lie -> Prop :=
  | S_given p r c d : part = Some (APartition lie p) -> or_int res (st_res (py_s lie s)) r -> ctx = Some (ACtx lie c) -> or_int depth 0 d ->
      cx_width (pc_ctx lie c) = py_width lie s -> pc_type lie c = py_type lie s -> simplify_asked s part res ctx depth p r c
  | S_own p r : part = Some (APartition lie p) -> or_int res (st_res (py_s lie s)) r -> ctx = None -> or_int depth 0 0 ->
      simplify_asked s part res ctx depth p r (mkPC lie (st_ctx (py_s lie s)) (py_ctype lie s))
  | S_alike p r d : part = Some (APartition lie p) -> or_int res (st_res (py_s lie s)) r -> ctx = None -> or_int depth 0 d -> 0 < d -> py_ctype lie s <> TNoContext ->
      simplify_asked s part res ctx depth p r (mkPC lie (get_context (cx_width (st_ctx (py_s lie s))) d (py_ctype lie s)) (py_ctype lie s)).

  (** After the calls [h] of the stream in the context [ctx], the call of log_signature with these
      arguments returns [x]; and so for signature and signature_derivative. *)
  Variables (tensor : Type) (is_zero : lie -> bool) (none : lie) (to_signature : actx lie -> lie -> tensor) (sig_derivative : actx lie -> list (lie * lie) -> outcome tensor).
  Variable get_type : string -> option ctype.
  Definition returns {A} (s : pystream lie) (ctx : actx lie) (h : list query) (call : nat -> cache lie -> outcome (A * cache lie)) (x : A) : Prop :=
    forall fuel, (31 <= fuel)%nat -> exists xs c c', ask_all is_zero none fuel (py_s lie s) ctx [] h = Ok (xs, c) /\ call fuel c = Ok (x, c').
  Definition returns_log_signature s ctx h pos kw x : Prop := returns s ctx h (fun fuel c => py_log_signature lie is_zero none get_context get_type fuel s c pos kw) x.
  Definition returns_signature s ctx h pos kw x : Prop := returns s ctx h (fun fuel c => py_signature lie tensor is_zero none to_signature get_context get_type fuel s c pos kw) x.
  Definition returns_derivative s ctx h pos kw x : Prop := returns s ctx h (fun fuel c => py_signature_derivative lie tensor is_zero none sig_derivative get_context fuel s c pos kw) x.
  Definition returns_simplified s ctx h pos kw x : Prop := returns s ctx h (fun fuel c => py_simplify lie is_zero none get_context fuel s c pos kw) x.
End Spec.
