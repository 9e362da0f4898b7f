(** Model of streams/src/piecewise_abelian_stream.cpp and
    streams/src/tensor_valued_stream.cpp.  Lie elements, the context and signatures are
    abstract as in StreamModel.v; parameters are exact rationals. *)
From Verif Require Export StreamModel.
Open Scope Z_scope.

Section Pw.
  Variable lie : Type.
  (** [Lie::smul] by a rational scalar. *)
  Variable smul : Q -> lie -> lie.
  (** streams/include/roughpy/streams/piecewise_abelian_stream.h:49 [LiePiece]; the constructors store the list as given. *)
  Definition lie_piece := (ri * lie)%type.
  (** piecewise_abelian_stream.h:54-69 (the debug assertions are off in release builds).  The division by zero of an empty interval is not
      reached: see pw_impl. *)
  Definition to_multiplier_upper (i : ri) (param : Q) : Q := ((ri_sup i - param) / (ri_sup i - ri_inf i))%Q.
  Definition to_multiplier_lower (i : ri) (param : Q) : Q := ((param - ri_inf i) / (ri_sup i - ri_inf i))%Q.
  (** piecewise_abelian_stream.cpp:159-185: the loop collecting scaled pieces. *)
  Fixpoint pw_loop (a b : Q) (data : list lie_piece) : list lie :=
    match data with
    | [] => []
    | p :: data =>
        let pa := ri_inf (fst p) in let pb := ri_sup (fst p) in
        if qle b pa then []
        else if qle pb a then pw_loop a b data
        else if qle a pa && qle pb b then snd p :: pw_loop a b data
        else if qle pb pb then smul (to_multiplier_upper (fst p) a) (snd p) :: pw_loop a b data
        else if qle a pa && qlt b pb then smul (to_multiplier_lower (fst p) b) (snd p) :: pw_loop a b data
        else pw_loop a b data
    end.
  (** lines 155-189 [log_signature_impl]; also stream_base.cpp:64-70 log_signature(interval, ctx),
      which forwards to it. *)
  Definition pw_impl (data : list lie_piece) (ctx : actx lie) (domain : ri) : lie :=
    cx_cbh ctx (pw_loop (ri_inf domain) (ri_sup domain) data).
  (** stream_base.cpp:81-96: the query at a resolution; each dyadic piece is queried on its own. *)
  Fixpoint pw_pieces (data : list lie_piece) (ctx : actx lie) (l : list dint) : outcome (list lie) :=
    match l with
    | [] => Ok []
    | i :: l =>
        let! lo := dinf i in
        let! hi := dsup i in
        let! xs := pw_pieces data ctx l in
        Ok (pw_impl data ctx (mkRI (to_param lo) (to_param hi) (di_t i)) :: xs)
    end.
  Definition pw_query (fuel : nat) (data : list lie_piece) (ctx : actx lie) (domain : ri) (resolution : Z) : outcome lie :=
    let! l := to_dyadic_intervals fuel (ri_inf domain) (ri_sup domain) resolution Clopen in
    let! xs := pw_pieces data ctx l in
    Ok (cx_cbh ctx xs).
End Pw.
Arguments pw_loop {lie}. Arguments pw_impl {lie}. Arguments pw_pieces {lie}. Arguments pw_query {lie}.

(** ** Tensor-valued streams *)
Section Tvs.
  (** Free tensors and their product; the signature of the increment stream over an
      interval (with the context of the initial value).  [convert] to the same context and
      storage type is the identity. *)
  Variable G : Type.
  Variable mul : G -> G -> G.
  Variable signature : ri -> outcome G.
  (** tensor_valued_stream.h: domain and initial value; the increment stream is shared. *)
  Record tvs := mkTvs { tv_domain : ri; tv_initial : G }.
  (** tensor_valued_stream.cpp:64-79 [value_at] *)
  Definition value_at (s : tvs) (param : Q) : outcome G :=
    if qlt param (ri_inf (tv_domain s)) || qlt (ri_sup (tv_domain s)) param then Throw
    else if qeq param (ri_inf (tv_domain s)) then Ok (tv_initial s)
    else
      let interval := ri_make (ri_inf (tv_domain s)) param Clopen in
      let! sig := signature interval in
      Ok (mul (tv_initial s) sig).
  (** lines 81-84 *)
  Definition initial_value (s : tvs) : G := tv_initial s.
  (** lines 86-92 [terminal_value] *)
  Definition terminal_value (s : tvs) : outcome G :=
    let! sig := signature (tv_domain s) in
    Ok (mul (tv_initial s) sig).
  (** lines 47-59 [query] *)
  Definition tvs_query (s : tvs) (interval : ri) : outcome tvs :=
    if negb (intersects_with (tv_domain s) interval) then Throw
    else
      let query_interval := intersection (tv_domain s) interval in
      let! v := value_at s (ri_inf query_interval) in
      Ok (mkTvs query_interval v).
End Tvs.
Arguments mkTvs {G}. Arguments tv_domain {G}. Arguments tv_initial {G}. Arguments value_at {G}. Arguments terminal_value {G}. Arguments tvs_query {G}. Arguments initial_value {G}.
