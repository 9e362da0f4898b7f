(** Model of the stream queries:
    streams/src/lie_increment_stream.cpp, streams/src/dyadic_caching_layer.cpp,
    streams/src/stream.cpp, streams/include/roughpy/streams/stream_base.h.

    Lie elements are an abstract type: the streams only move them around, test them for
    zero and hand them to the context.  Parameters are exact rationals.  Vector types
    and scalar types are left out; so is the mutex, i.e. calls run one after another. *)
From Verif Require Export IntervalModel DyadicModel.
Open Scope Z_scope.

(** algebra::Context, as far as the streams use it: its depth, its zero element and the
    Campbell-Baker-Hausdorff product of a list. *)
Record actx (lie : Type) := mkCtx { cx_width : Z; cx_depth : Z; cx_zero : lie; cx_cbh : list lie -> lie }.
Arguments mkCtx {lie}. Arguments cx_width {lie}. Arguments cx_depth {lie}. Arguments cx_zero {lie}. Arguments cx_cbh {lie}.

Section Streams.
  Variable lie : Type.
  (** algebra_base_impl.h:351 [is_zero] *)
  Variable is_zero : lie -> bool.
  (** The default-constructed [algebra::Lie()]. *)
  Variable lie_none : lie.
  Notation actx := (actx lie).

  (** *** Lie increment streams *)
  (** lie_increment_stream.h [m_data]: a flat map from parameters to increments, kept in
      ascending order of the parameter. *)
  Definition incs := list (Q * lie).
  (** [try_emplace]: insert unless the key is there already. *)
  Fixpoint try_emplace (k : Q) (v : lie) (d : incs) : incs :=
    match d with
    | [] => [(k, v)]
    | (k', v') :: d' =>
        if qlt k k' then (k, v) :: d
        else if qlt k' k then (k', v') :: try_emplace k v d'
        else d
    end.
  (** lie_increment_stream.cpp:163-174: the constructor from (parameter, Lie) pairs; the
      constructors from arrays (45-160) insert the rows in the same way. *)
  Definition lis_data (rows : list (Q * lie)) : incs :=
    fold_left (fun d r => try_emplace (fst r) (snd r) d) rows [].

  (** [lower_bound], [upper_bound]: position of the first key not less than, or greater
      than, the argument. *)
  Fixpoint lower_bound (d : incs) (x : Q) : nat :=
    match d with [] => O | (k, _) :: d' => if qlt k x then S (lower_bound d' x) else O end.
  Fixpoint upper_bound (d : incs) (x : Q) : nat :=
    match d with [] => O | (k, _) :: d' => if qle k x then S (upper_bound d' x) else O end.
  (** lie_increment_stream.cpp:181-187, 205-212 *)
  Definition bounds (d : incs) (inf sup : Q) (t : itype) : nat * nat :=
    match t with
    | Opencl => (upper_bound d inf, upper_bound d sup)
    | Clopen => (lower_bound d inf, lower_bound d sup)
    end.
  (** lines 189-198.  Iterating from [begin] to an [end] before it runs off the map. *)
  Definition lis_impl (d : incs) (ctx : actx) (inf sup : Q) (t : itype) : outcome lie :=
    let (b, e) := bounds d inf sup t in
    if (b =? e)%nat then Ok (cx_zero ctx)
    else if (e <? b)%nat then UB
    else Ok (cx_cbh ctx (map snd (skipn b (firstn e d)))).
  (** lines 200-214 [empty] *)
  Definition lis_empty (d : incs) (inf sup : Q) (t : itype) : bool :=
    let (b, e) := bounds d inf sup t in (b =? e)%nat.

  (** Both for a dyadic interval, through Interval::inf() and sup(). *)
  Definition impl_di (d : incs) (ctx : actx) (i : dint) : outcome lie :=
    let! lo := dinf i in
    let! hi := dsup i in
    lis_impl d ctx (to_param lo) (to_param hi) (di_t i).
  Definition empty_di (d : incs) (i : dint) : outcome bool :=
    let! lo := dinf i in
    let! hi := dsup i in
    Ok (lis_empty d (to_param lo) (to_param hi) (di_t i)).

  (** *** The dyadic caching layer *)
  (** dyadic_caching_layer.h [m_cache]: std::map from dyadic intervals to Lie elements.
      Two keys are the same if neither is less than the other (dyadic_interval.cpp [<]). *)
  Definition cache := list (dint * lie).
  Definition same_key (a b : dint) : outcome bool :=
    let! l := di_lt a b in
    let! g := di_lt b a in
    Ok (negb l && negb g).
  Fixpoint cache_find (c : cache) (i : dint) : outcome (option lie) :=
    match c with
    | [] => Ok None
    | (j, v) :: c' => let! s := same_key j i in if s then Ok (Some v) else cache_find c' i
    end.

  (** dyadic_caching_layer.cpp:86-130.  [res] is the stream's default resolution. *)
  Fixpoint layer_dyadic (fuel : nat) (d : incs) (res : Z) (ctx : actx) (c : cache) (i : dint) : outcome (lie * cache) :=
    match fuel with
    | O => NoFuel
    | S fuel =>
        let! e := empty_di d i in
        if e then Ok (cx_zero ctx, c)
        else if di_n i =? res then
          let! r := cache_find c i in
          match r with
          | Some v => Ok (v, c)
          | None => let! v := impl_di d ctx i in Ok (v, (i, v) :: c)
          end
        else if di_n i >? res then
          let! tmp := expand_interval i (di_n i - res) in
          let! s := rational_equals (di_d tmp) (di_d i) in
          if s then layer_dyadic fuel d res ctx c tmp else Ok (lie_none, c)
        else
          let! l := shrink_interval_left i 1 in
          let! r := shrink_interval_right i in
          let! (lhs, c1) := layer_dyadic fuel d res ctx c l in
          let! (rhs, c2) := layer_dyadic fuel d res ctx c1 r in
          if is_zero lhs then Ok (rhs, c2)
          else if is_zero rhs then Ok (lhs, c2)
          else Ok (cx_cbh ctx [lhs; rhs], c2)
    end.
  (** Dissect and collect: the loops of dyadic_caching_layer.cpp:145-153 and
      stream.cpp:113-120. *)
  Fixpoint layer_pieces (fuel : nat) (d : incs) (res : Z) (ctx : actx) (c : cache) (l : list dint) : outcome (list lie * cache) :=
    match l with
    | [] => Ok ([], c)
    | i :: l =>
        let! (x, c1) := layer_dyadic fuel d res ctx c i in
        let! (xs, c2) := layer_pieces fuel d res ctx c1 l in
        Ok (if is_zero x then xs else x :: xs, c2)
    end.
  (** stream_base.cpp:81-96: the uncached fallback. *)
  Fixpoint impl_pieces (d : incs) (ctx : actx) (l : list dint) : outcome (list lie) :=
    match l with
    | [] => Ok []
    | i :: l => let! x := impl_di d ctx i in let! xs := impl_pieces d ctx l in Ok (x :: xs)
    end.

  (** *** Streams *)
  (** stream_base.h StreamMetadata and stream.h: what a stream knows besides its data. *)
  Record stream := mkStream { st_data : incs; st_res : Z; st_ctx : actx; st_support : ri }.

  (** dyadic_caching_layer.cpp:131-154: the layer's own interval query. *)
  Definition layer_interval (fuel : nat) (s : stream) (c : cache) (domain : ri) (resolution : Z) (ctx : actx) : outcome (lie * cache) :=
    if negb (cx_width ctx =? cx_width (st_ctx s)) then Throw
    else if negb (cx_depth ctx =? cx_depth (st_ctx s)) then
      let! l := to_dyadic_intervals fuel (ri_inf domain) (ri_sup domain) resolution Clopen in
      let! xs := impl_pieces (st_data s) ctx l in
      Ok (cx_cbh ctx xs, c)
    else
      let! l := to_dyadic_intervals fuel (ri_inf domain) (ri_sup domain) resolution Clopen in
      let! (xs, c1) := layer_pieces fuel (st_data s) (st_res s) ctx c l in
      Ok (cx_cbh ctx xs, c1).

  (** stream.cpp:36-52 [check_support_and_trim] *)
  Definition check_support_and_trim (support domain : ri) : option ri :=
    if qlt (ri_sup domain) (ri_inf support) || qlt (ri_sup support) (ri_inf domain) then None
    else Some (ri_make (qmax (ri_inf domain) (ri_inf support)) (qmin (ri_sup domain) (ri_sup support)) (ri_t domain)).
  (** The exponent of 2 in the leading digit of a positive number: [frexp]'s exponent
      minus one. *)
  Definition qlog2 (x : Q) : Z :=
    let e := Z.log2 (Qnum x) - Z.log2 (Zpos (Qden x)) in
    if qle (Qpower 2 e) x then e else e - 1.
  (** stream_base.h:73-84 [param_to_resolution] *)
  Definition param_to_resolution (x : Q) : Z := - Z.min 0 (qlog2 x).
  (** stream.cpp:54-71 [refine_interval]; adjust_interval is the identity for the default
      parametrization (offset 0, scale 1). *)
  Definition refine_interval (s : stream) (query : ri) : option (ri * Z) :=
    match check_support_and_trim (st_support s) query with
    | None => None
    | Some q =>
        let length := (ri_sup q - ri_inf q)%Q in
        if qeq length 0 then None
        else Some (q, Z.max (st_res s) (param_to_resolution length + 2))
    end.
  (** stream.cpp:73-89 [restrict] *)
  Definition restrict (s : stream) (i : ri) : stream := mkStream (st_data s) (st_res s) (st_ctx s) i.
  (** stream.cpp:106-123 [log_signature_impl] *)
  Definition stream_impl (fuel : nat) (s : stream) (c : cache) (interval : ri) (resolution : Z) (ctx : actx) : outcome (lie * cache) :=
    let! l := to_dyadic_intervals fuel (ri_inf interval) (ri_sup interval) resolution Clopen in
    let! (xs, c1) := layer_pieces fuel (st_data s) (st_res s) ctx c l in
    Ok (cx_cbh ctx xs, c1).
  (** stream.cpp:125-135: [log_signature(interval, ctx)] *)
  Definition log_signature (fuel : nat) (s : stream) (c : cache) (interval : ri) (ctx : actx) : outcome (lie * cache) :=
    match refine_interval s interval with
    | None => Ok (cx_zero ctx, c)
    | Some (q, r) => stream_impl fuel s c q r ctx
    end.
  (** stream.cpp:137-157: [log_signature(interval, resolution[, ctx])] *)
  Definition log_signature_at (fuel : nat) (s : stream) (c : cache) (interval : ri) (resolution : Z) (ctx : actx) : outcome (lie * cache) :=
    match refine_interval s interval with
    | None => Ok (cx_zero ctx, c)
    | Some (q, _) => stream_impl fuel s c q resolution ctx
    end.
End Streams.
Arguments try_emplace {lie}. Arguments lis_data {lie}. Arguments lower_bound {lie}. Arguments upper_bound {lie}. Arguments bounds {lie}.
Arguments lis_impl {lie}. Arguments lis_empty {lie}. Arguments impl_di {lie}. Arguments empty_di {lie}. Arguments cache_find {lie}.
Arguments layer_dyadic {lie}. Arguments layer_pieces {lie}. Arguments impl_pieces {lie}.
Arguments mkStream {lie}. Arguments st_data {lie}. Arguments st_res {lie}. Arguments st_ctx {lie}. Arguments st_support {lie}.
Arguments layer_interval {lie}. Arguments refine_interval {lie}. Arguments restrict {lie}. Arguments stream_impl {lie}.
Arguments log_signature {lie}. Arguments log_signature_at {lie}.
