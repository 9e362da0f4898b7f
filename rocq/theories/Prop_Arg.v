(** Property theorems C76 and C77: the arguments of the methods of streams.  [arguments names m pos kw l]:
    the call with these positional and keyword arguments is well formed (at most m by position, known
    names, none given twice) and l are the values given for the names; [asks], [context_asked], … say what
    the values stand for; [returns_… s ctx h pos kw x]: after the calls h in the context ctx, the call
    returns x. *)
From Coq Require Import QArith String.
From Verif Require Import ArgModel ArgSpec ArgProofs ArgTop ArgMore ArgEx SimpSpec StreamLemmas IntervalProofs2.
Open Scope Z_scope.

(** What a call of signature or log_signature asks for. *)
Theorem C76_arguments : forall (lie : Type) get_context get_type (s : pystream lie) pos kw i r c, NoDup (map fst kw) ->
  (parse_sig_args lie get_context get_type s pos kw = Ok (mkSA lie i r c) <->
   exists first sup res ctx depth dtype, arguments lie sig_names 3 pos kw [first; sup; res; ctx; depth; dtype] /\ asks lie first sup res i r /\ context_asked lie get_context s ctx depth dtype c).
Proof. exact parse_sig_spec. Qed.
Print Assumptions C76_arguments.
(** The answer, with a resolution: the product of the increments in the interval rounded to it, whatever
    was asked before. *)
Theorem C76_answer : forall (lie : Type) get_context get_type (tensor : Type) (is_zero : lie -> bool) (none : lie) (to_signature : actx lie -> lie -> tensor), is_zero none = true ->
  forall S ok (s : pystream lie) pos kw i r c first sup res ctx depth dtype, NoDup (map fst kw) ->
  arguments lie sig_names 3 pos kw [first; sup; res; ctx; depth; dtype] -> asks lie first sup res i (Some r) -> context_asked lie get_context s ctx depth dtype c ->
  sound is_zero S ok (pc_ctx lie c) -> stream_ok ok (py_s lie s) -> let j := match i with Some i => i | None => st_support (py_s lie s) end in
  fits_call (py_s lie s) (pc_ctx lie c) (QAt j r) -> r <= st_res (py_s lie s) ->
  exists x, ok x /\ sg_eq S (sg_of S x) (sg_prod S (within (grid_floor (from (py_s lie s) j) r) (grid_floor (upto (py_s lie s) j) r) (st_data (py_s lie s)))) /\
    forall h, Forall (fits_call (py_s lie s) (pc_ctx lie c)) h ->
      returns_log_signature lie get_context is_zero none get_type s (pc_ctx lie c) h pos kw x /\
      returns_signature lie get_context tensor is_zero none to_signature get_type s (pc_ctx lie c) h pos kw (to_signature (pc_ctx lie c) x).
Proof. exact query_answer. Qed.
Print Assumptions C76_answer.
(** Without one: at the resolution of the stream. *)
Theorem C76_default : forall (lie : Type) get_context get_type (tensor : Type) (is_zero : lie -> bool) (none : lie) (to_signature : actx lie -> lie -> tensor), is_zero none = true ->
  forall S ok (s : pystream lie) pos kw i c first sup res ctx depth dtype, NoDup (map fst kw) ->
  arguments lie sig_names 3 pos kw [first; sup; res; ctx; depth; dtype] -> asks lie first sup res i None -> context_asked lie get_context s ctx depth dtype c ->
  sound is_zero S ok (pc_ctx lie c) -> stream_ok ok (py_s lie s) -> let j := match i with Some i => i | None => st_support (py_s lie s) end in
  fits_call (py_s lie s) (pc_ctx lie c) (QDefault j) -> 2 <= st_res (py_s lie s) -> (Qpower 2 (2 - st_res (py_s lie s)) <= upto (py_s lie s) j - from (py_s lie s) j)%Q ->
  exists x, ok x /\ sg_eq S (sg_of S x) (sg_prod S (within (grid_floor (from (py_s lie s) j) (st_res (py_s lie s))) (grid_floor (upto (py_s lie s) j) (st_res (py_s lie s))) (st_data (py_s lie s)))) /\
    forall h, Forall (fits_call (py_s lie s) (pc_ctx lie c)) h ->
      returns_log_signature lie get_context is_zero none get_type s (pc_ctx lie c) h pos kw x /\
      returns_signature lie get_context tensor is_zero none to_signature get_type s (pc_ctx lie c) h pos kw (to_signature (pc_ctx lie c) x).
Proof. exact query_answer_default. Qed.
Print Assumptions C76_default.
(** Nothing else is answered; *)
Theorem C76_only : forall (lie : Type) get_context get_type (is_zero : lie -> bool) (none : lie) (s : pystream lie) pos kw fuel c x, NoDup (map fst kw) ->
  py_log_signature lie is_zero none get_context get_type fuel s c pos kw = Ok x ->
  exists i r k first sup res ctx depth dtype, arguments lie sig_names 3 pos kw [first; sup; res; ctx; depth; dtype] /\ asks lie first sup res i r /\ context_asked lie get_context s ctx depth dtype k /\
    ask is_zero none fuel (py_s lie s) (pc_ctx lie k) c (query_for lie (py_s lie s) i r) = Ok x.
Proof. exact query_refused. Qed.
Print Assumptions C76_only.
(** and reading the arguments can end the process only for a dyadic interval outside the 32-bit range, a
    negative depth, an unknown name of a scalar type, or a type without contexts. *)
Theorem C76_safe : forall (lie : Type) get_context get_type (s : pystream lie) pos kw, NoDup (map fst kw) -> parse_sig_args lie get_context get_type s pos kw = UB ->
  exists first sup res ctx depth dtype, arguments lie sig_names 3 pos kw [first; sup; res; ctx; depth; dtype] /\
    ((exists d, first = Some (ADyadic lie d) /\ forall i, ~ real_of d i) \/
     ctx = None /\ ((exists d, or_int lie depth 0 d /\ d < 0) \/ (exists n, dtype = Some (AStr lie n) /\ get_type n = None) \/ type_asked lie (py_type lie s) dtype TNoContext)).
Proof. exact parse_sig_ub. Qed.
Print Assumptions C76_safe.
(** log_signature(0.5, 1, resolution=2) and log_signature() of a stream with increments 1, 2 and 4. *)
Example C76_ex : NoDup (map fst q_kw) /\ arguments Q sig_names 3 q_pos q_kw [Some (AFloat Q (1#2)); Some (AInt Q 1); Some (AInt Q 2); None; None; None] /\
  asks Q (Some (AFloat Q (1#2))) (Some (AInt Q 1)) (Some (AInt Q 2)) (Some (mkRI (1#2) 1 Clopen)) (Some 2) /\ context_asked Q q_get q_py None None None q_pc /\
  sound q0 q_sigs (fun _ => True) q_ctx /\ stream_ok (fun _ => True) q_stream /\ fits_call q_stream q_ctx (QAt (mkRI (1#2) 1 Clopen) 2) /\ val (py_log_signature Q q0 0%Q q_get q_type 31 q_py [] q_pos q_kw) = Some 6%Q /\
  fits_call q_stream q_ctx (QDefault (mkRI 0 1 Clopen)) /\ val (py_log_signature Q q0 0%Q q_get q_type 31 q_py [] [] []) = Some 7%Q.
Proof. exact (conj (proj1 q_arguments) (conj (proj2 q_arguments) (conj q_asks (conj q_context (conj q_sound (conj q_stream_ok (conj q_fits (conj q_answer (conj q_fits_default q_answer_default))))))))). Qed.
(** A scalar type without a depth asks for a context of depth 0: naming the stream's own type loses the
    answer. *)
Theorem C76_dtype_refuted : (forall (lie : Type) get_context get_type (s : pystream lie) t, t <> TNoContext ->
    parse_sig_args lie get_context get_type s [] [("dtype"%string, AType lie t)] = Ok (mkSA lie None None (mkPC lie (get_context (cx_width (st_ctx (py_s lie s))) 0 t) t))) /\
  val (py_log_signature Q q0 0%Q q_get q_type 31 q_py [] [] [("dtype"%string, AType Q TDouble)]) = Some 0%Q /\
  val (py_log_signature Q q0 0%Q q_get q_type 31 q_py [] [] [("depth"%string, AInt Q 1); ("dtype"%string, AType Q TDouble)]) = Some 7%Q.
Proof. exact (conj dtype_alone q_dtype). Qed.
Print Assumptions C76_dtype_refuted.
(** Names of scalar types are never accepted: known ones are refused, others crash. *)
Theorem C76_name_refuted : forall (lie : Type) get_context get_type (is_zero : lie -> bool) (none : lie) (s : pystream lie) n fuel c,
  (get_type n <> None -> py_log_signature lie is_zero none get_context get_type fuel s c [] [("dtype"%string, AStr lie n)] = Throw) /\
  (get_type n = None -> py_log_signature lie is_zero none get_context get_type fuel s c [] [("dtype"%string, AStr lie n)] = UB).
Proof. exact dtype_name. Qed.
Print Assumptions C76_name_refuted.
(** After None the second argument is ignored; *)
Theorem C76_second_refuted : (forall (lie : Type) get_context get_type (is_zero : lie -> bool) (none : lie) (s : pystream lie) b fuel c,
    py_log_signature lie is_zero none get_context get_type fuel s c [ANone lie; b] [] = py_log_signature lie is_zero none get_context get_type fuel s c [] []) /\
  val (py_log_signature Q q0 0%Q q_get q_type 31 q_py [] [ANone Q; AFloat Q (1#4)] []) = Some 7%Q /\ val (py_log_signature Q q0 0%Q q_get q_type 31 q_py [] [AFloat Q 0; AFloat Q (1#4)] []) = Some 1%Q.
Proof. exact (conj none_first q_misread). Qed.
Print Assumptions C76_second_refuted.
(** one int alone is the resolution, even where another is given by name; *)
Theorem C76_resolution_refuted : forall (lie : Type) get_context get_type (is_zero : lie -> bool) (none : lie) (s : pystream lie) z r fuel c, (exists v, resolution lie r v) ->
  py_log_signature lie is_zero none get_context get_type fuel s c [AInt lie z] [("resolution"%string, r)] = py_log_signature lie is_zero none get_context get_type fuel s c [] [("resolution"%string, AInt lie z)].
Proof. exact lone_int. Qed.
Print Assumptions C76_resolution_refuted.
(** and resolutions are reduced modulo 2^32. *)
Theorem C76_wrap_refuted : forall (lie : Type) get_context get_type (is_zero : lie -> bool) (none : lie) (s : pystream lie) i z fuel c, - 2 ^ 63 <= z < 2 ^ 63 - 2 ^ 32 ->
  py_log_signature lie is_zero none get_context get_type fuel s c [AReal lie i; AInt lie (z + 2 ^ 32)] [] = py_log_signature lie is_zero none get_context get_type fuel s c [AReal lie i; AInt lie z] [].
Proof. exact wraps. Qed.
Print Assumptions C76_wrap_refuted.

(** What a call of signature_derivative asks for, *)
Theorem C77_derivative_arguments : forall (lie : Type) get_context (s : pystream lie) pos kw d r c, NoDup (map fst kw) ->
  (parse_deriv lie get_context s pos kw = Ok (mkDA lie d r c) <->
   exists first second res depth, arguments lie deriv_names 3 pos kw [first; second; res; depth] /\ derivative_asked lie get_context s first second res depth d r c).
Proof. exact parse_deriv_spec. Qed.
Print Assumptions C77_derivative_arguments.
(** and the answer: the context's derivative at the stream's own answers for the intervals, in the
    directions given with them, whatever was asked before. *)
Theorem C77_derivative : forall (lie : Type) get_context (tensor : Type) (is_zero : lie -> bool) (none : lie) (sig_derivative : actx lie -> list (lie * lie) -> outcome tensor), is_zero none = true ->
  forall S ok ctx, sound is_zero S ok ctx -> forall (s : pystream lie) pos kw d r c, parse_deriv lie get_context s pos kw = Ok (mkDA lie d r c) -> pc_ctx lie c = ctx ->
  stream_ok ok (py_s lie s) -> Forall (fun p => fits_call (py_s lie s) ctx (QAt (fst p) r)) d ->
  exists ys, Forall2 (fun p y => forall h, Forall (fits_call (py_s lie s) ctx) h -> replies is_zero none (py_s lie s) ctx h (QAt (fst p) r) y) d ys /\
    forall t, sig_derivative ctx (combine ys (map snd d)) = Ok t -> forall h, Forall (fits_call (py_s lie s) ctx) h -> returns_derivative lie get_context tensor is_zero none sig_derivative s ctx h pos kw t.
Proof. exact derivative_returns. Qed.
Print Assumptions C77_derivative.
(** simplify *)
Theorem C77_simplify_arguments : forall (lie : Type) get_context (s : pystream lie) pos kw p r c, NoDup (map fst kw) ->
  (parse_simplify lie get_context s pos kw = Ok (p, r, c) <->
   exists part res ctx depth, arguments lie simplify_names 4 pos kw [part; res; ctx; depth] /\ simplify_asked lie get_context s part res ctx depth p r c).
Proof. exact parse_simplify_spec. Qed.
Print Assumptions C77_simplify_arguments.
Theorem C77_simplify : forall (lie : Type) get_context (is_zero : lie -> bool) (none : lie) ctx (s : pystream lie) pos kw p r c,
  parse_simplify lie get_context s pos kw = Ok (p, r, c) -> pc_ctx lie c = ctx -> forall h w,
  simplifies is_zero none (py_s lie s) (py_effective lie s) ctx p r h w -> returns_simplified lie get_context is_zero none s ctx h pos kw w.
Proof. exact simplify_returns. Qed.
Print Assumptions C77_simplify.
(** restrict; objects that are no intervals end the process. *)
Theorem C77_restrict : forall (lie : Type) (s : pystream lie) pos kw, NoDup (map fst kw) ->
  (forall s', py_restrict lie s pos kw = Ok s' <-> exists a i, arguments lie ["interval"%string] 1 pos kw [Some a] /\ any_interval lie a i /\
     s' = mkPy lie (restrict (py_s lie s) i) (py_width lie s) (py_type lie s) (py_ctype lie s) (py_effective lie s)) /\
  (forall a, arguments lie ["interval"%string] 1 pos kw [Some a] -> (forall i, ~ any_interval lie a i) -> (forall d, a <> ADyadic lie d) -> py_restrict lie s pos kw = UB).
Proof. exact restrict_spec. Qed.
Print Assumptions C77_restrict.
(** Two directions as a list, partitions, and restrict(RealInterval(0.5, 1)). *)
Example C77_ex : arguments Q deriv_names 3 q_dpos [] [nth_error q_dpos 0; nth_error q_dpos 1; None; None] /\ derivative_asked Q q_get q_py (nth_error q_dpos 0) (nth_error q_dpos 1) None None q_dir 2 q_pc /\
  Forall (fun p => fits_call q_stream q_ctx (QAt (fst p) 2)) q_dir /\ val (py_signature_derivative Q Q q0 0%Q q_deriv q_get 31 q_py [] q_dpos []) = Some 13%Q /\
  simplify_asked Q q_get q_py (Some (APartition Q q_part)) (Some (AInt Q 2)) None None q_part 2 q_pc /\ val (py_simplify Q q0 0%Q q_get 31 q_py [] [APartition Q q_part; AInt Q 2] []) = Some q_simple /\
  py_restrict Q q_py [AReal Q (mkRI (1#2) 1 Clopen)] [] = Ok (mkPy Q (restrict q_stream (mkRI (1#2) 1 Clopen)) 1 TDouble TDouble (mkRI 0 1 Clopen)) /\ py_restrict Q q_py [AInt Q 1] [] = UB.
Proof. exact (conj (proj1 q_derivative) (conj (proj2 q_derivative) (conj q_dir_fits (conj q_derivative_is (conj (proj1 (proj2 q_simplify)) (conj (proj2 (proj2 q_simplify)) q_restrict)))))). Qed.
(** A tuple of two directions is refused, though a list of the same two is not. *)
Theorem C77_two_refuted : forall (lie : Type) get_context (s : pystream lie) i x j y,
  parse_deriv lie get_context s [ATuple lie [ATuple lie [AReal lie i; ALie lie x]; ATuple lie [AReal lie j; ALie lie y]]] [] = Throw /\
  parse_deriv lie get_context s [AList lie [ATuple lie [AReal lie i; ALie lie x]; ATuple lie [AReal lie j; ALie lie y]]] [] = Ok (mkDA lie [(i, x); (j, y)] (st_res (py_s lie s)) (mkPC lie (st_ctx (py_s lie s)) (py_ctype lie s))).
Proof. exact two_pairs. Qed.
Print Assumptions C77_two_refuted.
