(** Property theorems C38 and C50: piecewise abelian streams, tensor-valued streams. *)
From Coq Require Import QArith.
From Verif Require Import PwSpec TvsSpec DyadicProofs3 PwProofs TvsProofs StreamEx PwEx.
Open Scope Q_scope.

(** ** C38 *)
(** A query whose right end lies strictly inside no piece: the signature is the ordered
    product of the pieces it meets, each scaled by the fraction of it that is met. *)
Theorem C38_exact : forall (lie : Type) (is_zero : lie -> bool) S ok ctx smul, sound is_zero S ok ctx -> scaling S ok smul ->
  forall a b t (d : list (lie_piece lie)), in_order d -> Forall (fun p => ok (snd p)) d -> outside d b ->
  sg_eq S (sg_of S (pw_impl smul d ctx (mkRI a b t))) (covered_prod S smul (covered a b d)).
Proof. exact (fun lie is_zero S ok ctx smul SD SC => pw_exact is_zero S ok ctx smul SD SC). Qed.
Print Assumptions C38_exact.
Example C38_exact_ex : sound (fun x => Qeq_bool x 0) q_sigs (fun _ => True) q_ctx /\ scaling q_sigs (fun _ => True) Qmult /\
  in_order q_pieces /\ (outside q_pieces 5 /\ outside q_pieces (5#2) /\ outside q_pieces 1) /\
  covered (1#2) 5 q_pieces = [(1#2, 6); (1, 10); (2#2, 8)] /\ pw_impl Qmult q_pieces q_ctx (mkRI (1#2) 5 Clopen) == 21.
Proof. exact (conj q_sound (conj q_scaling (conj q_order (conj q_outside q_exact)))). Qed.
(** The same at a resolution, if no multiple of 2^-resolution lies strictly inside a piece. *)
Theorem C38_query : forall (lie : Type) (is_zero : lie -> bool) S ok ctx smul, sound is_zero S ok ctx -> scaling S ok smul ->
  forall inf sup t tol (d : list (lie_piece lie)) fuel, in_order d -> Forall (fun p => ok (snd p)) d ->
  inf <= sup -> (- 2 ^ 28 <= tol <= 2 ^ 28)%Z -> window inf tol -> window sup tol -> (31 <= fuel)%nat ->
  (forall k, outside d (dy k tol)) ->
  exists x, pw_query smul fuel d ctx (mkRI inf sup t) tol = Ok x /\
    sg_eq S (sg_of S x) (covered_prod S smul (covered (grid_floor inf tol) (grid_floor sup tol) d)).
Proof. exact (fun lie is_zero S ok ctx smul SD SC => pw_query_exact is_zero S ok ctx smul SD SC). Qed.
Print Assumptions C38_query.
Example C38_query_ex : in_order q_grid /\ (forall k, outside q_grid (dy k 1)) /\ exists x, pw_query Qmult 31 q_grid q_ctx (mkRI (1#3) (9#4) Clopen) 1 = Ok x /\ x == 24.
Proof. exact (conj q_grid_order (conj q_grid_outside q_grid_query)). Qed.
(** Chen's identity for split points and ends strictly inside no piece. *)
Theorem C38_chen : forall (lie : Type) (is_zero : lie -> bool) S ok ctx smul, sound is_zero S ok ctx -> scaling S ok smul ->
  forall a m b t1 t2 t3 (d : list (lie_piece lie)), in_order d -> Forall (fun p => ok (snd p)) d -> a <= m -> m <= b -> outside d m -> outside d b ->
  sg_eq S (sg_of S (pw_impl smul d ctx (mkRI a b t1)))
    (sg_mul S (sg_of S (pw_impl smul d ctx (mkRI a m t2))) (sg_of S (pw_impl smul d ctx (mkRI m b t3)))).
Proof. exact (fun lie is_zero S ok ctx smul SD SC => pw_chen is_zero S ok ctx smul SD SC). Qed.
Print Assumptions C38_chen.
(** A query whose right end lies strictly inside a piece always scales that piece by too
    large a factor: by the fraction right of the query's left end (even more than the whole
    piece, if the query starts before the piece) in place of the fraction met. *)
Theorem C38_right_end_refuted : forall (lie : Type) (is_zero : lie -> bool) S ok ctx smul, sound is_zero S ok ctx -> scaling S ok smul ->
  forall a b t (d1 : list (lie_piece lie)) pa pb tp x d2, let d := d1 ++ (mkRI pa pb tp, x) :: d2 in
  in_order d -> Forall (fun p => ok (snd p)) d -> a < b -> pa < b -> b < pb ->
  sg_eq S (sg_of S (pw_impl smul d ctx (mkRI a b t))) (covered_prod S smul (covered a b d1 ++ [((pb - a) / (pb - pa), x)])) /\
  covered a b d = covered a b d1 ++ [((b - later a pa) / (pb - pa), x)] /\
  (b - later a pa) / (pb - pa) < (pb - a) / (pb - pa).
Proof. exact (fun lie is_zero S ok ctx smul SD SC => pw_right_end is_zero S ok ctx smul SD SC). Qed.
Print Assumptions C38_right_end_refuted.
(** Chen's identity fails for every split point strictly inside a piece: the two parts
    together are given more of the piece than the whole query is. *)
Theorem C38_chen_refuted : forall (lie : Type) (is_zero : lie -> bool) S ok ctx smul, sound is_zero S ok ctx -> scaling S ok smul ->
  forall pa pb tp x a m b t1 t2 t3, pa < pb -> ok x -> a < m -> pa < m -> m < pb -> pb <= b ->
  exists c1 c2 c3,
    pw_impl smul [(mkRI pa pb tp, x)] ctx (mkRI a m t1) = cx_cbh ctx [smul c1 x] /\
    pw_impl smul [(mkRI pa pb tp, x)] ctx (mkRI m b t2) = cx_cbh ctx [smul c2 x] /\
    sg_eq S (sg_of S (pw_impl smul [(mkRI pa pb tp, x)] ctx (mkRI a b t3))) (sg_of S (cx_cbh ctx [smul c3 x])) /\ c3 < c1 + c2.
Proof. exact (fun lie is_zero S ok ctx smul SD SC => chen_inside is_zero S ok ctx smul SD SC). Qed.
Print Assumptions C38_chen_refuted.
Example C38_chen_refuted_ex : (0 <= (1#2)) /\ pw_impl Qmult [(mkRI 0 1 Clopen, 6)] q_ctx (mkRI 0 (1#2) Clopen) == 6 /\
  pw_impl Qmult [(mkRI 0 1 Clopen, 6)] q_ctx (mkRI (1#2) 1 Clopen) == 3 /\ pw_impl Qmult [(mkRI 0 1 Clopen, 6)] q_ctx (mkRI 0 1 Clopen) == 6.
Proof. exact q_split. Qed.
(** Pieces not given in order: the first piece starting at or after the right end of the
    query hides all pieces listed after it. *)
Theorem C38_order_refuted : forall (lie : Type) (is_zero : lie -> bool) S ok ctx smul, sound is_zero S ok ctx ->
  forall (p : lie_piece lie) d a b t, b <= ri_inf (fst p) -> sg_eq S (sg_of S (pw_impl smul (p :: d) ctx (mkRI a b t))) (sg_one S).
Proof. exact (fun lie is_zero S ok ctx smul SD => dropped is_zero S ok ctx smul SD). Qed.
Print Assumptions C38_order_refuted.
Example C38_order_refuted_ex : pw_impl Qmult [(mkRI 3 4 Clopen, 1); (mkRI 0 1 Clopen, 6)] q_ctx (mkRI 0 2 Clopen) == 0 /\ covered 0 2 [(mkRI 3 4 Clopen, 1); (mkRI 0 1 Clopen, 6)] = [(1, 6)].
Proof. exact q_unsorted. Qed.
(** A piece over an empty interval is counted by a query around it, but by neither half of
    that query split at the piece. *)
Theorem C38_empty_piece_refuted : forall (lie : Type) (is_zero : lie -> bool) S ok ctx smul, sound is_zero S ok ctx ->
  forall m tp x a b t1 t2, a < m -> m < b -> ok x ->
  sg_eq S (sg_of S (pw_impl smul [(mkRI m m tp, x)] ctx (mkRI a m t1))) (sg_one S) /\
  sg_eq S (sg_of S (pw_impl smul [(mkRI m m tp, x)] ctx (mkRI m b t2))) (sg_one S) /\
  sg_eq S (sg_of S (pw_impl smul [(mkRI m m tp, x)] ctx (mkRI a b t2))) (sg_of S x).
Proof. exact (fun lie is_zero S ok ctx smul SD => point_lost is_zero S ok ctx smul SD). Qed.
Print Assumptions C38_empty_piece_refuted.

(** ** C50 *)
(** value_at throws for the parameters outside the domain and, if the increment stream
    answers, for no others. *)
Theorem C50_domain : forall (G : Type) eqv mul signature lo hi, increments (G := G) eqv mul signature lo hi ->
  forall s t, lo <= ri_inf (tv_domain s) -> ri_inf (tv_domain s) <= ri_sup (tv_domain s) -> ri_sup (tv_domain s) <= hi ->
  (~ in_domain s t -> value_at mul signature s t = Throw) /\
  (in_domain s t -> exists v, value_at mul signature s t = Ok v /\ (t == ri_inf (tv_domain s) -> v = initial_value s)).
Proof. exact (fun G eqv mul signature lo hi I => value_domain eqv mul signature lo hi I). Qed.
Print Assumptions C50_domain.
(** Between two parameters of the domain, the value is multiplied by the signature. *)
Theorem C50_increment : forall (G : Type) eqv mul signature lo hi, increments (G := G) eqv mul signature lo hi ->
  forall s a b v w t g, lo <= ri_inf (tv_domain s) -> ri_sup (tv_domain s) <= hi -> ri_inf (tv_domain s) <= a -> a < b -> b <= ri_sup (tv_domain s) ->
  value_at mul signature s a = Ok v -> value_at mul signature s b = Ok w -> signature (mkRI a b t) = Ok g -> eqv w (mul v g).
Proof. exact (fun G eqv mul signature lo hi I => value_between eqv mul signature lo hi I). Qed.
Print Assumptions C50_increment.
Theorem C50_terminal : forall (G : Type) eqv mul signature lo hi, increments (G := G) eqv mul signature lo hi ->
  forall s, lo <= ri_inf (tv_domain s) -> ri_inf (tv_domain s) < ri_sup (tv_domain s) -> ri_sup (tv_domain s) <= hi ->
  exists v w, terminal_value mul signature s = Ok v /\ value_at mul signature s (ri_sup (tv_domain s)) = Ok w /\ eqv v w.
Proof. exact (fun G eqv mul signature lo hi I => terminal_is eqv mul signature lo hi I). Qed.
Print Assumptions C50_terminal.
(** One query that overlaps the domain. *)
Theorem C50_query : forall (G : Type) eqv mul signature lo hi, increments (G := G) eqv mul signature lo hi ->
  forall s q, lo <= ri_inf (tv_domain s) -> ri_sup (tv_domain s) <= hi -> ri_inf (tv_domain s) < ri_sup (tv_domain s) -> ri_inf q < ri_sup q ->
  ri_inf (tv_domain s) < ri_sup q -> ri_inf q < ri_sup (tv_domain s) ->
  exists s', tvs_query mul signature s q = Ok s' /\
    (forall t, in_domain s' t <-> in_domain s t /\ in_range q t) /\
    (forall t, in_domain s' t -> exists v w, value_at mul signature s' t = Ok v /\ value_at mul signature s t = Ok w /\ eqv v w).
Proof. exact (fun G eqv mul signature lo hi I => query_once eqv mul signature lo hi I). Qed.
Print Assumptions C50_query.
(** Clopen intervals: a query throws exactly if it does not overlap the domain. *)
Theorem C50_query_throws : forall (G : Type) eqv mul signature lo hi, increments (G := G) eqv mul signature lo hi ->
  forall s q, lo <= ri_inf (tv_domain s) -> ri_sup (tv_domain s) <= hi -> ri_t (tv_domain s) = Clopen -> ri_t q = Clopen ->
  ri_inf (tv_domain s) < ri_sup (tv_domain s) -> ri_inf q < ri_sup q ->
  tvs_query mul signature s q = Throw <-> ri_sup q <= ri_inf (tv_domain s) \/ ri_sup (tv_domain s) <= ri_inf q.
Proof. exact (fun G eqv mul signature lo hi I => query_throws eqv mul signature lo hi I). Qed.
Print Assumptions C50_query_throws.
(** Any sequence of nested queries: the values on the remaining domain are the original's. *)
Theorem C50_history : forall (G : Type) eqv mul signature lo hi, increments (G := G) eqv mul signature lo hi ->
  forall s qs s', lo <= ri_inf (tv_domain s) -> ri_sup (tv_domain s) <= hi -> ri_t (tv_domain s) = Clopen -> ri_inf (tv_domain s) < ri_sup (tv_domain s) ->
  Forall (fun q => ri_t q = Clopen /\ ri_inf q < ri_sup q) qs -> queries mul signature s qs = Ok s' ->
  (forall t, in_domain s' t <-> in_domain s t /\ Forall (fun q => in_range q t) qs) /\
  (forall t, in_domain s' t -> exists v w, value_at mul signature s' t = Ok v /\ value_at mul signature s t = Ok w /\ eqv v w) /\
  (exists v w, terminal_value mul signature s' = Ok v /\ value_at mul signature s (ri_sup (tv_domain s')) = Ok w /\ eqv v w).
Proof. exact (fun G eqv mul signature lo hi I => query_history eqv mul signature lo hi I). Qed.
Print Assumptions C50_history.
(** Caching Lie increment streams, after any history of calls, are such increments. *)
Theorem C50_caching_streams : forall (lie : Type) (is_zero : lie -> bool) (none : lie), is_zero none = true ->
  forall S ok ctx, sound is_zero S ok ctx -> forall s, stream_ok ok s ->
  forall lo hi h, fits_query lo hi (st_res s) (st_res s) -> cx_width ctx = cx_width (st_ctx s) -> Forall (fits_call s ctx) h ->
  increments (sg_eq S) (sg_mul S) (signature_after is_zero none S s ctx h) lo hi.
Proof. exact (fun lie is_zero none Hn S ok ctx HS s Hs => stream_increments is_zero none Hn S ok ctx HS s Hs). Qed.
Print Assumptions C50_caching_streams.
Example C50_ex : increments eq Z.add (signature_after (Z.eqb 0) 0%Z add_sigs add_stream add_ctx [QAt (mkRI (1#10) (9#10) Clopen) 2]) 0 1 /\ inside 0 1 tvs_ex /\
  value_at Z.add (signature_after (Z.eqb 0) 0%Z add_sigs add_stream add_ctx []) tvs_ex (3#4) = Ok 107%Z /\
  exists s', queries Z.add (signature_after (Z.eqb 0) 0%Z add_sigs add_stream add_ctx []) tvs_ex [mkRI (1#4) 3 Clopen; mkRI 0 (7#8) Clopen] = Ok s' /\
    tv_initial s' = 103%Z /\ value_at Z.add (signature_after (Z.eqb 0) 0%Z add_sigs add_stream add_ctx []) s' (3#4) = Ok 107%Z.
Proof. exact tvs_ex_ok. Qed.
(** A domain (a, b] and a query [b, c) touch, so the query is accepted, but its domain is
    [0, 1) whatever a, b and c are. *)
Theorem C50_touching_refuted : forall (G : Type) (mul : G -> G -> G) signature s q, ri_t (tv_domain s) = Opencl -> ri_t q = Clopen -> ri_inf q == ri_sup (tv_domain s) ->
  forall s', tvs_query mul signature s q = Ok s' -> tv_domain s' = mkRI 0 1 Clopen.
Proof. exact (fun G mul signature => touching_domain mul signature). Qed.
Print Assumptions C50_touching_refuted.
Example C50_touching_ex : exists s', tvs_query Z.add (fun _ => Ok 1%Z) (mkTvs (mkRI (-1) (1#2) Opencl) 5%Z) (mkRI (1#2) 4 Clopen) = Ok s' /\ tv_domain s' = mkRI 0 1 Clopen.
Proof. exact tvs_touch_ex. Qed.
