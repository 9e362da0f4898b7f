(** Property theorem C75: simplified streams.  [replies … h q x]: after the calls h the call q
    returns x; [simplifies … h w]: after the calls h, simplifying gives w and leaves the
    stream's answers as they were; [within a b d] are the increments with parameter in [a, b). *)
From Coq Require Import QArith.
From Verif Require Import SimpSpec SimpProofs SimpTop SimpEx IntervalProofs2.
Open Scope Z_scope.

(** Each piece carries what the stream answers for it. *)
Theorem C75_pieces : forall (lie : Type) (is_zero : lie -> bool) (none : lie), is_zero none = true -> forall S ok ctx, sound is_zero S ok ctx ->
  forall s, stream_ok ok s -> forall p r, made p -> (forall i iv, piece p i = Ok iv -> fits_call s ctx (QAt iv r)) -> forall effective,
  exists w, pws_res w = r /\ pws_ctx w = ctx /\ pws_support w = effective /\ length (pws_data w) = p_size p /\
    (forall i, (i < p_size p)%nat -> exists iv x, nth_error (pws_data w) i = Some (iv, x) /\ piece p i = Ok iv /\ ok x /\
      forall h, Forall (fits_call s ctx) h -> replies is_zero none s ctx h (QAt iv r) x) /\
    forall h, Forall (fits_call s ctx) h -> simplifies is_zero none s effective ctx p r h w.
Proof. exact (fun lie is_zero none Hn S ok ctx HS s Hs p r Hm Hf => simplify_spec is_zero none Hn S ok ctx HS s Hs p r Hm Hf). Qed.
Print Assumptions C75_pieces.
(** If the pieces are dyadic intervals no finer than the resolution and the cells of the stream:
    queries whose rounded ends lie strictly inside no piece give all increments between. *)
Theorem C75_query : forall (lie : Type) (is_zero : lie -> bool) (none : lie), is_zero none = true -> forall S ok ctx smul, sound is_zero S ok ctx -> scaling S ok smul ->
  forall s, stream_ok ok s -> forall p r, made p -> (forall i iv, piece p i = Ok iv -> fits_call s ctx (QAt iv r)) -> dyadic_pieces p (Z.min r (st_res s)) ->
  (ri_inf (st_support s) <= p_inf p)%Q -> (p_sup p <= ri_sup (st_support s))%Q ->
  forall effective h w i tol fuel, (ri_inf effective <= ri_sup effective)%Q -> Forall (fits_call s ctx) h -> simplifies is_zero none s effective ctx p r h w -> fits_at w i tol -> (31 <= fuel)%nat ->
  let lo := grid_floor (from (pws_view w) i) tol in let hi := grid_floor (upto (pws_view w) i) tol in between_pieces p lo -> between_pieces p hi ->
  exists x, pws_at is_zero smul fuel w i tol ctx = Ok x /\ sg_eq S (sg_of S x) (sg_prod S (within (later lo (p_inf p)) (earlier hi (p_sup p)) (st_data s))).
Proof. exact (fun lie is_zero none Hn S ok ctx smul HS SC s Hs p r Hm Hf Hd H1 H2 => SimpTop.at_same is_zero none Hn S ok ctx smul HS SC s Hs p r Hm Hf Hd H1 H2). Qed.
Print Assumptions C75_query.
(** The same without naming a resolution, *)
Theorem C75_default : forall (lie : Type) (is_zero : lie -> bool) (none : lie), is_zero none = true -> forall S ok ctx smul, sound is_zero S ok ctx -> scaling S ok smul ->
  forall s, stream_ok ok s -> forall p r, made p -> (forall i iv, piece p i = Ok iv -> fits_call s ctx (QAt iv r)) -> dyadic_pieces p (Z.min r (st_res s)) ->
  (ri_inf (st_support s) <= p_inf p)%Q -> (p_sup p <= ri_sup (st_support s))%Q ->
  forall effective h w i fuel, (ri_inf effective <= ri_sup effective)%Q -> Forall (fits_call s ctx) h -> simplifies is_zero none s effective ctx p r h w -> (ri_inf i <= ri_sup i)%Q -> (31 <= fuel)%nat ->
  (forall tol, default_resolution (pws_view w) i tol -> fits_at w i tol /\ (grid_floor (from (pws_view w) i) tol == from (pws_view w) i)%Q /\ (grid_floor (upto (pws_view w) i) tol == upto (pws_view w) i)%Q) ->
  between_pieces p (from (pws_view w) i) -> between_pieces p (upto (pws_view w) i) ->
  exists x, pws_default is_zero smul fuel w i ctx = Ok x /\ sg_eq S (sg_of S x) (sg_prod S (within (later (from (pws_view w) i) (p_inf p)) (earlier (upto (pws_view w) i) (p_sup p)) (st_data s))).
Proof. exact (fun lie is_zero none Hn S ok ctx smul HS SC s Hs p r Hm Hf Hd H1 H2 => SimpTop.default_same is_zero none Hn S ok ctx smul HS SC s Hs p r Hm Hf Hd H1 H2). Qed.
Print Assumptions C75_default.
(** and as a comparison: between points of the partition both streams answer alike, whatever was
    asked before. *)
Theorem C75_same : forall (lie : Type) (is_zero : lie -> bool) (none : lie), is_zero none = true -> forall S ok ctx smul, sound is_zero S ok ctx -> scaling S ok smul ->
  forall s, stream_ok ok s -> forall p r, made p -> (forall i iv, piece p i = Ok iv -> fits_call s ctx (QAt iv r)) -> dyadic_pieces p (Z.min r (st_res s)) ->
  (ri_inf (st_support s) <= p_inf p)%Q -> (p_sup p <= ri_sup (st_support s))%Q ->
  forall effective h h2 w i tol fuel y, (ri_inf effective <= ri_sup effective)%Q -> Forall (fits_call s ctx) h -> Forall (fits_call s ctx) h2 -> simplifies is_zero none s effective ctx p r h w -> fits_at w i tol -> (31 <= fuel)%nat ->
  fits_call s ctx (QAt i tol) -> tol <= st_res s -> (p_inf p <= ri_inf i)%Q -> (ri_sup i <= p_sup p)%Q -> (ri_inf effective <= p_inf p)%Q -> (p_sup p <= ri_sup effective)%Q ->
  (grid_floor (ri_inf i) tol == ri_inf i)%Q -> (grid_floor (ri_sup i) tol == ri_sup i)%Q -> between_pieces p (ri_inf i) -> between_pieces p (ri_sup i) ->
  replies is_zero none s ctx h2 (QAt i tol) y ->
  exists x, pws_at is_zero smul fuel w i tol ctx = Ok x /\ sg_eq S (sg_of S x) (sg_of S y).
Proof. exact (fun lie is_zero none Hn S ok ctx smul HS SC s Hs p r Hm Hf Hd H1 H2 => SimpTop.same_answer is_zero none Hn S ok ctx smul HS SC s Hs p r Hm Hf Hd H1 H2). Qed.
Print Assumptions C75_same.
(** The hypotheses met: pieces [0, 1/2), [1/2, 3/4), [3/4, 1). *)
Example C75_ex : sound q0 q_sigs (fun _ => True) q_ctx /\ scaling q_sigs (fun _ => True) Qmult /\ stream_ok (fun _ => True) q_stream /\ made q_part /\
  (forall i iv, piece q_part i = Ok iv -> fits_call q_stream q_ctx (QAt iv 2)) /\ dyadic_pieces q_part (Z.min 2 (st_res q_stream)) /\
  (forall x, In x [0; 1#2; 3#4; 1]%Q -> between_pieces q_part x) /\ val (simplify q0 0%Q 31 q_stream (mkRI 0 1 Clopen) [] q_part 2 q_ctx) = Some q_simple /\
  fits_at q_simple (mkRI (1#2) 1 Clopen) 2 /\ pws_at q0 Qmult 31 q_simple (mkRI (1#2) 1 Clopen) 2 q_ctx = Ok 6%Q /\ val (ask q0 0%Q 31 q_stream q_ctx [] (QAt (mkRI (1#2) 1 Clopen) 2)) = Some 6%Q.
Proof. refine (conj q_sound (conj q_scaling (conj q_stream_ok (conj _ (conj q_part_fits (conj q_part_dyadic (conj q_part_between (conj q_simple_is q_simple_asked)))))))). constructor. discriminate. Qed.
(** Every piece that is not a dyadic interval is counted more than once by the query of just
    this piece: first the whole of it, then further fractions. *)
Theorem C75_piece_refuted : forall (lie : Type) (is_zero : lie -> bool) S ok ctx smul, sound is_zero S ok ctx -> scaling S ok smul -> forall d1 d2 pa pb tp (x : lie),
  let d := d1 ++ (mkRI pa pb tp, x) :: d2 in in_order d -> Forall (fun e => ok (snd e)) d -> forall tol w t fuel,
  (pa < pb)%Q -> (grid_floor pa tol == pa)%Q -> (grid_floor pb tol == pb)%Q -> (forall k n, ~ (pa == dy k n /\ pb == dy (k + 1) n)%Q) ->
  - 2 ^ 28 <= tol <= 2 ^ 28 -> window pa tol -> window pb tol -> (31 <= fuel)%nat -> pws_data w = d ->
  exists y f0 fs, pws_impl is_zero smul fuel w (mkRI pa pb t) tol ctx = Ok y /\ sg_eq S (sg_of S y) (covered_prod S smul (map (fun f => (f, x)) (f0 :: fs))) /\
    (f0 == 1)%Q /\ fs <> [] /\ Forall (fun f => (0 < f)%Q) fs.
Proof. exact (fun lie is_zero S ok ctx smul SD SC d1 d2 pa pb tp x HO HK => over_counted is_zero S ok ctx smul SD SC d1 d2 pa pb tp x HO HK). Qed.
Print Assumptions C75_piece_refuted.
Example C75_piece_refuted_ex : exists w, val (simplify q0 0%Q 31 q_stream (mkRI 0 1 Clopen) [] q_coarse 2 q_ctx) = Some w /\
  (exists x, pws_at q0 Qmult 31 w (mkRI 0 (3#4) Clopen) 2 q_ctx = Ok x /\ (x == 4)%Q) /\ val (ask q0 0%Q 31 q_stream q_ctx [] (QAt (mkRI 0 (3#4) Clopen) 2)) = Some 3%Q.
Proof. exact q_coarse_over. Qed.
(** Simplifying with a context of lower depth changes what the stream itself answers afterwards. *)
Theorem C75_depth_refuted : exists w c before after, simplify heis_is_zero (0, 0, 0) 31 h_stream (mkRI 0 1 Clopen) [] (mkP (mkRI 0 1 Clopen) []) 2 heis1 = Ok (w, c) /\
  val (ask heis_is_zero (0, 0, 0) 31 h_stream heis2 [] (QAt (mkRI 0 1 Clopen) 2)) = Some before /\
  val (ask heis_is_zero (0, 0, 0) 31 h_stream heis2 c (QAt (mkRI 0 1 Clopen) 2)) = Some after /\ before <> after.
Proof. exact h_spoiled. Qed.
Print Assumptions C75_depth_refuted.
