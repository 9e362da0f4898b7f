(** Property theorems C63: dynamically constructed streams (function streams, Brownian
    streams).
    Such a stream keeps a tree of dyadic intervals; the answer to a query may extend the
    tree, so the theorems speak of sequences of queries to one stream.
    [dyn_answers ... g0 support ctx qs xs]: a new stream with this support, whose source of
    increments starts in state g0, answers the queries qs, asked one after the other, with
    xs.  [cut_from], [cut_upto] are the ends of a query cut down to the support;
    [grid_floor x n] is x rounded down to a multiple of 2^-n; [meets support i]: the query
    meets the support in more than a point. *)
From Coq Require Import QArith.
From Verif Require Import Outcome Alg Words Mem Series Shuffle TensorModel TensorTop TensorTop3 TensorLemmas HallModel HallSpec LieSpec HallLemmas BracketModel BracketLemmas SmhModel SmhLemmas L2tModel L2tLemmas.
From Verif Require Import StreamEx TickEx DynEx.
Open Scope Z_scope.

(** Queries on one side of 0, of any number and in any order, are all answered, whatever
    the source of increments: no failed check, no missing node, no endless loop. *)
Theorem C63_total : forall (lie st : Type) (is_zero : lie -> bool) (cbh2 : lie -> lie -> lie) (R : rule lie st) (ctx : actx lie) (support : ri), (ri_inf support <= ri_sup support)%Q ->
  forall (res : Z) (g0 : st) (qs : list (ri * Z)), fits_history support res qs -> one_sided support qs -> exists xs, dyn_answers is_zero cbh2 R g0 support ctx qs xs.
Proof. exact dyn_total. Qed.
Print Assumptions C63_total.
(** If every increment the source gives is right for one path, every answer is: it has the
    signature of the path between the rounded ends of the query, whatever was asked before. *)
Theorem C63_exact : forall (lie st : Type) (is_zero : lie -> bool) (cbh2 : lie -> lie -> lie) (R : rule lie st) (S : sigs lie) (ok : lie -> Prop) (ctx : actx lie),
  sound is_zero S ok ctx -> pair_sound cbh2 S ok -> forall support, (ri_inf support <= ri_sup support)%Q ->
  forall (res : Z) (g0 : st) (G : Q -> Q -> sg_t S), path S G -> source_of S ok G R -> forall qs, fits_history support res qs -> one_sided support qs ->
  exists xs, dyn_answers is_zero cbh2 R g0 support ctx qs xs /\
    Forall2 (fun q x => ok x /\
      (meets support (fst q) -> sg_eq S (sg_of S x) (G (grid_floor (cut_from support (fst q)) (snd q)) (grid_floor (cut_upto support (fst q)) (snd q)))) /\
      (~ meets support (fst q) -> sg_eq S (sg_of S x) (sg_one S))) qs xs.
Proof. exact dyn_exact. Qed.
Print Assumptions C63_exact.
(** Function streams: the function gives the log signature of a path. *)
Theorem C63_function : forall (lie : Type) (is_zero : lie -> bool) (cbh2 : lie -> lie -> lie) (S : sigs lie) (ok : lie -> Prop) (ctx : actx lie),
  sound is_zero S ok ctx -> pair_sound cbh2 S ok -> forall support, (ri_inf support <= ri_sup support)%Q ->
  forall (res : Z) (F : Q -> Q -> lie) (G : Q -> Q -> sg_t S), path S G -> (forall a b, (a <= b)%Q -> ok (F a b) /\ sg_eq S (sg_of S (F a b)) (G a b)) ->
  forall qs, fits_history support res qs -> one_sided support qs ->
  exists xs, dyn_answers is_zero cbh2 (function_rule F) tt support ctx qs xs /\
    Forall2 (fun q x => ok x /\
      (meets support (fst q) -> sg_eq S (sg_of S x) (G (grid_floor (cut_from support (fst q)) (snd q)) (grid_floor (cut_upto support (fst q)) (snd q)))) /\
      (~ meets support (fst q) -> sg_eq S (sg_of S x) (sg_one S))) qs xs.
Proof. exact dyn_function. Qed.
Print Assumptions C63_function.
Example C63_function_ex : sound heis_is_zero heis_sigs (fun _ => True) heis2 /\ pair_sound (fun a b => cx_cbh heis2 [a; b]) heis_sigs (fun _ => True) /\ path heis_sigs heis_path /\
  source_of heis_sigs (fun _ => True) heis_path (function_rule heis_path) /\
  let wide := mkRI (-8) 8 Clopen in let qs := [(mkRI 0 1 Clopen, 2); (mkRI (3#8) (5#4) Clopen, 2); (mkRI 0 2 Clopen, 0)] in fits_history wide 2 qs /\ one_sided wide qs /\
  dyn_answers heis_is_zero (fun a b => cx_cbh heis2 [a; b]) (function_rule heis_path) tt wide heis2 qs [heis_path 0 1; heis_path (1#4) (5#4); heis_path 0 2] /\ heis_path (1#4) (5#4) = (4, 4, -1).
Proof. exact ex_exact. Qed.
(** The same over the modelled compute functions: the tensor exp(log_signature). *)
Theorem C63_signature : forall (R : qalg) (isz : R -> bool), (forall x, isz x = true <-> x = r0) -> (r1 : R) <> r0 ->
  forall inv : Z -> R, (forall d, 1 <= d -> rmul (zr R d) (inv d) = r1) ->
  forall B w N M, standard B w N -> l2t_fits w N -> lb_size B = Ok M -> small_brackets B w ->
  exists F0, forall fuel jd ji jp, (F0 <= fuel)%nat -> let ctx := dense_ctx isz fuel inv jd ji jp B w N M in let cbh2 := fun a b => cx_cbh ctx [a; b] in let D := Z.to_nat N in
  forall (F : Q -> Q -> buf R) (G : Q -> Q -> tens (qr R) Z),
  (forall a b, (a <= b)%Q -> exists g, blen (F a b) = M /\ to_signature isz jd ji jp B (tensor_basis w N) (F a b) = Ok g /\ agree D (tv w D g) (G a b)) ->
  (forall a a' b b', (a == a')%Q -> (b == b')%Q -> agree D (G a b) (G a' b')) -> (forall a, agree D (G a a) tone) -> (forall a b c, (a <= b)%Q -> (b <= c)%Q -> agree D (conv (G a b) (G b c)) (G a c)) ->
  forall support res qs, (ri_inf support <= ri_sup support)%Q -> fits_history support res qs -> one_sided support qs ->
  exists xs, dyn_answers (dense_is_zero isz M) cbh2 (function_rule F) tt support ctx qs xs /\
    Forall2 (fun q x => meets support (fst q) -> exists g, blen x = M /\ to_signature isz jd ji jp B (tensor_basis w N) x = Ok g /\
      agree D (tv w D g) (G (grid_floor (cut_from support (fst q)) (snd q)) (grid_floor (cut_upto support (fst q)) (snd q)))) qs xs.
Proof. exact dyn_signature. Qed.
Print Assumptions C63_signature.
(** A path that meets the hypotheses: it jumps at 1/2 by any Lie element. *)
Example C63_signature_ex : forall (R : qalg) (isz : R -> bool), (forall x, isz x = true <-> x = r0) -> (r1 : R) <> r0 ->
  forall inv : Z -> R, (forall d, 1 <= d -> rmul (zr R d) (inv d) = r1) ->
  forall B w N M, standard B w N -> l2t_fits w N -> lb_size B = Ok M -> small_brackets B w -> let D := Z.to_nat N in
  forall jd ji jp (v : buf R), blen v = M -> exists g, to_signature isz jd ji jp B (tensor_basis w N) v = Ok g /\
  let F a b := if jumps a b then v else zeros M in let G a b := if jumps a b then tv w D g else tone in
  (forall a b, (a <= b)%Q -> exists g, blen (F a b) = M /\ to_signature isz jd ji jp B (tensor_basis w N) (F a b) = Ok g /\ agree D (tv w D g) (G a b)) /\
  (forall a a' b b', (a == a')%Q -> (b == b')%Q -> agree D (G a b) (G a' b')) /\ (forall a, agree D (G a a) tone) /\ (forall a b c, (a <= b)%Q -> (b <= c)%Q -> agree D (conv (G a b) (G b c)) (G a c)).
Proof. exact jump_path. Qed.

(** Sources that split an increment into two, whose product it is, when more detail is
    asked for.  The first query is a dyadic interval and the others lie in it.  Then there
    is one path behind all the answers: signatures [w j] of the cells of length 2^-res such
    that the answer to each query has the product of those in it. *)
Theorem C63_one_path : forall (lie st : Type) (is_zero : lie -> bool) (cbh2 : lie -> lie -> lie) (R : rule lie st) (S : sigs lie) (ok : lie -> Prop) (ctx : actx lie),
  sound is_zero S ok ctx -> pair_sound cbh2 S ok -> forall support, (ri_inf support <= ri_sup support)%Q ->
  forall (res : Z) (g0 : st), DynSpec.splits S ok R -> forall k n qs, fits_history support res qs -> first_whole support k n qs ->
  exists (xs : list lie) (w : Z -> sg_t S), dyn_answers is_zero cbh2 R g0 support ctx qs xs /\
    Forall2 (fun q x => ok x /\ sg_eq S (sg_of S x) (product_over S w (cell_at res (grid_floor (cut_from support (fst q)) (snd q))) (cell_at res (grid_floor (cut_upto support (fst q)) (snd q))))) qs xs.
Proof. exact dyn_one_path. Qed.
Print Assumptions C63_one_path.
(** Chen's identity for three of the queries, at any places in the sequence. *)
Theorem C63_chen : forall (lie st : Type) (is_zero : lie -> bool) (cbh2 : lie -> lie -> lie) (R : rule lie st) (S : sigs lie) (ok : lie -> Prop) (ctx : actx lie),
  sound is_zero S ok ctx -> pair_sound cbh2 S ok -> forall support, (ri_inf support <= ri_sup support)%Q ->
  forall (res : Z) (g0 : st), DynSpec.splits S ok R -> forall k n qs xs, fits_history support res qs -> first_whole support k n qs -> dyn_answers is_zero cbh2 R g0 support ctx qs xs ->
  forall a b c t1 t2 t3 r x y z, (a <= b)%Q -> (b <= c)%Q ->
  In ((mkRI a b t1, r), x) (combine qs xs) -> In ((mkRI b c t2, r), y) (combine qs xs) -> In ((mkRI a c t3, r), z) (combine qs xs) ->
  sg_eq S (sg_of S z) (sg_mul S (sg_of S x) (sg_of S y)).
Proof. exact dyn_chen. Qed.
Print Assumptions C63_chen.
(** A query asked again gets an answer with the same signature. *)
Theorem C63_repeat : forall (lie st : Type) (is_zero : lie -> bool) (cbh2 : lie -> lie -> lie) (R : rule lie st) (S : sigs lie) (ok : lie -> Prop) (ctx : actx lie),
  sound is_zero S ok ctx -> pair_sound cbh2 S ok -> forall support, (ri_inf support <= ri_sup support)%Q ->
  forall (res : Z) (g0 : st), DynSpec.splits S ok R -> forall k n qs xs, fits_history support res qs -> first_whole support k n qs -> dyn_answers is_zero cbh2 R g0 support ctx qs xs ->
  forall q x y, In (q, x) (combine qs xs) -> In (q, y) (combine qs xs) -> sg_eq S (sg_of S x) (sg_of S y).
Proof. exact dyn_repeat. Qed.
Print Assumptions C63_repeat.
(** Brownian streams at depth 1 are such sources, whatever the random numbers. *)
Theorem C63_brownian : forall (lie st : Type) (is_zero : lie -> bool) (cbh2 : lie -> lie -> lie) (S : sigs lie) (ok : lie -> Prop) (ctx : actx lie),
  sound is_zero S ok ctx -> pair_sound cbh2 S ok -> forall support, (ri_inf support <= ri_sup support)%Q ->
  forall (res : Z) (g0 : st) (half : lie -> lie) (add sub : lie -> lie -> lie) (gauss : st -> Q -> lie * st), DynSpec.linear S ok half add sub -> (forall g s, ok (fst (gauss g s))) ->
  forall k n qs, fits_history support res qs -> first_whole support k n qs ->
  exists (xs : list lie) (w : Z -> sg_t S), dyn_answers is_zero cbh2 (brownian_rule half add sub gauss) g0 support ctx qs xs /\
    Forall2 (fun q x => ok x /\ sg_eq S (sg_of S x) (product_over S w (cell_at res (grid_floor (cut_from support (fst q)) (snd q))) (cell_at res (grid_floor (cut_upto support (fst q)) (snd q))))) qs xs.
Proof. exact dyn_brownian. Qed.
Print Assumptions C63_brownian.
Example C63_brownian_ex : sound q_zero q_sigs (fun _ => True) q_ctx /\ pair_sound (fun a b => cx_cbh q_ctx [a; b]) q_sigs (fun _ => True) /\ DynSpec.linear q_sigs (fun _ => True) q_half Qplus Qminus /\
  let wide := mkRI (-8) 8 Clopen in let qs := [(mkRI 0 1 Clopen, 1); (mkRI (1#4) (3#4) Clopen, 2); (mkRI (1#4) (1#2) Clopen, 2); (mkRI (1#2) (3#4) Clopen, 2); (mkRI 0 1 Clopen, 1)] in
  fits_history wide 2 qs /\ first_whole wide 0 0 qs /\
  exists xs, dyn_answers q_zero (fun a b => cx_cbh q_ctx [a; b]) (brownian_rule q_half Qplus Qminus q_gauss) 3 wide q_ctx qs xs /\ map Qred xs = [3; (5#2); (-9#4); (19#4); 3]%Q.
Proof. exact ex_brownian. Qed.
(** The first query, if it is one interval of its own grid, is answered by the increment the
    source gives for that interval. *)
Theorem C63_first : forall (lie st : Type) (is_zero : lie -> bool) (cbh2 : lie -> lie -> lie) (R : rule lie st) (ctx : actx lie) (support : ri) (g0 : st), (ri_inf support <= ri_sup support)%Q ->
  forall i k n, (ri_inf i <= ri_sup i)%Q -> (cut_from support i == dy k n)%Q -> (cut_upto support i == dy (k + 1) n)%Q -> fits_query (cut_from support i) (cut_upto support i) n n ->
  let x := fst (ru_root R g0 (mkDI k n Clopen)) in dyn_answers is_zero cbh2 R g0 support ctx [(i, n)] [cx_cbh ctx (if is_zero x then [] else [x])].
Proof. exact dyn_first. Qed.
Print Assumptions C63_first.
Example C63_first_ex : let wide := mkRI (-8) 8 Clopen in let i := mkRI (1#2) 1 Clopen in (cut_from wide i == dy 1 1)%Q /\ (cut_upto wide i == dy 2 1)%Q /\ fits_query (cut_from wide i) (cut_upto wide i) 1 1 /\
  dyn_answers heis_is_zero (fun a b => cx_cbh heis2 [a; b]) (function_rule heis_path) tt wide heis2 [(i, 1)] [heis_path (1#2) 1] /\ heis_path (1#2) 1 = (2, 3, -2).
Proof. exact ex_first. Qed.
(** Saving the tree after any queries and loading it gives the same tree. *)
Theorem C63_saved : forall (lie st : Type) (is_zero : lie -> bool) (cbh2 : lie -> lie -> lie) (R : rule lie st) (ctx : actx lie) (support : ri), (ri_inf support <= ri_sup support)%Q ->
  forall (res : Z) (g0 : st) (qs : list (ri * Z)), fits_history support res qs -> one_sided support qs ->
  forall fuel xs t g, dyn_all is_zero cbh2 R fuel g0 [] support ctx qs = Ok (xs, t, g) -> exists l, dn_store t = Ok l /\ dn_load l = Ok t.
Proof. exact dyn_saved. Qed.
Print Assumptions C63_saved.
Example C63_saved_ex : exists t l, dyn_all heis_is_zero (fun a b => cx_cbh heis2 [a; b]) (function_rule heis_path) 60 tt [] (mkRI (-8) 8 Clopen) heis2 [(mkRI 0 (1#2) Clopen, 2); (mkRI 0 2 Clopen, 0)] = Ok ([heis_path 0 (1#2); heis_path 0 2], t, tt) /\
  List.length t = 7%nat /\ dn_store t = Ok l /\ dn_load l = Ok t.
Proof. exact ex_saved. Qed.

(** Queries on both sides of 0: the second never gets an answer. *)
Theorem C63_two_sides_refuted : forall (lie st : Type) (is_zero : lie -> bool) (cbh2 : lie -> lie -> lie) (R : rule lie st) (ctx : actx lie) (support : ri), (ri_inf support <= ri_sup support)%Q ->
  forall (res : Z) (g0 : st) (qs : list (ri * Z)) (q : ri * Z), fits_history support res (qs ++ [q]) -> (exists p, In p qs /\ not_empty support p) -> not_empty support q -> other_side support qs q ->
  forall fuel r, dyn_all is_zero cbh2 R fuel g0 [] support ctx (qs ++ [q]) <> Ok r.
Proof. exact dyn_two_sides. Qed.
Print Assumptions C63_two_sides_refuted.
Example C63_two_sides_ex : let wide := mkRI (-8) 8 Clopen in let qs := [(mkRI 0 1 Clopen, 0)] in let q := (mkRI (-1) (1#2) Clopen, 1) in
  fits_history wide 1 (qs ++ [q]) /\ (exists p, In p qs /\ not_empty wide p) /\ not_empty wide q /\ other_side wide qs q /\
  dyn_all heis_is_zero (fun a b => cx_cbh heis2 [a; b]) (function_rule curve) 100 tt [] wide heis2 (qs ++ [q]) = UB.
Proof. exact ex_sides. Qed.
(** A function of values, at depth 2 (the curve t -> (8t, 64t^2)): the same query gets
    another answer once more detail has been asked for... *)
Theorem C63_repeat_refuted : let wide := mkRI (-8) 8 Clopen in let qs := [(mkRI 0 1 Clopen, 0); (mkRI 0 (1#2) Clopen, 1); (mkRI 0 1 Clopen, 0)] in fits_history wide 1 qs /\ one_sided wide qs /\
  dyn_answers heis_is_zero (fun a b => cx_cbh heis2 [a; b]) (function_rule curve) tt wide heis2 qs [(8, 64, 0); (4, 16, 0); (8, 64, 128)].
Proof. exact repeat_changes. Qed.
Print Assumptions C63_repeat_refuted.
(** ... the answer depends on what was asked before... *)
Theorem C63_history_refuted : let wide := mkRI (-8) 8 Clopen in let qs := [(mkRI 0 (1#2) Clopen, 1); (mkRI 0 1 Clopen, 1)] in fits_history wide 1 qs /\ one_sided wide qs /\
  dyn_answers heis_is_zero (fun a b => cx_cbh heis2 [a; b]) (function_rule curve) tt wide heis2 [(mkRI 0 1 Clopen, 1)] [(8, 64, 128)] /\
  dyn_answers heis_is_zero (fun a b => cx_cbh heis2 [a; b]) (function_rule curve) tt wide heis2 qs [(4, 16, 0); (8, 64, 0)].
Proof. exact history_changes. Qed.
Print Assumptions C63_history_refuted.
(** ... and resolution 2 is answered with the detail of resolution 1: the product of the
    increments of the quarters is another. *)
Theorem C63_resolution_refuted : let wide := mkRI (-8) 8 Clopen in let cbh2 := fun a b => cx_cbh heis2 [a; b] in let qs := [(mkRI 0 1 Clopen, 2)] in fits_history wide 2 qs /\ one_sided wide qs /\
  dyn_answers heis_is_zero cbh2 (function_rule curve) tt wide heis2 qs [(8, 64, 128)] /\
  cbh2 (cbh2 (curve 0 (1#4)) (curve (1#4) (1#2))) (cbh2 (curve (1#2) (3#4)) (curve (3#4) 1)) = (8, 64, 160).
Proof. exact resolution_ignored. Qed.
Print Assumptions C63_resolution_refuted.
(** Brownian streams at depth 1, first query not the largest: Chen's identity fails. *)
Theorem C63_growth_refuted : let wide := mkRI (-8) 8 Clopen in let qs := [(mkRI 0 (1#2) Clopen, 1); (mkRI (1#2) 1 Clopen, 1); (mkRI 0 1 Clopen, 1)] in fits_history wide 1 qs /\ one_sided wide qs /\
  exists x y z, dyn_answers q_zero (fun a b => cx_cbh q_ctx [a; b]) (brownian_rule q_half Qplus Qminus q_gauss) 3 wide q_ctx qs [x; y; z] /\ ~ (z == x + y)%Q.
Proof. exact growth_breaks_chen. Qed.
Print Assumptions C63_growth_refuted.
(** Brownian streams at depth 2: the same query gets another answer. *)
Theorem C63_brownian_refuted : let wide := mkRI (-8) 8 Clopen in let qs := [(mkRI 0 1 Clopen, 0); (mkRI 0 (1#2) Clopen, 1); (mkRI 0 1 Clopen, 0)] in fits_history wide 1 qs /\ one_sided wide qs /\
  (forall v w, v = heis_add w w -> heis_add (heis_half v) (heis_half v) = v) /\
  dyn_answers heis_is_zero (fun a b => cx_cbh heis2 [a; b]) (brownian_rule heis_half heis_add heis_sub heis_gauss) 1 wide heis2 qs [(2, 2, 0); (5, 3, 0); (2, 2, 4)].
Proof. exact brownian_depth2. Qed.
Print Assumptions C63_brownian_refuted.
