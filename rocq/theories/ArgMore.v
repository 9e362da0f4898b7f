(** What the methods return. *)
From Coq Require Import Lqa ZifyBool.
From Verif Require Import ArgSpec ArgProofs ArgTop StreamLemmas SimpSpec SimpProofs StreamProofs2 StreamProofs3 IntervalProofs2.
Open Scope Z_scope.

Lemma ctype_eqb_eq a b : ctype_eqb a b = true <-> a = b.
Proof. destruct a, b; cbn; split; congruence. Qed.

Section P.
  Variable lie : Type.
  Variable get_context : Z -> Z -> ctype -> actx lie.
  Variable get_type : string -> option ctype.
  Variables (tensor : Type) (is_zero : lie -> bool) (none : lie) (to_signature : actx lie -> lie -> tensor) (sig_derivative : actx lie -> list (lie * lie) -> outcome tensor).
  Notation arg := (pyarg lie).

  Lemma parse_simplify_spec s pos kw p r c : NoDup (map fst kw) -> (parse_simplify lie get_context s pos kw = Ok (p, r, c) <->
    exists part res ctx depth, arguments lie simplify_names 4 pos kw [part; res; ctx; depth] /\ simplify_asked lie get_context s part res ctx depth p r c).
  Proof.
    intros N. unfold parse_simplify. split.
    - intros H. apply bind_ok in H. destruct H as (l & E & H). apply parse_args_spec in E; auto. assert (L := proj1 (proj2 E)).
      destruct l as [|a0 [|a1 [|a2 [|a3 [|]]]]]; try discriminate L. unfold nth_arg in H. cbn [nth] in H. exists a0, a1, a2, a3. split; auto.
      apply bind_ok in H. destruct H as (p' & E0 & H). apply bind_ok in H. destruct H as (r' & E1 & H). apply bind_ok in H. destruct H as (c0 & E2 & H). apply bind_ok in H. destruct H as (d & E3 & H).
      apply opt_int_spec in E1, E3. apply ctx_arg_spec in E2. assert (a0 = Some (APartition lie p')) as -> by (destruct a0 as [[]|]; try discriminate; injection E0 as ->; reflexivity).
      destruct E2 as [[-> ->]|(x & -> & ->)].
      + destruct (Z.eqb_spec d 0) as [->|Hd]; [injection H as <- <- <-; apply S_own; auto|]. apply bind_ok in H. destruct H as (c' & G & [= <- <- <-]). apply get_alike_spec in G. destruct G as (G1 & G2 & ->). apply S_alike; auto. lia.
      + destruct (Z.eqb_spec (cx_width (pc_ctx lie x)) (py_width lie s)) as [W|W]; cbn [negb] in H; [|discriminate]. destruct (ctype_eqb (pc_type lie x) (py_type lie s)) eqn:T; cbn [negb] in H; [|discriminate]. injection H as <- <- <-.
        apply ctype_eqb_eq in T. eapply S_given; eauto.
    - intros (a0 & a1 & a2 & a3 & E & A). apply parse_args_spec in E; auto. rewrite E. cbn [bind]. unfold nth_arg. cbn [nth].
      inversion A as [p' r' c' d -> R -> D W T|p' r' -> R -> D|p' r' d -> R -> D Hd T]; subst; cbn [bind]; apply opt_int_spec in R, D; rewrite R; cbn [bind]; rewrite D; cbn [bind].
      + rewrite W, Z.eqb_refl, T. rewrite (proj2 (ctype_eqb_eq _ _) eq_refl). reflexivity.
      + reflexivity.
      + replace (d =? 0) with false by lia. rewrite (proj2 (get_alike_spec lie get_context s d _ _) (conj (Z.lt_le_incl _ _ Hd) (conj T eq_refl))). reflexivity.
  Qed.

  (** Answers *)
  Section Answer.
    Hypothesis Hn : is_zero none = true.
    Lemma answers s pos kw i r c : parse_sig_args lie get_context get_type s pos kw = Ok (mkSA lie i r c) -> forall h x,
      replies is_zero none (py_s lie s) (pc_ctx lie c) h (query_for lie (py_s lie s) i r) x ->
      returns_log_signature lie get_context is_zero none get_type s (pc_ctx lie c) h pos kw x /\
      returns_signature lie get_context tensor is_zero none to_signature get_type s (pc_ctx lie c) h pos kw (to_signature (pc_ctx lie c) x).
    Proof.
      intros P h x R. split; intros fuel Hf; destruct (R fuel Hf) as (xs & k & k' & E & E'); exists xs, k, k'; (split; [exact E|]).
      - rewrite (log_signature_means lie get_context get_type is_zero none fuel s k pos kw i r c P). exact E'.
      - unfold py_signature. rewrite P. cbn [bind]. rewrite dispatch_spec. rewrite E'. reflexivity.
    Qed.
    Lemma answer_of s pos kw i r c : parse_sig_args lie get_context get_type s pos kw = Ok (mkSA lie i r c) -> stream_ok (fun _ => True) (py_s lie s) -> fits_call (py_s lie s) (pc_ctx lie c) (query_for lie (py_s lie s) i r) ->
      exists x, forall h, Forall (fits_call (py_s lie s) (pc_ctx lie c)) h -> replies is_zero none (py_s lie s) (pc_ctx lie c) h (query_for lie (py_s lie s) i r) x /\
        returns_log_signature lie get_context is_zero none get_type s (pc_ctx lie c) h pos kw x /\
        returns_signature lie get_context tensor is_zero none to_signature get_type s (pc_ctx lie c) h pos kw (to_signature (pc_ctx lie c) x).
    Proof.
      intros P Hs Hq. destruct (transparent lie is_zero none Hn (pc_ctx lie c) (py_s lie s) Hs _ Hq) as (x & R). exists x. intros h Hh. split; [apply R, Hh|]. apply (answers s pos kw i r c P h x (R h Hh)).
    Qed.
  End Answer.
  Lemma deriv_infos_ask fuel s ctx r l : forall c, deriv_infos lie is_zero none fuel s ctx c r l =
    let! (ys, c') := ask_all is_zero none fuel s ctx c (map (fun p => QAt (fst p) r) l) in Ok (combine ys (map snd l), c').
  Proof.
    induction l as [|[i x] l IH]; intros c; cbn [deriv_infos map ask_all]; [reflexivity|]. cbn [fst ask]. destruct (log_signature_at is_zero none fuel s c i r ctx) as [[y c1]| | |]; cbn [bind]; auto.
    rewrite IH. destruct (ask_all is_zero none fuel s ctx c1 _) as [[ys c2]| | |]; reflexivity.
  Qed.
  Section Deriv.
    Hypothesis Hn : is_zero none = true.
    Variables (S : sigs lie) (ok : lie -> Prop) (ctx : actx lie).
    Hypothesis HS : sound is_zero S ok ctx.
    Lemma ask_each s : stream_ok ok s -> forall qs, Forall (fits_call s ctx) qs -> exists ys, Forall2 (fun q y => forall h, Forall (fits_call s ctx) h -> replies is_zero none s ctx h q y) qs ys /\
      forall fuel c, (31 <= fuel)%nat -> cinv lie ctx (st_data s) (st_res s) c -> exists c', ask_all is_zero none fuel s ctx c qs = Ok (ys, c') /\ cinv lie ctx (st_data s) (st_res s) c'.
    Proof.
      intros Hs. induction qs as [|q qs IH]; intros F; [exists []; split; [constructor|intros fuel c _ C; exists c; split; [reflexivity|auto]]|].
      destruct (ask_ok lie is_zero none Hn S ok ctx HS s Hs q (Forall_inv F)) as (x & _ & Fx). destruct (IH (Forall_inv_tail F)) as (ys & A & B). exists (x :: ys). split.
      - constructor; auto. intros h Hh. apply (replies_intro is_zero none Hn S ok ctx HS s Hs h q x Hh Fx).
      - intros fuel c Hf C. cbn [ask_all]. destruct (Fx fuel c Hf C) as (c1 & E1 & C1). rewrite E1. cbn [bind]. destruct (B fuel c1 Hf C1) as (c2 & E2 & C2). rewrite E2. cbn [bind]. eauto.
    Qed.
    Lemma derivative_returns s pos kw d r c : parse_deriv lie get_context s pos kw = Ok (mkDA lie d r c) -> pc_ctx lie c = ctx -> stream_ok ok (py_s lie s) -> Forall (fun p => fits_call (py_s lie s) ctx (QAt (fst p) r)) d ->
      exists ys, Forall2 (fun p y => forall h, Forall (fits_call (py_s lie s) ctx) h -> replies is_zero none (py_s lie s) ctx h (QAt (fst p) r) y) d ys /\
        forall t, sig_derivative ctx (combine ys (map snd d)) = Ok t -> forall h, Forall (fits_call (py_s lie s) ctx) h -> returns_derivative lie get_context tensor is_zero none sig_derivative s ctx h pos kw t.
    Proof.
      intros P Ec Hs F. destruct (ask_each (py_s lie s) Hs (map (fun p => QAt (fst p) r) d)) as (ys & A & B). { apply Forall_map. exact F. }
      exists ys. split.
      - clear - A. remember (map (fun p => QAt (fst p) r) d) as qs eqn:E. revert d E. induction A as [|q y qs ys H A IH]; intros [|p d] E; try discriminate; constructor.
        + injection E as -> _. exact H.
        + injection E as _ E. auto.
      - intros t T h Hh fuel Hf. destruct (ask_all_ok lie is_zero none Hn S ok ctx HS (py_s lie s) Hs h Hh) as (xs & _ & G). destruct (G fuel [] Hf (cinv_nil lie ctx (py_s lie s))) as (k & E & C).
        destruct (B fuel k Hf C) as (k' & E' & _). exists xs, k, k'. split; auto. unfold py_signature_derivative. rewrite P. cbn [bind da_ctx da_resolution da_list]. rewrite Ec, deriv_infos_ask, E'. cbn [bind]. rewrite T. reflexivity.
    Qed.
    (** simplify with the arguments p, r *)
    Lemma simplify_returns s pos kw p r c : parse_simplify lie get_context s pos kw = Ok (p, r, c) -> pc_ctx lie c = ctx -> forall h w,
      simplifies is_zero none (py_s lie s) (py_effective lie s) ctx p r h w -> returns_simplified lie get_context is_zero none s ctx h pos kw w.
    Proof.
      intros P Ec h w W fuel Hf. destruct (W fuel Hf) as (xs & k & k' & E & E' & _). exists xs, k, k'. split; auto. unfold py_simplify. rewrite P. cbn [bind]. rewrite Ec, E'. reflexivity.
    Qed.
  End Deriv.

  (** Errors that end the process *)
  Lemma restrict_spec s pos kw : NoDup (map fst kw) -> (forall s', py_restrict lie s pos kw = Ok s' <-> exists a i, arguments lie ["interval"%string] 1 pos kw [Some a] /\ any_interval lie a i /\
      s' = mkPy lie (restrict (py_s lie s) i) (py_width lie s) (py_type lie s) (py_ctype lie s) (py_effective lie s)) /\
    (forall a, arguments lie ["interval"%string] 1 pos kw [Some a] -> (forall i, ~ any_interval lie a i) -> (forall d, a <> ADyadic lie d) -> py_restrict lie s pos kw = UB).
  Proof.
    intros N. unfold py_restrict. split.
    - intros s'. split.
      + intros H. apply bind_ok in H. destruct H as (l & E & H). apply parse_args_spec in E; auto. assert (L := proj1 (proj2 E)). destruct l as [|a0 [|]]; try discriminate L. unfold nth_arg in H. cbn [nth] in H. destruct a0 as [a|]; [|discriminate].
        apply bind_ok in H. destruct H as ([i|] & Ei & H); [|discriminate]. injection H as <-. exists a, i. apply as_interval_spec in Ei. auto.
      + intros (a & i & E & V & ->). apply parse_args_spec in E; auto. rewrite E. cbn [bind]. unfold nth_arg. cbn [nth]. apply as_interval_spec in V. rewrite V. reflexivity.
    - intros a E V D. apply parse_args_spec in E; auto. rewrite E. cbn [bind]. unfold nth_arg. cbn [nth]. destruct (as_interval lie a) as [[i|]| | |] eqn:Ei; cbn [bind]; auto.
      + apply as_interval_spec in Ei. destruct (V i Ei).
      + destruct a; try discriminate. destruct (D d eq_refl).
      + destruct a; try discriminate. destruct (D d eq_refl).
  Qed.
End P.

(** The claims. *)
Section C.
  Variable lie : Type.
  Variable get_context : Z -> Z -> ctype -> actx lie.
  Variable get_type : string -> option ctype.
  Variables (tensor : Type) (is_zero : lie -> bool) (none : lie) (to_signature : actx lie -> lie -> tensor) (sig_derivative : actx lie -> list (lie * lie) -> outcome tensor).
  Hypothesis Hn : is_zero none = true.
  Notation log_sig := (py_log_signature lie is_zero none get_context get_type).

  Lemma query_answer S ok s pos kw i r c first sup res ctx depth dtype : NoDup (map fst kw) ->
    arguments lie sig_names 3 pos kw [first; sup; res; ctx; depth; dtype] -> asks lie first sup res i (Some r) -> context_asked lie get_context s ctx depth dtype c ->
    sound is_zero S ok (pc_ctx lie c) -> stream_ok ok (py_s lie s) -> let j := match i with Some i => i | None => st_support (py_s lie s) end in
    fits_call (py_s lie s) (pc_ctx lie c) (QAt j r) -> r <= st_res (py_s lie s) ->
    exists x, ok x /\ sg_eq S (sg_of S x) (sg_prod S (within (grid_floor (from (py_s lie s) j) r) (grid_floor (upto (py_s lie s) j) r) (st_data (py_s lie s)))) /\
      forall h, Forall (fits_call (py_s lie s) (pc_ctx lie c)) h ->
        returns_log_signature lie get_context is_zero none get_type s (pc_ctx lie c) h pos kw x /\
        returns_signature lie get_context tensor is_zero none to_signature get_type s (pc_ctx lie c) h pos kw (to_signature (pc_ctx lie c) x).
  Proof.
    intros N A Q C HS Hs j F T. destruct (query_product lie is_zero none Hn S ok _ HS (py_s lie s) j r Hs F T) as (x & O & P & R). exists x. split; [exact O|]. split; [exact P|]. intros h Hh.
    apply (answers lie get_context get_type tensor is_zero none to_signature s pos kw i (Some r) c); [|apply R, Hh]. apply parse_sig_spec; auto. exists first, sup, res, ctx, depth, dtype. auto.
  Qed.
  Lemma query_answer_default S ok s pos kw i c first sup res ctx depth dtype : NoDup (map fst kw) ->
    arguments lie sig_names 3 pos kw [first; sup; res; ctx; depth; dtype] -> asks lie first sup res i None -> context_asked lie get_context s ctx depth dtype c ->
    sound is_zero S ok (pc_ctx lie c) -> stream_ok ok (py_s lie s) -> let j := match i with Some i => i | None => st_support (py_s lie s) end in
    fits_call (py_s lie s) (pc_ctx lie c) (QDefault j) -> 2 <= st_res (py_s lie s) -> (Qpower 2 (2 - st_res (py_s lie s)) <= upto (py_s lie s) j - from (py_s lie s) j)%Q ->
    exists x, ok x /\ sg_eq S (sg_of S x) (sg_prod S (within (grid_floor (from (py_s lie s) j) (st_res (py_s lie s))) (grid_floor (upto (py_s lie s) j) (st_res (py_s lie s))) (st_data (py_s lie s)))) /\
      forall h, Forall (fits_call (py_s lie s) (pc_ctx lie c)) h ->
        returns_log_signature lie get_context is_zero none get_type s (pc_ctx lie c) h pos kw x /\
        returns_signature lie get_context tensor is_zero none to_signature get_type s (pc_ctx lie c) h pos kw (to_signature (pc_ctx lie c) x).
  Proof.
    intros N A Q C HS Hs j F T L. destruct (query_default lie is_zero none Hn S ok _ HS (py_s lie s) j Hs F T L) as (x & O & P & R). exists x. split; [exact O|]. split; [exact P|]. intros h Hh.
    apply (answers lie get_context get_type tensor is_zero none to_signature s pos kw i None c); [|apply R, Hh]. apply parse_sig_spec; auto. exists first, sup, res, ctx, depth, dtype. auto.
  Qed.
  (** Calls that are not answered by an interval, a resolution and a context are not answered at all. *)
  Lemma query_refused s pos kw fuel c x : NoDup (map fst kw) -> log_sig fuel s c pos kw = Ok x ->
    exists i r k first sup res ctx depth dtype, arguments lie sig_names 3 pos kw [first; sup; res; ctx; depth; dtype] /\ asks lie first sup res i r /\ context_asked lie get_context s ctx depth dtype k /\
      ask is_zero none fuel (py_s lie s) (pc_ctx lie k) c (query_for lie (py_s lie s) i r) = Ok x.
  Proof.
    intros N H. unfold py_log_signature in H. apply bind_ok in H. destruct H as ([i r k] & E & H). pose proof (proj1 (parse_sig_spec lie get_context get_type s pos kw i r k N) E) as (a1 & a2 & a3 & a4 & a5 & a6 & A & B & C).
    exists i, r, k, a1, a2, a3, a4, a5, a6. repeat (split; auto). rewrite dispatch_spec in H. exact H.
  Qed.

  (** *** What is not as expected *)
  Lemma dtype_alone s t : t <> TNoContext -> parse_sig_args lie get_context get_type s [] [("dtype"%string, AType lie t)] = Ok (mkSA lie None None (mkPC lie (get_context (cx_width (st_ctx (py_s lie s))) 0 t) t)).
  Proof. intros H. destruct t; try reflexivity. congruence. Qed.
  Lemma dtype_name s n fuel c : (get_type n <> None -> log_sig fuel s c [] [("dtype"%string, AStr lie n)] = Throw) /\ (get_type n = None -> log_sig fuel s c [] [("dtype"%string, AStr lie n)] = UB).
  Proof. unfold py_log_signature, parse_sig_args. cbn. split; destruct (get_type n); cbn; congruence. Qed.
  Lemma none_first s b fuel c : log_sig fuel s c [ANone lie; b] [] = log_sig fuel s c [] [].
  Proof. reflexivity. Qed.
  Lemma lone_int s z r fuel c : (exists v, resolution lie r v) -> log_sig fuel s c [AInt lie z] [("resolution"%string, r)] = log_sig fuel s c [] [("resolution"%string, AInt lie z)].
  Proof.
    clear Hn. intros (v & V). unfold py_log_signature, parse_sig_args, parse_args, nth_arg. cbn. unfold as_long. inversion V as [z' r' B1 B2 B3|x r' B]; subst; cbn.
    - unfold as_long. replace ((- 2 ^ 63 <=? z') && (z' <? 2 ^ 63)) with true by lia. cbn. destruct (_ && _); reflexivity.
    - destruct (_ && _); reflexivity.
  Qed.
  Lemma to_int_add z : to_int (z + 2 ^ 32) = to_int z.
  Proof. clear. unfold to_int. f_equal. replace (z + 2 ^ 32 + 2 ^ 31) with (z + 2 ^ 31 + 1 * 2 ^ 32) by lia. apply Z.mod_add. lia. Qed.
  Lemma wraps s i z fuel c : - 2 ^ 63 <= z < 2 ^ 63 - 2 ^ 32 -> log_sig fuel s c [AReal lie i; AInt lie (z + 2 ^ 32)] [] = log_sig fuel s c [AReal lie i; AInt lie z] [].
  Proof.
    clear Hn. intros B. unfold py_log_signature, parse_sig_args, parse_args, nth_arg. cbn -[Z.add Z.pow to_int as_long]. unfold as_long.
    replace ((- 2 ^ 63 <=? z + 2 ^ 32) && (z + 2 ^ 32 <? 2 ^ 63)) with true by lia. replace ((- 2 ^ 63 <=? z) && (z <? 2 ^ 63)) with true by lia. cbn -[Z.add Z.pow to_int as_long]. rewrite to_int_add. reflexivity.
  Qed.
  (** A tuple of two pairs is refused, a list is not. *)
  Lemma two_pairs s i x j y : parse_deriv lie get_context s [ATuple lie [ATuple lie [AReal lie i; ALie lie x]; ATuple lie [AReal lie j; ALie lie y]]] [] = Throw /\
    parse_deriv lie get_context s [AList lie [ATuple lie [AReal lie i; ALie lie x]; ATuple lie [AReal lie j; ALie lie y]]] [] = Ok (mkDA lie [(i, x); (j, y)] (st_res (py_s lie s)) (mkPC lie (st_ctx (py_s lie s)) (py_ctype lie s))).
  Proof. split; reflexivity. Qed.
  (** What the stream throws is not caught. *)
  Lemma derivative_crash s fuel c pos kw a : parse_deriv lie get_context s pos kw = Ok a ->
    (let! (l, c) := deriv_infos lie is_zero none fuel (py_s lie s) (pc_ctx lie (da_ctx lie a)) c (da_resolution lie a) (da_list lie a) in let! t := sig_derivative (pc_ctx lie (da_ctx lie a)) l in Ok (t, c)) = Throw ->
    py_signature_derivative lie tensor is_zero none sig_derivative get_context fuel s c pos kw = UB.
  Proof. intros P T. unfold py_signature_derivative. rewrite P. cbn [bind]. rewrite T. reflexivity. Qed.
End C.
