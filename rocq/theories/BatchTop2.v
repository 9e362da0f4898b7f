(** Each call of roughpy_compute on arrays, and the Python functions on stacks of tensors. *)
From Verif Require Export BatchTop.
Open Scope Z_scope.

Lemma ub_ok b mx : 0 <= b_depth b -> -1 <= mx -> exists p, update_bounds b mx 0 = Ok p.
Proof.
  intros H1 H2. unfold update_bounds. destruct ((mx =? -1) || (mx >? b_depth b)) eqn:E.
  - destruct (Z.gtb_spec 0 (b_depth b)); [lia|eauto].
  - apply orb_false_iff in E. destruct E as [E _]. apply Z.eqb_neq in E. destruct (Z.gtb_spec 0 mx); [lia|eauto].
Qed.
Ltac ub1 := match goal with |- context [update_bounds ?b ?x 0] => let p := fresh "bb" in let E := fresh "Eb" in
   first [destruct (ub_ok b x) as [p E]; [assumption|lia|rewrite E in *; cbn [bind] in *] ] end.
Ltac ubs := repeat ub1.

Section Nd.
  Variable R : cring.
  Variables (sz : Z) (sh : list Z).
  Hypothesis Hsz : 0 < sz < 2 ^ 64.
  Hypothesis Hsh : Forall (fun n => 0 <= n) sh.
  Variables (b : basis) (out : nparr) (n : Z) (ob : buf R).
  Hypothesis Hb : 0 <= b_depth b.
  Hypothesis Ho : usable sz sh out n (blen ob).
  Hypothesis Hs : separate sz sh out n.
  Notation pc a m I l := (piece a (start sz m I) l).
  Lemma nd_ft_fma_batch od ld rd l r nl nr (lb rb : buf R) : -1 <= od -> -1 <= ld -> -1 <= rd ->
    usable sz sh l nl (blen lb) -> usable sz sh r nr (blen rb) ->
    (forall I, in_box sh I -> exists p, nd_ft_fma sz b od ld rd (vec sz n) (vec sz nl) (vec sz nr) (pc ob out I n) (pc lb l I nl) (pc rb r I nr) = Ok p) ->
    exists x, nd_ft_fma sz b od ld rd out l r ob lb rb = Ok x /\
      batch_result sz sh out n ob x (fun I p => nd_ft_fma sz b od ld rd (vec sz n) (vec sz nl) (vec sz nr) (pc ob out I n) (pc lb l I nl) (pc rb r I nr) = Ok p).
  Proof.
    intros B1 B2 B3 Hl Hr. unfold nd_ft_fma. ubs.
    match goal with |- context [array_call sz out _ ?fn ob] => apply (call2 sz sh Hsz Hsh R fn out n l nl r nr ob lb rb _
      (fun p q q' => array_call sz (vec sz n) [(vec sz nl, q); (vec sz nr, q')] fn p)) end; auto using local_ft_fma.
    intros p q q'. symmetry. apply (vec_call sz n [(nl, q); (nr, q')]). auto.
  Qed.
  Lemma nd_ft_inplace_mul_batch ld rd r nr (rb : buf R) : -1 <= ld -> -1 <= rd -> usable sz sh r nr (blen rb) ->
    (forall I, in_box sh I -> exists p, nd_ft_inplace_mul sz b ld rd (vec sz n) (vec sz nr) (pc ob out I n) (pc rb r I nr) = Ok p) ->
    exists x, nd_ft_inplace_mul sz b ld rd out r ob rb = Ok x /\
      batch_result sz sh out n ob x (fun I p => nd_ft_inplace_mul sz b ld rd (vec sz n) (vec sz nr) (pc ob out I n) (pc rb r I nr) = Ok p).
  Proof.
    intros B1 B2 Hr. unfold nd_ft_inplace_mul. ubs.
    match goal with |- context [array_call sz out _ ?fn ob] => apply (call1 sz sh Hsz Hsh R fn out n r nr ob rb _
      (fun p q => array_call sz (vec sz n) [(vec sz nr, q)] fn p)) end; auto using local_ft_inplace_mul.
    intros p q. symmetry. apply (vec_call sz n [(nr, q)]). auto.
  Qed.
  Lemma nd_antipode_batch a na (ab : buf R) : usable sz sh a na (blen ab) ->
    (forall I, in_box sh I -> exists p, nd_antipode sz b (vec sz n) (vec sz na) (pc ob out I n) (pc ab a I na) = Ok p) ->
    exists x, nd_antipode sz b out a ob ab = Ok x /\
      batch_result sz sh out n ob x (fun I p => nd_antipode sz b (vec sz n) (vec sz na) (pc ob out I n) (pc ab a I na) = Ok p).
  Proof.
    intros Ha. unfold nd_antipode. ubs.
    match goal with |- context [array_call sz out _ ?fn ob] => apply (call1 sz sh Hsz Hsh R fn out n a na ob ab _
      (fun p q => array_call sz (vec sz n) [(vec sz na, q)] fn p)) end; auto using local_antipode.
    intros p q. symmetry. apply (vec_call sz n [(na, q)]). auto.
  Qed.
  Lemma nd_ft_adj_lmul_batch od pd ad p a np na (pb ab : buf R) : -1 <= od -> -1 <= pd -> -1 <= ad ->
    usable sz sh p np (blen pb) -> usable sz sh a na (blen ab) ->
    (forall I, in_box sh I -> exists x, nd_ft_adj_lmul sz b od pd ad (vec sz n) (vec sz np) (vec sz na) (pc ob out I n) (pc pb p I np) (pc ab a I na) = Ok x) ->
    exists x, nd_ft_adj_lmul sz b od pd ad out p a ob pb ab = Ok x /\
      batch_result sz sh out n ob x (fun I x => nd_ft_adj_lmul sz b od pd ad (vec sz n) (vec sz np) (vec sz na) (pc ob out I n) (pc pb p I np) (pc ab a I na) = Ok x).
  Proof.
    intros B1 B2 B3 Hp Ha. unfold nd_ft_adj_lmul. ubs.
    match goal with |- context [array_call sz out _ ?fn ob] => apply (call2 sz sh Hsz Hsh R fn out n p np a na ob pb ab _
      (fun x q q' => array_call sz (vec sz n) [(vec sz np, q); (vec sz na, q')] fn x)) end; auto using local_ft_adj_lmul.
    intros x q q'; symmetry; apply (vec_call sz n [(np, q); (na, q')]); auto.
  Qed.
  Lemma nd_st_fma_batch l r nl nr (lb rb : buf R) : usable sz sh l nl (blen lb) -> usable sz sh r nr (blen rb) ->
    (forall I, in_box sh I -> exists p, nd_st_fma sz b (vec sz n) (vec sz nl) (vec sz nr) (pc ob out I n) (pc lb l I nl) (pc rb r I nr) = Ok p) ->
    exists x, nd_st_fma sz b out l r ob lb rb = Ok x /\
      batch_result sz sh out n ob x (fun I p => nd_st_fma sz b (vec sz n) (vec sz nl) (vec sz nr) (pc ob out I n) (pc lb l I nl) (pc rb r I nr) = Ok p).
  Proof.
    intros Hl Hr. unfold nd_st_fma. ubs.
    match goal with |- context [array_call sz out _ ?fn ob] => apply (call2 sz sh Hsz Hsh R fn out n l nl r nr ob lb rb _
      (fun p q q' => array_call sz (vec sz n) [(vec sz nl, q); (vec sz nr, q')] fn p)) end; auto using local_st_fma.
    intros p q q'. symmetry. apply (vec_call sz n [(nl, q); (nr, q')]). auto.
  Qed.
End Nd.

Section Nd2.
  Variable R : qalg.
  Variables (sz : Z) (sh : list Z).
  Hypothesis Hsz : 0 < sz < 2 ^ 64.
  Hypothesis Hsh : Forall (fun n => 0 <= n) sh.
  Variables (b : basis) (out : nparr) (n : Z) (ob : buf (qr R)).
  Hypothesis Hb : 0 <= b_depth b.
  Hypothesis Ho : usable sz sh out n (blen ob).
  Hypothesis Hs : separate sz sh out n.
  Notation pc a m I l := (piece a (start sz m I) l).
  Lemma nd_ft_exp_batch a na (ab : buf (qr R)) : usable sz sh a na (blen ab) ->
    (forall I, in_box sh I -> exists p, nd_ft_exp sz b (vec sz n) (vec sz na) (pc ob out I n) (pc ab a I na) = Ok p) ->
    exists x, nd_ft_exp sz b out a ob ab = Ok x /\
      batch_result sz sh out n ob x (fun I p => nd_ft_exp sz b (vec sz n) (vec sz na) (pc ob out I n) (pc ab a I na) = Ok p).
  Proof.
    intros Ha. unfold nd_ft_exp. ubs.
    match goal with |- context [array_call sz out _ ?fn ob] => apply (call1 sz sh Hsz Hsh (qr R) fn out n a na ob ab _
      (fun p q => array_call sz (vec sz n) [(vec sz na, q)] fn p)) end; auto using local_ft_exp.
    intros p q. symmetry. apply (vec_call sz n [(na, q)]). auto.
  Qed.
  Lemma nd_ft_log_batch a na (ab : buf (qr R)) : usable sz sh a na (blen ab) ->
    (forall I, in_box sh I -> exists p, nd_ft_log sz b (vec sz n) (vec sz na) (pc ob out I n) (pc ab a I na) = Ok p) ->
    exists x, nd_ft_log sz b out a ob ab = Ok x /\
      batch_result sz sh out n ob x (fun I p => nd_ft_log sz b (vec sz n) (vec sz na) (pc ob out I n) (pc ab a I na) = Ok p).
  Proof.
    intros Ha. unfold nd_ft_log. ubs.
    match goal with |- context [array_call sz out _ ?fn ob] => apply (call1 sz sh Hsz Hsh (qr R) fn out n a na ob ab _
      (fun p q => array_call sz (vec sz n) [(vec sz na, q)] fn p)) end; auto using local_ft_log.
    intros p q. symmetry. apply (vec_call sz n [(na, q)]). auto.
  Qed.
  Lemma nd_ft_fmexp_batch m e nm ne (mb eb : buf (qr R)) : usable sz sh m nm (blen mb) -> usable sz sh e ne (blen eb) ->
    (forall I, in_box sh I -> exists p, nd_ft_fmexp sz b (vec sz n) (vec sz nm) (vec sz ne) (pc ob out I n) (pc mb m I nm) (pc eb e I ne) = Ok p) ->
    exists x, nd_ft_fmexp sz b out m e ob mb eb = Ok x /\
      batch_result sz sh out n ob x (fun I p => nd_ft_fmexp sz b (vec sz n) (vec sz nm) (vec sz ne) (pc ob out I n) (pc mb m I nm) (pc eb e I ne) = Ok p).
  Proof.
    intros Hm He. unfold nd_ft_fmexp. ubs.
    match goal with |- context [array_call sz out _ ?fn ob] => apply (call2 sz sh Hsz Hsh (qr R) fn out n m nm e ne ob mb eb _
      (fun p q q' => array_call sz (vec sz n) [(vec sz nm, q); (vec sz ne, q')] fn p)) end; auto using local_ft_fmexp.
    intros p q q'. symmetry. apply (vec_call sz n [(nm, q); (ne, q')]). auto.
  Qed.
End Nd2.

Section NdApply.
  Variable R : cring.
  Variables (sz : Z) (sh : list Z).
  Hypothesis Hsz : 0 < sz < 2 ^ 64.
  Hypothesis Hsh : Forall (fun n => 0 <= n) sh.
  Lemma last_dim a m len n : usable sz sh a m len -> nth (Z.to_nat (Z.of_nat (length (sh ++ [n])) - 1)) (np_shape a) 0 = m.
  Proof.
    intros [E _ _]. rewrite E, app_length. cbn [length]. replace (Z.to_nat (Z.of_nat (length sh + 1) - 1)) with (length sh) by lia.
    rewrite app_nth2, Nat.sub_diag by lia. reflexivity.
  Qed.
  (** A product with a sparse matrix. *)
  Lemma nd_apply_batch (m : csmat R) op out n a na (ob ab : buf R) :
    usable sz sh out n (blen ob) -> separate sz sh out n -> usable sz sh a na (blen ab) ->
    0 < zprod sh ->
    (forall I, in_box sh I -> exists p, dense_apply m n na (piece ob (start sz out I) n) (piece ab (start sz a I) na) op = Ok p) ->
    exists x, nd_apply sz m op out a ob ab = Ok x /\
      batch_result sz sh out n ob x (fun I p => dense_apply m n na (piece ob (start sz out I) n) (piece ab (start sz a I) na) op = Ok p).
  Proof.
    intros Ho Hs Ha Hp H1. unfold nd_apply.
    assert (Cd : check_dims (np_shape a) (ndims a - 1) (np_shape out) (ndims out - 1) = true).
    { unfold ndims. rewrite (us_shape _ _ _ _ _ Ho), (us_shape _ _ _ _ _ Ha). apply check_dims_iff. auto. }
    rewrite Cd. assert (No : ndims out = Z.of_nat (length (sh ++ [n]))) by (unfold ndims; rewrite (us_shape _ _ _ _ _ Ho); auto).
    assert (Na : ndims a = Z.of_nat (length (sh ++ [n]))) by (unfold ndims; rewrite (us_shape _ _ _ _ _ Ha), !app_length; auto).
    rewrite Na, No, Z.eqb_refl, (last_dim out n _ n Ho), (last_dim a na _ n Ha). cbn [negb].
    destruct (Z.ltb_spec (Z.of_nat (length (sh ++ [n]))) 1) as [L|_]; [rewrite app_length in L; cbn [length] in L; lia|].
    assert (Some1 : exists I, in_box sh I).
    { destruct (nonneg_cases sh Hsh) as [P|Z0]; [|lia]. exists (nth_index sh 0). apply nth_index_box. auto. }
    destruct Some1 as (I0 & HI0). destruct (H1 I0 HI0) as (p0 & E0). unfold dense_apply in E0, H1 |- *.
    destruct (negb (cs_inner m =? n)); [discriminate|]. destruct (negb (cs_n m =? na)); [discriminate|].
    destruct (negb (blen (cs_data m) =? blen (cs_idx m))); [discriminate|]. destruct (cs_inner m =? cs_n m); [discriminate|].
    clear E0.
    destruct (blen (cs_off m) =? cs_inner m + 1).
    - exact (batch_loop R sz sh n out Hsz Hsh _ [(a, ab, na)] ob (local_csr R _ _ _ _) Ho Hs ltac:(constructor; [exact Ha|constructor]) H1).
    - destruct (blen (cs_off m) =? cs_n m + 1); [|destruct (H1 I0 HI0); discriminate].
      exact (batch_loop R sz sh n out Hsz Hsh _ [(a, ab, na)] ob (local_csc R _ _ _ _) Ho Hs ltac:(constructor; [exact Ha|constructor]) H1).
  Qed.
End NdApply.
