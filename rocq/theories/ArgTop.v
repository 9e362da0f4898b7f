(** The methods as a whole. *)
From Coq Require Import Lqa ZifyBool.
From Verif Require Import ArgSpec ArgProofs StreamLemmas SimpSpec.
Open Scope Z_scope.

Section P.
  Variable lie : Type.
  Variable get_context : Z -> Z -> ctype -> actx lie.
  Variable get_type : string -> option ctype.
  Notation arg := (pyarg lie).

  Lemma ctx_arg_spec (a : option arg) c : (match a with None => Ok None | Some (ACtx _ c) => Ok (Some c) | Some _ => Throw end) = Ok c <-> (a = None /\ c = None) \/ exists x, a = Some (ACtx lie x) /\ c = Some x.
  Proof.
    destruct a as [a|]; [destruct a|]; (split; [try discriminate; intros [= <-]; eauto|]); intros [[? ?]|(x' & H & ?)]; try discriminate; subst; auto. injection H as ->. reflexivity.
  Qed.
  Lemma get_alike_spec s d t c : get_alike lie get_context s d t = Ok c <-> 0 <= d /\ t <> TNoContext /\ c = mkPC lie (get_context (cx_width (st_ctx (py_s lie s))) d t) t.
  Proof.
    unfold get_alike. destruct (Z.ltb_spec d 0) as [L|L]; [split; [discriminate|intros (H & _); lia]|]. destruct t; (split; [try discriminate; intros [= <-]; repeat split; auto; discriminate|intros (_ & H & ->); congruence || reflexivity]).
  Qed.
  Lemma read_dtype_spec s a t : read_dtype lie get_type s a = Ok t <-> type_asked lie (py_type lie s) a t.
  Proof.
    split.
    - destruct a as [a|]; [|intros [= <-]; constructor]. destruct a; cbn [read_dtype]; try discriminate; [| |]; try (destruct (get_type _); discriminate); intros [= <-]; constructor.
    - intros H. inversion H; subst; reflexivity.
  Qed.
  Definition own_ctx (s : pystream lie) : pctx lie := mkPC lie (st_ctx (py_s lie s)) (py_ctype lie s).
  Lemma context_spec s a3 a4 a5 c : (exists c0 d, (match a3 with None => Ok None | Some (ACtx _ c) => Ok (Some c) | Some _ => Throw end) = Ok c0 /\ or_int lie a4 0 d /\
      (match c0, a5 with
       | Some c, _ => Ok c
       | None, dtype => if (d =? 0) && (match dtype with None => true | Some _ => false end) then Ok (mkPC lie (st_ctx (py_s lie s)) (py_ctype lie s))
                        else let! t := read_dtype lie get_type s dtype in get_alike lie get_context s d t
       end) = Ok c) <-> context_asked lie get_context s a3 a4 a5 c.
  Proof.
    split.
    - intros (c0 & d & E & D & H). apply ctx_arg_spec in E. destruct E as [[E1 ->]|(x & E1 & ->)]; [|injection H as <-; eapply C_given; eauto].
      destruct (Z.eqb_spec d 0) as [->|Hd].
      + destruct a5 as [a5|]; cbn [andb] in H.
        * apply bind_ok in H. destruct H as (t & T & G). apply read_dtype_spec in T. apply get_alike_spec in G. destruct G as (G1 & G2 & ->). eapply C_alike; eauto. right. discriminate.
        * injection H as <-. apply C_own; auto.
      + cbn [andb] in H. apply bind_ok in H. destruct H as (t & T & G). apply read_dtype_spec in T. apply get_alike_spec in G. destruct G as (G1 & G2 & ->). eapply C_alike; eauto.
    - intros H. inversion H as [c0 d E D|E D T|d t E D Hd N T Ht]; subst.
      + exists (Some c), d. repeat split; auto.
      + exists None, 0. repeat split; auto.
      + exists None, d. split; [reflexivity|]. split; auto. replace ((d =? 0) && match a5 with None => true | Some _ => false end) with false by (destruct N; destruct a5; try congruence; try lia).
        apply read_dtype_spec in T. rewrite T. cbn [bind]. apply get_alike_spec. auto.
  Qed.
  Lemma int_arg_weak e (a : arg) z : int_arg lie e a = Ok z -> int_arg lie false a = Ok z.
  Proof. destruct a; cbn [int_arg]; auto; destruct (negb _); auto; rewrite andb_false_r; destruct (_ && _); auto; discriminate. Qed.

  Lemma parse_sig_spec s pos kw i r c : NoDup (map fst kw) -> (parse_sig_args lie get_context get_type s pos kw = Ok (mkSA lie i r c) <->
    exists first sup res ctx depth dtype, arguments lie sig_names 3 pos kw [first; sup; res; ctx; depth; dtype] /\ asks lie first sup res i r /\ context_asked lie get_context s ctx depth dtype c).
  Proof.
    intros N. unfold parse_sig_args. split.
    - intros H. apply bind_ok in H. destruct H as (l & E & H). apply parse_args_spec in E; auto. assert (L := proj1 (proj2 E)).
      destruct l as [|a0 [|a1 [|a2 [|a3 [|a4 [|a5 [|]]]]]]]; try discriminate L. cbn [nth_arg nth] in H. exists a0, a1, a2, a3, a4, a5. split; auto. unfold nth_arg in H. cbn [nth] in H.
      apply bind_ok in H. destruct H as ([r0 e] & E2 & H). apply bind_ok in H. destruct H as (c0 & E3 & H). apply bind_ok in H. destruct H as (d & E4 & H).
      apply bind_ok in H. destruct H as ([[i' r'] e'] & E5 & H). apply bind_ok in H. destruct H as (c' & E6 & H). destruct e; [discriminate|]. destruct e'; [discriminate|]. cbn [orb] in H. injection H as <- <- <-.
      assert (R0 : or_resolution lie a2 None r0) by (apply opt_converter_spec; destruct a2; auto).
      split; [eapply read_interval_spec; eauto|]. apply context_spec. exists c0, d. split; auto. split; [apply opt_int_spec; auto|]. auto.
    - intros (a0 & a1 & a2 & a3 & a4 & a5 & E & A & C). apply parse_args_spec in E; auto. rewrite E. cbn [bind]. unfold nth_arg. cbn [nth].
      assert (R0 : exists r0, or_resolution lie a2 None r0) by (inversion A; subst; eauto). destruct R0 as (r0 & R0). assert (X := proj2 (opt_converter_spec lie a2 None r0) R0).
      replace (match a2 with Some a => resolution_converter lie a None | None => Ok (None, false) end) with (@Ok (option Z * bool) (r0, false)) by (destruct a2; congruence). cbn [bind].
      apply context_spec in C. destruct C as (c0 & d & E3 & D & E6). rewrite E3. cbn [bind]. apply opt_int_spec in D.
      rewrite D. cbn [bind]. rewrite (read_interval_complete lie _ _ _ _ _ _ R0 A). cbn [bind]. rewrite E6. reflexivity.
  Qed.

  (** Where the process may end *)
  Lemma parse_sig_ub s pos kw : NoDup (map fst kw) -> parse_sig_args lie get_context get_type s pos kw = UB ->
    exists first sup res ctx depth dtype, arguments lie sig_names 3 pos kw [first; sup; res; ctx; depth; dtype] /\
      ((exists d, first = Some (ADyadic lie d) /\ forall i, ~ real_of d i) \/
       ctx = None /\ ((exists d, or_int lie depth 0 d /\ d < 0) \/ (exists n, dtype = Some (AStr lie n) /\ get_type n = None) \/ type_asked lie (py_type lie s) dtype TNoContext)).
  Proof.
    intros N. unfold parse_sig_args. destruct (parse_args lie sig_names 3 pos kw) as [l| | |] eqn:E; cbn [bind]; try discriminate; [|destruct (parse_args_not lie sig_names 3 pos kw); congruence].
    apply parse_args_spec in E; auto. assert (L := proj1 (proj2 E)). destruct l as [|a0 [|a1 [|a2 [|a3 [|a4 [|a5 [|]]]]]]]; try discriminate L. unfold nth_arg. cbn [nth]. intros H.
    exists a0, a1, a2, a3, a4, a5. split; auto.
    assert (X : forall a : option arg, (match a with None => Ok (None, false) | Some a => resolution_converter lie a None end) <> UB) by (intros [a|]; [apply (converter_not lie a None)|discriminate]).
    destruct (match a2 with None => Ok (None, false) | Some a => resolution_converter lie a None end) as [[r e]| | |] eqn:E2; cbn [bind] in H; try discriminate; [|destruct (X a2 E2)]. clear X.
    destruct (match a3 with None => Ok None | Some (ACtx _ c) => Ok (Some c) | Some _ => Throw end) as [c0| | |] eqn:E3; cbn [bind] in H; try discriminate; [|destruct a3 as [[]|]; discriminate].
    destruct (match a4 with None => Ok 0 | Some a => int_arg lie e a end) as [d| | |] eqn:E4; cbn [bind] in H; try discriminate; [|destruct a4 as [a4|]; [destruct (int_arg_not lie e a4); congruence|discriminate]].
    destruct (read_interval lie a0 a1 r) as [[[i' r'] e']| | |] eqn:E5; cbn [bind] in H; try discriminate.
    - right. apply ctx_arg_spec in E3. destruct E3 as [[-> ->]|(x & -> & ->)]; [|cbn [bind] in H; destruct (e || e'); discriminate]. split; auto.
      assert (D : or_int lie a4 0 d) by (apply opt_int_spec; destruct a4; auto; eapply int_arg_weak; eauto).
      destruct ((d =? 0) && match a5 with None => true | Some _ => false end); [cbn [bind] in H; destruct (e || e'); discriminate|].
      destruct (read_dtype lie get_type s a5) as [t| | |] eqn:T; cbn [bind] in H; try discriminate.
      + destruct (Z_lt_ge_dec d 0); [left; eauto|]. right. right. apply read_dtype_spec in T. unfold get_alike in H. destruct (Z.ltb_spec d 0); [lia|]. destruct t; cbn [bind] in H; try (destruct (e || e'); discriminate). auto.
      + right. left. destruct a5 as [[]|]; try discriminate. exists s0. split; auto. cbn in T. destruct (get_type s0); [discriminate|auto].
    - left. apply read_interval_ub in E5. destruct E5 as (dd & -> & U). exists dd. split; auto. intros i Hi. apply of_dyadic_spec in Hi. congruence.
  Qed.

  Variable is_zero : lie -> bool.
  Variable none : lie.
  Lemma dispatch_spec fuel s c i r x : dispatch lie is_zero none fuel (py_s lie s) c (mkSA lie i r x) = ask is_zero none fuel (py_s lie s) (pc_ctx lie x) c (query_for lie (py_s lie s) i r).
  Proof. destruct i, r; reflexivity. Qed.
  Lemma log_signature_means fuel s c pos kw i r x : parse_sig_args lie get_context get_type s pos kw = Ok (mkSA lie i r x) ->
    py_log_signature lie is_zero none get_context get_type fuel s c pos kw = ask is_zero none fuel (py_s lie s) (pc_ctx lie x) c (query_for lie (py_s lie s) i r).
  Proof. intros H. unfold py_log_signature. rewrite H. cbn [bind]. apply dispatch_spec. Qed.

  (** *** Derivatives *)
  Lemma as_interval_spec a i : as_interval lie a = Ok (Some i) <-> any_interval lie a i.
  Proof.
    split.
    - destruct a; cbn [as_interval]; try discriminate.
      + intros [= <-]. constructor. constructor.
      + intros H. apply bind_ok in H. destruct H as (j & E & [= <-]). apply of_dyadic_spec in E. constructor. constructor. auto.
      + intros [= <-]. apply V_partition.
      + intros [= <-]. apply V_other.
    - intros H. inversion H as [b j X| |]; subst; try reflexivity. inversion X as [|d j D]; subst; cbn [as_interval]; [reflexivity|]. apply of_dyadic_spec in D. rewrite D. reflexivity.
  Qed.
  Lemma pair_spec l p : pair_arg lie l = Ok p <-> pair lie (ATuple lie l) p.
  Proof.
    unfold pair. split.
    - destruct l as [|a [|b [|]]]; cbn [pair_arg]; try discriminate; [|destruct b; discriminate]. destruct b; try discriminate. intros H. apply bind_ok in H. destruct H as ([i|] & E & H); [|discriminate]. injection H as <-.
      exists a. split; auto. apply as_interval_spec. auto.
    - intros (b & [= ->] & H). cbn [pair_arg]. apply as_interval_spec in H. rewrite H. cbn [bind]. destruct p; reflexivity.
  Qed.
  Lemma pairs_spec l : forall ps, pairs_arg lie l = Ok ps <-> Forall2 (pair lie) l ps.
  Proof.
    induction l as [|a l IH]; intros ps.
    - cbn. split; [intros [= <-]; constructor|]. intros H. inversion H. reflexivity.
    - split.
      + cbn [pairs_arg]. destruct a; try discriminate. intros H. apply bind_ok in H. destruct H as (p & E & H). apply bind_ok in H. destruct H as (qs & E' & [= <-]). constructor; [apply pair_spec; auto|apply IH; auto].
      + intros H. inversion H as [|? p ? qs P Q]; subst. assert (P' := P). destruct P' as (b & -> & _). cbn [pairs_arg]. apply pair_spec in P. rewrite P. cbn [bind]. apply IH in Q. rewrite Q. reflexivity.
  Qed.
  Definition dirs (a : arg) (second : option arg) : outcome (list (ri * lie)) :=
    let! i := as_interval lie a in
    match i, second with
    | Some i, Some (ALie _ x) => Ok [(i, x)]
    | _, _ =>
        match a with
        | ATuple _ [x; y] => let! p := pair_arg lie [x; y] in Ok [p]
        | ATuple _ (x :: l) | AList _ (x :: l) => pairs_arg lie (x :: l)
        | _ => Throw
        end
    end.
  Lemma dirs_spec a o d : dirs a o = Ok d <-> directions lie a o d.
  Proof.
    assert (NT : forall l i, ~ any_interval lie (ATuple lie l) i) by (intros l i H; inversion H as [? ? X| |]; subst; inversion X).
    assert (NL : forall l i, ~ any_interval lie (AList lie l) i) by (intros l i H; inversion H as [? ? X| |]; subst; inversion X).
    split.
    - unfold dirs. intros H. apply bind_ok in H. destruct H as (i & E & H). destruct i as [i|].
      + apply as_interval_spec in E. destruct o as [[]|]; try (exfalso; destruct a; try discriminate; [eapply NT; exact E|eapply NL; exact E]). injection H as <-. constructor. auto.
      + assert (H' : (match a with
        | ATuple _ [x; y] => let! p := pair_arg lie [x; y] in Ok [p]
        | ATuple _ (x :: l) | AList _ (x :: l) => pairs_arg lie (x :: l)
        | _ => Throw
        end) = Ok d) by (destruct o as [[]|]; exact H). clear H. destruct a; try discriminate.
        * destruct l as [|a0 [|a1 [|a2 l]]]; try discriminate.
          { apply pairs_spec in H'. apply D_tuple; [discriminate|auto]. }
          { apply bind_ok in H'. destruct H' as (p & P & [= <-]). apply pair_spec in P. apply D_pair. auto. }
          { apply pairs_spec in H'. apply D_tuple; [discriminate|auto]. }
        * destruct l as [|a0 l]; [discriminate|]. apply pairs_spec in H'. apply D_list. auto.
    - intros H. inversion H as [b i x V|b o' p P|b l o' ps L F|b l o' ps F]; subst; unfold dirs.
      + apply as_interval_spec in V. rewrite V. reflexivity.
      + assert (P' := P). destruct P' as (b & -> & _). apply pair_spec in P. cbn [as_interval bind]. rewrite P. cbn [bind]. destruct o as [[]|]; reflexivity.
      + apply pairs_spec in F. cbn [as_interval bind]. destruct l as [|b1 [|b2 l]]; cbn [length] in L; try congruence; destruct o as [[]|]; exact F.
      + apply pairs_spec in F. cbn [as_interval bind]. destruct o as [[]|]; exact F.
  Qed.
  Lemma parse_deriv_spec s pos kw d r c : NoDup (map fst kw) -> (parse_deriv lie get_context s pos kw = Ok (mkDA lie d r c) <->
    exists first second res depth, arguments lie deriv_names 3 pos kw [first; second; res; depth] /\ derivative_asked lie get_context s first second res depth d r c).
  Proof.
    intros N. unfold parse_deriv. split.
    - intros H. apply bind_ok in H. destruct H as (l & E & H). apply parse_args_spec in E; auto. assert (L := proj1 (proj2 E)).
      destruct l as [|a0 [|a1 [|a2 [|a3 [|]]]]]; try discriminate L. unfold nth_arg in H. cbn [nth] in H. exists a0, a1, a2, a3. split; auto. destruct a0 as [a|]; [|discriminate].
      apply bind_ok in H. destruct H as (r0 & E2 & H). apply bind_ok in H. destruct H as (n & E3 & H). apply bind_ok in H. destruct H as (c' & E4 & H).
      apply opt_int_spec in E2, E3.
      assert (C : or_int lie a3 (-1) (-1) /\ c' = mkPC lie (st_ctx (py_s lie s)) (py_ctype lie s) \/ exists n, or_int lie a3 (-1) n /\ 0 <= n /\ py_ctype lie s <> TNoContext /\ c' = mkPC lie (get_context (cx_width (st_ctx (py_s lie s))) n (py_ctype lie s)) (py_ctype lie s)).
      { destruct (Z.eqb_spec n (-1)) as [->|Hn]; [left; injection E4 as <-; auto|]. right. apply get_alike_spec in E4. destruct E4 as (? & ? & ->). exists n. auto. }
      set (t := match a1 with Some (AInt _ z) => _ | x => _ end) in H. destruct t as [[second r1] e] eqn:Et. subst t.
      apply bind_ok in H. destruct H as (i & Ei & H). apply bind_ok in H. destruct H as (d' & Ed & H). destruct e; [discriminate|]. injection H as <- <- <-.
      assert (Dd : directions lie a second d') by (apply dirs_spec; unfold dirs; rewrite Ei; exact Ed).
      eapply DA; eauto. destruct a1 as [[]|]; cbn in Et; try (injection Et as <- <-; right; split; [intros; discriminate|auto]).
      left. unfold as_long in Et. destruct ((- 2 ^ 63 <=? z) && (z <? 2 ^ 63)) eqn:B; [|discriminate]. injection Et as <- <-. exists z. split; auto. split; auto. destruct (to_int_spec z). constructor; auto. lia.
    - intros (a0 & a1 & a2 & a3 & E & A). apply parse_args_spec in E; auto. rewrite E. cbn [bind]. unfold nth_arg. cbn [nth].
      inversion A as [a o d' r0 r' c' -> R S D C]; subst. apply opt_int_spec in R. rewrite R. cbn [bind].
      apply dirs_spec in D. unfold dirs in D. apply bind_ok in D. destruct D as (i & Ei & Ed).
      assert (Ec : exists n, (match a3 with None => Ok (-1) | Some a => int_arg lie false a end) = Ok n /\ (if n =? -1 then Ok (mkPC lie (st_ctx (py_s lie s)) (py_ctype lie s)) else get_alike lie get_context s n (py_ctype lie s)) = Ok c).
      { destruct C as [[C ->]|(n & C & Hn & Ht & ->)]; apply opt_int_spec in C; [exists (-1)|exists n]; (split; [exact C|]); [reflexivity|]. replace (n =? -1) with false by lia. apply get_alike_spec. auto. }
      destruct Ec as (n & En & Ec). rewrite En. cbn [bind]. rewrite Ec. cbn [bind].
      destruct S as [(z & -> & Rz & ->)|(NI & -> & ->)].
      + inversion Rz; subst. unfold as_long. replace ((- 2 ^ 63 <=? z) && (z <? 2 ^ 63)) with true by lia. rewrite (to_int_unique z r); auto. rewrite Ei. cbn [bind]. rewrite Ed. reflexivity.
      + destruct a1 as [a1|]; [destruct a1; try (exfalso; eapply NI; reflexivity)|]; rewrite Ei; cbn [bind]; rewrite Ed; reflexivity.
  Qed.
End P.
