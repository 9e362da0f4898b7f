(** Scalars: programs follow the ideal. *)
From Verif Require Export SclVal.
Open Scope Z_scope.

Section Ref.
  Variable V : Type.
  Variable conv : sty -> sty -> V -> option V.
  Variable op : sop -> sty -> V -> V -> V.
  Variable quot : sty -> V -> sty -> V -> outcome V.
  Variable zero : sty -> V.
  Variable bits0 : sty -> V -> bool.
  Variable R : Type.
  Variable rop : sop -> R -> R -> R.
  Variable r0 : R.
  Variable den : sty -> V -> R.
  Hypothesis SV : sound_values conv op zero bits0 rop r0 den.
  Notation mem := (mem V).
  Notation scalar := (scalar V).
  Notation means := (means r0 den).
  Notation stp := (step conv op quot zero bits0).
  Notation ist := (istep rop r0 den).
  Variable n : nat.

  (** A scalar and its ideal. *)
  Definition like (m : mem) (s : scalar) (x : option (ideal R)) : Prop :=
    match s, x with
    | Null, None => True
    | Scl _ _ (COpaque (Some p)), Some (View b q) => b = false /\ p = q
    | Scl _ _ (CConstOpaque (Some p)), Some (View b q) => b = true /\ p = q
    | Scl _ _ (COpaque _), _ | Scl _ _ (CConstOpaque _), _ => False
    | Scl _ _ _, Some (Val y) => exists t v, holds m s t v /\ den t v = y
    | _, _ => False
    end.
  Definition cells_like (m : mem) (cs : list R) : Prop := length cs = n /\ forall p, (p < n)%nat -> exists t v, nth_error m p = Some (Some (t, v)) /\ den t v = nth p cs r0.
  Definition follows (m : mem) (env : list scalar) (st : list R * list (option (ideal R))) : Prop :=
    cells_like m (fst st) /\ length (snd st) = length env /\ forall i, like m (nth i env Null) (nth i (snd st) None).

  Lemma like_means (m : mem) env st i : Forall (good n m) env -> follows m env st -> means m (nth i env Null) (ivalue r0 st i).
  Proof.
    intros G (C & L & H). specialize (H i). pose proof (good_nth n m env i G) as Gi. unfold ivalue.
    assert (Vw : forall t q, (q < n)%nat -> at_cell m t q -> exists v, nth_error m q = Some (Some (t, v)) /\ nth q (fst st) r0 = den t v).
    { intros t q Hq (v & E). destruct C as [_ C]. destruct (C q Hq) as (t' & v' & E' & D). rewrite E in E'. injection E' as <- <-. eauto. }
    destruct (nth i env Null) as [|o t [x|x|[p|]|[p|]|[p|]]], (nth i (snd st) None) as [[y|b q]|]; cbn [like good] in *; try contradiction; try reflexivity.
    - destruct H as (t' & v' & H & <-). exists t', v'. auto.
    - destruct H as [-> ->]. destruct Gi as (_ & Hq & A). destruct (Vw t q Hq A) as (v & E & ->). exists t, v. cbn [holds]. auto.
    - destruct H as [-> ->]. destruct Gi as (_ & Hq & A). destruct (Vw t q Hq A) as (v & E & ->). exists t, v. cbn [holds]. auto.
    - destruct H as (t' & v' & H & <-). exists t', v'. auto.
  Qed.
  Lemma like_frame (m m' : mem) s x : good n m s -> like m s x -> (forall p, owned s = Some p -> nth_error m' p = nth_error m p) -> like m' s x.
  Proof.
    destruct s as [|o t [w|w|[p|]|[p|]|[p|]]], x as [[y|b q]|]; cbn [like good]; auto; try contradiction. intros G (t' & v' & H & D) F. exists t', v'. split; auto.
    cbn [holds] in *. rewrite F by reflexivity. auto.
  Qed.
  Lemma like_own (m : mem) s t v : good n m s -> holds m s t v -> target s = None -> ~ constant s -> like m s (Some (Val (den t v))).
  Proof. destruct s as [|o u [w|w|[p|]|[p|]|[p|]]]; cbn [like good target constant]; intros G H T C; try contradiction; try discriminate; eauto. Qed.
  Lemma like_none (m : mem) s : like m s None -> s = Null.
  Proof. destruct s as [|o u [w|w|[p|]|[p|]|[p|]]]; cbn [like]; auto; contradiction. Qed.
  Lemma follow_push (m m' : mem) env st r x : Forall (good n m) env -> (n <= length m)%nat -> follows m env st -> effect n m Null m' r -> like m' r x -> follows m' (env ++ [r]) (ipush st x).
  Proof.
    intros G Hn (C & L & H) E Hx. assert (F : forall p, (p < length m)%nat -> nth_error m' p = nth_error m p) by (intros p Hp; apply (ef_frame _ _ _ _ _ E); auto; discriminate).
    split; [|split].
    - destruct C as [C1 C2]. split; auto. cbn [ipush fst]. intros p Hp. destruct (C2 p Hp) as (t & v & Ev & D). exists t, v. rewrite F by lia. auto.
    - cbn [ipush snd]. rewrite !app_length. cbn. lia.
    - intros i. cbn [ipush snd]. destruct (Nat.lt_ge_cases i (length env)) as [Hi|Hi].
      + rewrite !app_nth1 by lia. apply like_frame with (m := m); auto; [apply good_nth; auto|]. intros p Hp. apply F. eapply good_owned; [apply good_nth; eauto|eauto].
      + destruct (Nat.eq_dec i (length env)) as [->|Ne].
        * rewrite app_nth2, Nat.sub_diag by lia. rewrite <- L, app_nth2, Nat.sub_diag by lia. auto.
        * rewrite !nth_overflow by (rewrite app_length; cbn; lia). exact I.
  Qed.
  Lemma follow_own (m m' : mem) env st i s' x : sound_memory n m env -> (i < length env)%nat -> follows m env st -> target (nth i env Null) = None -> effect n m (nth i env Null) m' s' -> like m' s' x ->
    follows m' (set_at i s' env) (fst st, set_at i x (snd st)).
  Proof.
    intros S Hi (C & L & H) T E Hx. pose proof (sound_len _ _ _ S) as Hn. assert (Gi : forall j, good n m (nth j env Null)) by (intros j; apply good_nth; apply S).
    split; [|split]; cbn [fst snd].
    - destruct C as [C1 C2]. split; auto. intros p Hp. destruct (C2 p Hp) as (t & v & Ev & D). exists t, v. rewrite (ef_frame _ _ _ _ _ E); auto; [lia| |congruence].
      intros Ho. apply (good_owned _ _ _ _ (Gi i)) in Ho. lia.
    - rewrite !set_at_len. auto.
    - intros j. destruct (Nat.eq_dec j i) as [->|Ne]; [rewrite !set_at_same by lia; auto|]. rewrite !set_at_other by auto. apply like_frame with (m := m); auto.
      intros p Hp. apply (ef_frame _ _ _ _ _ E); [eapply good_owned; [apply Gi|eauto]| |congruence]. intros Ho. apply Ne. eapply (sm_unique _ _ _ _ S); eauto.
  Qed.
  Lemma follow_view (m m' : mem) env st i p s' t v : sound_memory n m env -> (i < length env)%nat -> follows m env st -> target (nth i env Null) = Some p -> ~ constant (nth i env Null) ->
    effect n m (nth i env Null) m' s' -> target s' = Some p -> ~ constant s' -> holds m' s' t v ->
    follows m' (set_at i s' env) (set_at p (den t v) (fst st), snd st).
  Proof.
    intros S Hi (C & L & H) T Cs E T' Cs' Hh. pose proof (sound_len _ _ _ S) as Hn. assert (Gi : forall j, good n m (nth j env Null)) by (intros j; apply good_nth; apply S).
    pose proof (good_target _ _ _ _ (Gi i) T) as [Hp Hpl].
    assert (Es' : exists o, s' = Scl o t (COpaque (Some p)) /\ nth_error m' p = Some (Some (t, v))).
    { destruct s' as [|o u [w|w|[q|]|[q|]|[q|]]]; cbn [target constant holds] in *; try discriminate; try contradiction; try (destruct Cs'; exact I). injection T' as ->. destruct Hh as [-> Hh]. eauto. }
    destruct Es' as (o' & -> & Ep). split; [|split]; cbn [fst snd].
    - destruct C as [C1 C2]. split; [rewrite set_at_len; auto|]. intros q Hq. destruct (Nat.eq_dec q p) as [->|Ne]; [exists t, v; rewrite set_at_same by lia; auto|].
      rewrite set_at_other by auto. destruct (C2 q Hq) as (t1 & v1 & Ev & D). exists t1, v1. rewrite (ef_frame _ _ _ _ _ E); auto; [lia| |congruence].
      intros Ho. apply (good_owned _ _ _ _ (Gi i)) in Ho. lia.
    - rewrite !set_at_len. auto.
    - intros j. destruct (Nat.eq_dec j i) as [->|Ne].
      + rewrite set_at_same by lia. specialize (H i). destruct (nth i env Null) as [|o u [w|w|[q|]|[q|]|[q|]]]; cbn [target constant] in *; try discriminate; try (destruct Cs; exact I). injection T as ->.
        destruct (nth i (snd st) None) as [[y|b q']|]; cbn [like] in *; auto.
      + rewrite set_at_other by auto. apply like_frame with (m := m); auto.
        intros q Hq. apply (ef_frame _ _ _ _ _ E); [eapply good_owned; [apply Gi|eauto]| |].
        * intros Ho. apply Ne. eapply (sm_unique _ _ _ _ S); eauto.
        * intros Ht. apply (good_target _ _ _ _ (Gi i)) in Ht. apply (good_owned _ _ _ _ (Gi j)) in Hq. lia.
  Qed.
  Lemma set_at_id {A} i (d : A) : forall l, set_at i (nth i l d) l = l.
  Proof. induction i as [|i IH]; intros [|x l]; cbn [set_at nth]; auto. f_equal. auto. Qed.
  Lemma op_assign_constant o (m : mem) s other : (n <= length m)%nat -> good n m s -> good n m other -> apart V s other -> constant s ->
    op_assign conv op zero bits0 o m s other = Throw \/ op_assign conv op zero bits0 o m s other = Ok (m, s).
  Proof.
    intros Hn G G' A C. assert (N : s <> Null) by (intros ->; exact C). destruct (good_holds n m s G N) as (t & v & H).
    assert (Ip : fast_is_zero bits0 other = false -> inplace conv op zero o m s other = Throw).
    { intros F. assert (N' : other <> Null) by (intros ->; discriminate). destruct (good_holds n m other G' N') as (t' & w & H').
      destruct (inplace_ok V conv op zero n o m s other t v t' w Hn G G' A H H') as [[_ X]|[X _]]; [auto|contradiction]. }
    assert (Zc : assign_zero conv zero m s = Throw).
    { destruct (assign_zero_ok V conv zero n m s t v Hn G H) as [[X _]|[X _]]; [auto|contradiction]. }
    unfold op_assign. destruct o.
    1,2: destruct (fast_is_zero bits0 other) eqn:F; auto.
    destruct (fast_is_zero bits0 s || fast_is_zero bits0 other) eqn:F; [auto|]. apply orb_false_iff in F. left. apply Ip. tauto.
  Qed.
  Lemma assign_constant (m : mem) s other : good n m s -> good n m other -> other <> Null -> constant s -> assign conv zero bits0 m s other = Throw.
  Proof.
    intros G G' N' C. assert (N : s <> Null) by (intros ->; exact C). destruct (good_holds n m s G N) as (t & v & H). destruct (good_holds n m other G' N') as (t' & w & H').
    unfold assign. rewrite (holds_ti _ _ _ _ H), (holds_ti _ _ _ _ H'). cbn [bind]. rewrite (holds_value _ _ _ _ H'). cbn [bind]. rewrite (holds_value _ _ _ _ H). cbn [bind].
    destruct s as [|o u [x|x|[p|]|[p|]|[p|]]]; cbn [constant good] in *; try contradiction. reflexivity.
  Qed.
  (** Writing into scalar [i]: all cases at once. *)
  Lemma follow_write (m : mem) env st i r y : sound_memory n m env -> (i < length env)%nat -> follows m env st ->
    (constant (nth i env Null) -> r = Throw \/ r = Ok (m, nth i env Null)) ->
    (~ constant (nth i env Null) -> exists m' s' t v, r = Ok (m', s') /\ effect n m (nth i env Null) m' s' /\ target s' = target (nth i env Null) /\ ~ constant s' /\ holds m' s' t v /\ den t v = y) ->
    exists m' env', recover (m, env) (let! x := r in Ok (fst x, set_at i (snd x) env)) = Ok (m', env') /\ follows m' env' (iwrite st i y).
  Proof.
    intros S Hi Fl Hc Hn. pose proof Fl as (C & L & H). pose proof (H i) as Hli. pose proof (good_nth n m env i (sm_good _ _ _ _ S)) as Gi.
    assert (D : constant (nth i env Null) \/ ~ constant (nth i env Null)) by (destruct (nth i env Null) as [|o u [x|x|[p|]|[p|]|[p|]]]; cbn; auto).
    destruct D as [D|D].
    - assert (Ei : iwrite st i y = st).
      { unfold iwrite. destruct (nth i env Null) as [|o u [x|x|[p|]|[p|]|[p|]]], (nth i (snd st) None) as [[z|b q]|]; cbn [like constant good] in *; try contradiction. destruct Hli as [-> _]. auto. }
      rewrite Ei. destruct (Hc D) as [->| ->]; cbn [bind recover fst snd]; [eauto|]. rewrite set_at_id. eauto.
    - destruct (Hn D) as (m' & s' & t & v & -> & E & T & Cs & Hh & <-). cbn [bind recover fst snd]. eexists; eexists. split; [reflexivity|]. unfold iwrite.
      destruct (target (nth i env Null)) as [p|] eqn:Ti.
      + assert (Ex : nth i (snd st) None = Some (View false p)).
        { destruct (nth i env Null) as [|o u [x|x|[q|]|[q|]|[q|]]], (nth i (snd st) None) as [[z|b q']|]; cbn [like constant good target] in *; try contradiction; try discriminate; try (destruct D; exact I). destruct Hli as [-> <-]. congruence. }
        rewrite Ex. eapply follow_view; eauto.
      + assert (Ex : match nth i (snd st) None with Some (View _ _) => False | _ => True end).
        { destruct (nth i env Null) as [|o u [x|x|[q|]|[q|]|[q|]]], (nth i (snd st) None) as [[z|b q']|]; cbn [like constant good target] in *; try contradiction; try discriminate; auto. }
        assert (R1 : follows m' (set_at i s' env) (fst st, set_at i (Some (Val (den t v))) (snd st))) by (eapply follow_own; eauto; apply like_own; auto; apply E).
        destruct (nth i (snd st) None) as [[z|b q']|]; [exact R1|contradiction|exact R1].
  Qed.
  Lemma step_follows (m : mem) env st c : sound_memory n m env -> follows m env st -> permitted conv zero quot n (m, env) c -> tracked (m, env) c ->
    exists m' env', stp (m, env) c = Ok (m', env') /\ follows m' env' (ist st c).
  Proof.
    intros S Fl P T. pose proof (sound_len _ _ _ S) as Hn. pose proof (sm_good _ _ _ _ S) as Gs. assert (G : forall i, good n m (nth i env Null)) by (intros i; apply good_nth; auto).
    assert (Mn : forall i, means m (nth i env Null) (ivalue r0 st i)) by (intros i; apply like_means; auto).
    assert (Dv : forall i t v, holds m (nth i env Null) t v -> ivalue r0 st i = den t v) by (intros i t v H; eapply means_fun; eauto).
    assert (Ps : forall m' r x, effect n m Null m' r -> like m' r x -> exists m2 env2, Ok (m', env ++ [r]) = Ok (m2, env2) /\ follows m2 env2 (ipush st x)).
    { intros m' r x E Hx. eexists; eexists. split; [reflexivity|]. eapply follow_push; eauto. }
    destruct c as [c t p|t v|i|o i j|o i j|i j|i j|i|i]; cbn [step permitted tracked istep] in *; try contradiction.
    - cbn [bind recover fst snd]. apply Ps; [|destruct c; cbn [like]; auto]. destruct P as (Hp & v & E). destruct (effect_refl n m Null I) as [A1 A2 A3 A4 A5 A6 A7]. constructor; auto.
      all: try (intros q x Hq Hc; apply live_lt in Hc; lia). all: try (destruct c; discriminate).
      destruct c; cbn [good]; repeat split; auto; exists v; auto.
    - rewrite P. cbn [bind recover fst snd]. destruct (inline_new n m false t v P) as (E & H & T1 & C1). apply Ps; auto. exists t, v. auto.
    - destruct (copy_ok V conv zero bits0 n m _ Hn (G i)) as (m' & r & X & E & Tr & Cr & Nr & Hv). rewrite X. cbn [bind recover fst snd]. apply Ps; auto.
      destruct Fl as (C & L & H). specialize (H i). destruct (nth i (snd st) None) as [x|] eqn:Ex.
      + assert (Ni : nth i env Null <> Null) by (intros N; rewrite N in H; exact H). destruct (good_holds n m _ (G i) Ni) as (t & v & Hh). destruct (Hv t v Hh) as (v' & Hr & Cv).
        rewrite (Dv i t v Hh), <- (copied_den _ _ _ _ _ _ _ _ _ SV _ _ _ Cv). apply like_own; auto. apply E.
      + apply like_none in H. rewrite (Nr H). exact I.
    - destruct (good_holds n m _ (G i) P) as (t & v & Hh). destruct (binary_value V conv op zero bits0 R rop r0 den SV n o m _ _ t v _ Hn (G i) (G j) Hh (Mn j)) as (m' & r & t2 & v2 & X & E & Tr & Cr & Hr & D & _).
      rewrite X. cbn [bind recover fst snd]. apply Ps; auto. rewrite (Dv i t v Hh), <- D. apply like_own; auto. apply E.
    - destruct P as [Hi P]. destruct (good_holds n m _ (G i) P) as (t & v & Hh). pose proof (env_apart V n m env i j S) as A. apply follow_write; auto.
      + intros C. apply op_assign_constant; auto.
      + intros C. destruct (op_assign_value V conv op zero bits0 R rop r0 den SV n o m _ _ t v _ Hn (G i) (G j) A Hh (Mn j) C T) as (m' & s' & t2 & v2 & X1 & X2 & X3 & X4 & X5 & X6 & _).
        exists m', s', t2, v2. rewrite (Dv i t v Hh). auto 10.
    - destruct P as [Hi P]. destruct (good_holds n m _ (G j) P) as (t' & w & Hh). destruct (Nat.eqb_spec i j) as [<-|Ne].
      + exists m, env. split; [reflexivity|]. unfold iwrite. destruct Fl as (C & L & H). pose proof (H i) as Hli. destruct (nth i (snd st) None) as [[y|[|] q]|] eqn:Ex.
        * replace (ivalue r0 st i) with y by (unfold ivalue; rewrite Ex; auto). rewrite <- Ex, set_at_id. split; auto.
        * split; auto.
        * replace (ivalue r0 st i) with (nth q (fst st) r0) by (unfold ivalue; rewrite Ex; auto). rewrite set_at_id. split; auto.
        * apply like_none in Hli. rewrite Hli in Hh. destruct Hh.
      + apply follow_write; auto.
        * intros C. left. apply assign_constant; auto.
        * intros C. destruct (assign_value V conv op zero bits0 R rop r0 den SV n m _ _ t' w Hn (G i) (G j) Hh C T) as (m' & s' & t2 & v2 & X1 & X2 & X3 & X4 & X5 & X6).
          exists m', s', t2, v2. rewrite (Dv j t' w Hh). auto 10.
    - destruct (destroy_ok n m _ Hn (G i)) as (m' & E & D & _). rewrite E. cbn [bind]. eexists; eexists. split; [reflexivity|].
      destruct (Nat.lt_ge_cases i (length env)) as [Hi|Hi].
      + assert (Dn : forall p, owned (nth i env Null) <> Some p -> nth_error m' p = nth_error m p).
        { intros p Ho. destruct (nth i env Null) as [|o u [x|x|[q|]|[q|]|[q|]]] eqn:Ei; cbn [destroy] in E; try (injection E as <-; reflexivity). pose proof (G i) as Gi. rewrite Ei in Gi. cbn [good] in Gi. destruct Gi as (-> & _ & y & Ey).
          rewrite (proj2 (load_ok m u q y)) in E by auto. cbn [bind] in E. injection E as <-. apply put_other. cbn [owned] in Ho. congruence. }
        destruct Fl as (C & L & H). split; [|split]; cbn [fst snd].
        * destruct C as [C1 C2]. split; auto. intros p Hp. destruct (C2 p Hp) as (t & v & Ev & Dd). exists t, v. rewrite Dn; auto. intros Ho. apply (good_owned _ _ _ _ (G i)) in Ho. lia.
        * rewrite !set_at_len. auto.
        * intros j. destruct (Nat.eq_dec j i) as [->|Ne]; [rewrite !set_at_same by lia; exact I|]. rewrite !set_at_other by auto. apply like_frame with (m := m); auto. intros p Hp. apply Dn.
          intros Ho. apply Ne. eapply (sm_unique _ _ _ _ S); eauto.
      + rewrite (nth_overflow env) in E by auto. cbn [destroy] in E. injection E as <-. pose proof Fl as (_ & L & _).
        assert (Id : forall A (x : A) l, (length l <= i)%nat -> set_at i x l = l).
        { clear. intros A x l. revert i. induction l as [|y l IH]; intros [|i] Hi; cbn [length set_at] in *; auto; try lia. f_equal. apply IH. lia. }
        rewrite !Id by lia. destruct st; exact Fl.
  Qed.
  Lemma run_follows l : forall (m : mem) env st, sound_memory n m env -> follows m env st ->
    along (fun x c => permitted conv zero quot n x c /\ tracked x c) stp (m, env) l ->
    exists m' env', run conv op quot zero bits0 (m, env) l = Ok (m', env') /\ sound_memory n m' env' /\ follows m' env' (fold_left ist l st).
  Proof.
    induction l as [|c l IH]; intros m env st S Fl P; cbn [run along fold_left] in *; [exists m, env; auto|]. destruct P as [[P1 T1] P2].
    destruct (step_sound V conv op quot zero bits0 n m env c S P1) as (m1 & env1 & E & S1). destruct (step_follows m env st c S Fl P1 T1) as (m2 & env2 & E2 & F2). rewrite E in E2. injection E2 as <- <-.
    rewrite E. cbn [bind]. apply IH; auto.
  Qed.
  Lemma program_values (m : mem) l cs : sound_memory n m [] -> cells_like m cs -> along (fun x c => permitted conv zero quot n x c /\ tracked x c) stp (m, []) l ->
    let st := fold_left ist l (cs, []) in
    exists m' env', run conv op quot zero bits0 (m, []) l = Ok (m', env') /\ sound_memory n m' env' /\
      (forall p, (p < n)%nat -> exists t v, nth_error m' p = Some (Some (t, v)) /\ den t v = nth p (fst st) r0) /\
      (forall i, means m' (nth i env' Null) (ivalue r0 st i)).
  Proof.
    intros S C P. destruct (run_follows l m [] (cs, []) S) as (m' & env' & E & S' & F); auto.
    - split; [exact C|]. split; [reflexivity|]. intros [|i]; exact I.
    - exists m', env'. split; [exact E|]. split; [exact S'|]. split; [apply F|]. intros i. apply like_means; [apply S'|exact F].
  Qed.
End Ref.
