(** Consequences for programs over free tensor objects: what objects show, equality, storage, laws of
    the algebra, and the calls that go wrong. *)
From Verif Require Export LhProofs Shuffle.
Open Scope Z_scope.

Section Laws.
  Variable R : qalg.
  Add Ring Rr10 : (rth (qr R)).
  Variable req : R -> R -> bool.
  Hypothesis Hreq : forall x y, req x y = true <-> x = y.
  Hypothesis R10 : @r1 R <> r0.
  Variables (w N : Z) (B : tbasis).
  Hypothesis HP : packs w N.
  Hypothesis HS : sized w N.
  Hypothesis HB : KeyModel.tensor_basis w N = Ok B.
  Hypothesis HN1 : 1 <= N.
  Variable ctxs : Z -> tbasis.
  Variable c0 : Z.
  Hypothesis Hc0 : ctxs c0 = B.
  Notation n := (Z.to_nat N).
  Notation tensor := (tens R Z).
  Notation tr := (trunc R w n).
  Notation k0 := (fun _ : Z => KNull).
  Notation t0 := (fun (_ : Z) (_ : list Z) => @r0 R).
  Let HT : tb_ok w N B := basis_unique w N B HP HB.
  Notation rep := (rep R w N B c0).
  Notation erep := (erep R w N B c0).

  Lemma start_rep : erep k0 (start R) t0.
  Proof. intros x. split; reflexivity. Qed.
  Lemma rep_shows k h t : rep k h t -> shows R w n req ctxs h t.
  Proof.
    intros H. split; [|split].
    - destruct (items_ok R req Hreq w N B HP HS HT HN1 ctxs c0 Hc0 k h t H) as (l & E & A1 & A2 & A3). exists l. split; [auto|]. split; [auto|]. split; [|auto].
      intros i x Hi. destruct (A2 i x Hi) as (u & B1 & B2 & B3 & _). eauto.
    - intros u Hu Hd. apply (get_ok R req w N B HP HS HT HN1 ctxs c0 Hc0 k h t u H Hu). rewrite <- (dense_flag R w N B HP c0 k h t H). auto.
    - apply (is_zero_ok R req Hreq w N B HP HS HT HN1 c0 k h t H).
  Qed.
  Notation cov p := (covered R w n req c0 p k0 t0).
  Notation res p := (srun R w n p t0).
  Notation kinds p := (krun R req p k0).
  Notation exec p e := (run R req ctxs p (start R) = Ok e).
  Lemma runs p : cov p -> exists e, exec p e /\ erep (kinds p) e (res p).
  Proof. intros Hp. apply (run_ok R req Hreq R10 w N B HP HS HT HN1 ctxs c0 Hc0 p k0 (start R) t0 Hp start_rep). Qed.
  Theorem programs p : cov p -> exists e, exec p e /\
    (forall x, shows R w n req ctxs (e x) (res p x) /\ h_dense R (e x) = kdense (kinds p x) /\ (e x = None <-> kinds p x = KNull)) /\
    (forall x y, exists r, h_eqb R req ctxs (e x) (e y) = Ok r /\ (r = true <-> forall u, res p x u = res p y u)).
  Proof.
    intros Hp. destruct (runs p Hp) as (e & E & H). exists e. split; [exact E|]. split.
    - intros x. split; [apply (rep_shows _ _ _ (H x))|]. split; [apply (dense_flag R w N B HP c0 _ _ _ (H x))|].
      assert (Hx := H x). destruct (kinds p x); cbn in Hx; [tauto|..]; destruct Hx as (d & -> & _); split; discriminate.
    - intros x y. apply (eqb_ok R req Hreq w N B HP HS HT HN1 ctxs c0 Hc0 (kinds p x) (kinds p y)); apply H.
  Qed.

  (** *** Storage *)
  Lemma same_srun p p' t : Forall2 (same_cmd R) p p' -> srun R w n p t = srun R w n p' t.
  Proof.
    intros H. revert t. induction H as [|c c' p p' Hc H IH]; intros t; [reflexivity|]. unfold srun. cbn [fold_left]. fold (srun R w n p (sstep R w n c t)). fold (srun R w n p' (sstep R w n c' t)).
    rewrite <- IH. f_equal. destruct c; cbn in Hc; [destruct c'; try tauto; destruct Hc as (-> & -> & -> & ->); reflexivity|..]; rewrite <- Hc; reflexivity.
  Qed.
  Theorem storage p p' : Forall2 (same_cmd R) p p' -> cov p -> cov p' -> exists e e', exec p e /\ exec p' e' /\ forall x, exists t, shows R w n req ctxs (e x) t /\ shows R w n req ctxs (e' x) t.
  Proof.
    intros Hs Hp Hp'. destruct (runs p Hp) as (e & E & H). destruct (runs p' Hp') as (e' & E' & H'). exists e, e'. split; [auto|]. split; [auto|]. intros x. exists (res p x).
    split; [apply (rep_shows _ _ _ (H x))|]. rewrite (same_srun p p' _ Hs). apply (rep_shows _ _ _ (H' x)).
  Qed.

  (** *** Laws *)
  Lemma covered_app p q k t : covered R w n req c0 p k t -> covered R w n req c0 q (krun R req p k) (srun R w n p t) -> covered R w n req c0 (p ++ q) k t.
  Proof. revert k t. induction p as [|c p IH]; intros k t Hp Hq; [auto|]. destruct Hp as [H1 H2]. split; [auto|]. apply IH; auto. Qed.
  Lemma covered_front p q k t : covered R w n req c0 (p ++ q) k t -> covered R w n req c0 p k t.
  Proof. revert k t. induction p as [|c p IH]; intros k t H; [exact I|]. destruct H as [H1 H2]. split; [auto|]. apply IH; auto. Qed.
  Lemma srun_app p q t : srun R w n (p ++ q) t = srun R w n q (srun R w n p t). Proof. apply fold_left_app. Qed.
  Lemma krun_app p q k : krun R req (p ++ q) k = krun R req q (krun R req p k). Proof. apply fold_left_app. Qed.
  Lemma kset_same (e : kenv) x k : kset e x k x = k. Proof. unfold kset. rewrite Z.eqb_refl. reflexivity. Qed.
  Lemma kset_other (e : kenv) x k y : y <> x -> kset e x k y = e y. Proof. intros H. unfold kset. apply Z.eqb_neq in H. rewrite H. reflexivity. Qed.
  Lemma sset_same (e : senv R) x k : sset R e x k x = k. Proof. unfold sset. rewrite Z.eqb_refl. reflexivity. Qed.
  Lemma sset_other (e : senv R) x k y : y <> x -> sset R e x k y = e y. Proof. intros H. unfold sset. apply Z.eqb_neq in H. rewrite H. reflexivity. Qed.
  Definition trd (t : tensor) : Prop := forall u, inside w n u = false -> t u = r0.
  Lemma law p q a b : cov p -> covered R w n req c0 q (kinds p) (res p) ->
    ((forall x, trd (res p x)) -> forall u, srun R w n q (res p) a u = srun R w n q (res p) b u) ->
    exists e, exec (p ++ q) e /\ h_eqb R req ctxs (e a) (e b) = Ok true.
  Proof.
    intros Hp Hq H. destruct (runs p Hp) as (e1 & _ & H1).
    destruct (programs (p ++ q) (covered_app p q _ _ Hp Hq)) as (e & E & _ & Q). exists e. split; [auto|]. destruct (Q a b) as (r & Er & Hr). rewrite Er. f_equal. apply Hr.
    rewrite srun_app. apply H. intros x u Hu. apply (rep_out R w N B HP c0 _ _ _ u (H1 x) Hu).
  Qed.
  Lemma tr_in f u : inside w n u = true -> tr f u = f u. Proof. intros H. unfold trunc. rewrite H. reflexivity. Qed.
  Lemma tr_agree f g u : (inside w n u = true -> f u = g u) -> tr f u = tr g u.
  Proof. intros H. unfold trunc. destruct (inside w n u); auto. Qed.
  Lemma conv_tr a b u : inside w n u = true -> conv (tr a) (tr b) u = conv a b u.
  Proof. intros Hu. apply (conv_in R w n); auto; intros v Hv _; apply tr_in; auto. Qed.
  Lemma conv_tr_l a b u : inside w n u = true -> conv (tr a) b u = conv a b u.
  Proof. intros Hu. apply (conv_in R w n); auto; intros v Hv _; apply tr_in; auto. Qed.
  Lemma conv_tr_r a b u : inside w n u = true -> conv a (tr b) u = conv a b u.
  Proof. intros Hu. apply (conv_in R w n); auto; intros v Hv _; apply tr_in; auto. Qed.
  Lemma tpow_in (x y : tensor) k u : inside w n u = true -> (forall v, inside w n v = true -> x v = y v) -> tpow x k u = tpow y k u.
  Proof. intros Hu H. revert u Hu. induction k as [|k IH]; intros u Hu; cbn [tpow]; [reflexivity|]. apply (conv_in R w n); auto. Qed.
  Lemma tpoly_in f (x y : tensor) u : inside w n u = true -> (forall v, inside w n v = true -> x v = y v) -> tpoly n f x u = tpoly n f y u.
  Proof. intros Hu H. unfold tpoly. apply sum_ext. intros k _. rewrite (tpow_in x y k u Hu H). reflexivity. Qed.
  Ltac sets := unfold srun; cbn [fold_left sstep sem1 sem2 isem1 isem2]; repeat first [rewrite sset_same | rewrite sset_other by congruence].
  Ltac ksets := cbn [covered may kstep kind1 kind2 ikind2 may1 may2 imay1 imay2]; repeat first [rewrite kset_same | rewrite kset_other by congruence].

  Notation equal p a b := (exists e, exec p e /\ h_eqb R req ctxs (e a) (e b) = Ok true).
  Ltac fresh_vars := repeat match goal with H : ~ In _ _ |- _ => cbn [In] in H | H : ~ (_ \/ _) |- _ => apply Decidable.not_or in H; destruct H | H : ~ False |- _ => clear H end.

  Theorem mul_assoc p x y z a b : cov p -> kinds p x <> KNull -> kinds p y <> KNull -> kinds p z <> KNull -> ~ In a [x; y; z] -> ~ In b [a; x; y; z] ->
    equal (p ++ [Op2 R a Times x y; Op2 R a Times a z; Op2 R b Times y z; Op2 R b Times x b]) a b.
  Proof.
    intros Hp Kx Ky Kz Ha Hb. fresh_vars. apply law; auto.
    - ksets. repeat split; auto; try (apply fresh_null; auto).
    - intros Ht u. set (t := res p) in *. sets. apply tr_agree. intros Hu. rewrite conv_tr_l, conv_tr_r by auto. apply (conv_assoc (qr R) Z _ _ _ u).
  Qed.
  (** x * (y + z) = x * y + x * z, by [add_mul] on the right *)
  Theorem mul_distr p x y z a b : cov p -> kinds p x <> KNull -> kinds p y <> KNull -> kinds p z <> KNull -> may2 Plus (kinds p y) (kinds p z) -> ~ In a [x; y; z] -> ~ In b [a; x; y; z] ->
    equal (p ++ [Op2 R a Plus y z; Op2 R a Times x a; Op2 R b Times x y; AddMul R b x z]) a b.
  Proof.
    intros Hp Kx Ky Kz M Ha Hb. fresh_vars. apply law; auto.
    - ksets. repeat split; auto. right; right. apply fresh_null; auto.
    - intros Ht u. set (t := res p) in *. sets. unfold trunc. destruct (inside w n u) eqn:Hu; [|ring]. apply (conv_add_r (qr R) Z _ _ _ u).
  Qed.
  Lemma nocst_exp (x : tensor) u : x [] = r0 -> nocst R (texp n x) u = tsub (texp n x) tone u.
  Proof. intros H. unfold tsub, tone. destruct u; cbn [nocst]; [rewrite texp_nil by auto; ring|ring]. Qed.
  Lemma log_tr (g : tensor) u : inside w n u = true -> tlog1p n (nocst R (tr g)) u = tlog1p n (nocst R g) u.
  Proof. intros Hu. apply tpoly_in; auto. intros v Hv. destruct v; [reflexivity|]. cbn [nocst]. apply tr_in. auto. Qed.
  Theorem log_exp p x a : cov p -> kinds p x <> KNull -> res p x [] = r0 -> a <> x ->
    equal (p ++ [Op1 R a (Exp R) x; Op1 R a (Log R) a]) a x.
  Proof.
    intros Hp Kx Hx Ha. apply law; auto.
    - ksets. auto.
    - intros Ht u. set (t := res p) in *. sets. unfold trunc at 1. destruct (inside w n u) eqn:Hu; [|symmetry; apply Ht; auto]. rewrite log_tr by auto.
      rewrite <- (tlog_texp R Z n (t x) u Hx) by (apply inside_iff in Hu; tauto). apply tpoly_in; auto. intros v Hv. apply nocst_exp; auto.
  Qed.
  Theorem exp_log p x a : cov p -> kinds p x <> KNull -> res p x [] = r1 -> a <> x ->
    equal (p ++ [Op1 R a (Log R) x; Op1 R a (Exp R) a]) a x.
  Proof.
    intros Hp Kx Hx Ha. apply law; auto.
    - ksets. repeat split; auto. apply fresh_null; auto.
    - intros Ht u. set (t := res p) in *. sets. unfold trunc at 1. destruct (inside w n u) eqn:Hu; [|symmetry; apply Ht; auto].
      rewrite <- (texp_tlog R Z n (t x) u Hx) by (apply inside_iff in Hu; tauto). apply tpoly_in; auto. intros v Hv. rewrite tr_in by auto. unfold tlog. apply tpoly_in; auto.
      intros v' Hv'. unfold tsub, tone. destruct v'; cbn [nocst]; [rewrite Hx; ring|ring].
  Qed.
  (** x.fmexp(y) = x * exp(y) *)
  Theorem fmexp_law p x y a b : cov p -> kinds p x <> KNull -> kinds p y <> KNull -> res p y [] = r0 -> ~ In a [x; y] -> ~ In b [a; x; y] ->
    equal (p ++ [Op1 R a (Copy R) x; Iop2 R a (Fmexp R) y; Op1 R b (Exp R) y; Op2 R b Times x b]) a b.
  Proof.
    intros Hp Kx Ky Hy Ha Hb. fresh_vars. apply law; auto.
    - ksets. repeat split; auto. apply fresh_null; auto.
    - intros Ht u. set (t := res p) in *. sets. apply tr_agree. intros Hu. rewrite conv_tr_r by auto. apply (conv_in R w n); auto. intros v Hv _. apply tpoly_in; auto. intros v' _. destruct v'; [symmetry; auto|reflexivity].
  Qed.

  (** *** The antipode *)
  Lemma run_app p q e e' : run R req ctxs p e = Ok e' -> run R req ctxs (p ++ q) e = run R req ctxs q e'.
  Proof. intros H. unfold run in *. rewrite for_app, H. reflexivity. Qed.
  Lemma one_step p c e : exec p e -> run R req ctxs (p ++ [c]) (start R) = step R req ctxs c e.
  Proof. intros H. rewrite (run_app p [c] _ e H). unfold run. cbn [for_]. destruct (step R req ctxs c e); reflexivity. Qed.
  Lemma law' p q a b : cov (p ++ q) -> ((forall x, trd (res p x)) -> forall u, srun R w n q (res p) a u = srun R w n q (res p) b u) ->
    exists e, exec (p ++ q) e /\ h_eqb R req ctxs (e a) (e b) = Ok true.
  Proof.
    intros Hq H. destruct (runs p (covered_front _ _ _ _ Hq)) as (e1 & _ & H1).
    destruct (programs (p ++ q) Hq) as (e & E & _ & Q). exists e. split; [auto|]. destruct (Q a b) as (r & Er & Hr). rewrite Er. f_equal. apply Hr.
    rewrite srun_app. apply H. intros x u Hu. apply (rep_out R w N B HP c0 _ _ _ u (H1 x) Hu).
  Qed.
  Lemma value_law p q a t : cov (p ++ q) -> ((forall x, trd (res p x)) -> forall u, srun R w n q (res p) a u = t u) ->
    exists e, exec (p ++ q) e /\ shows R w n req ctxs (e a) t.
  Proof.
    intros Hq H. destruct (runs p (covered_front _ _ _ _ Hq)) as (e1 & _ & H1).
    destruct (runs (p ++ q) Hq) as (e & E & H2). exists e. split; [auto|]. apply (rep_shows (kinds (p ++ q) a)). apply (rep_ext R w N B c0 _ _ (res (p ++ q) a)); [|apply H2].
    intros u. rewrite srun_app. apply H. intros x v Hv. apply (rep_out R w N B HP c0 _ _ _ v (H1 x) Hv).
  Qed.
  Lemma anti_nz (t : tensor) : (exists u, t u <> r0) -> exists u, anti t u <> r0.
  Proof.
    intros [u Hu]. exists (rev u). intros E. apply Hu. rewrite <- (anti_anti (qr R) Z t u). unfold anti at 1. rewrite E. ring.
  Qed.
  Lemma tr_anti (t : tensor) u : tr (anti t) u = anti (tr t) u.
  Proof. unfold anti, trunc. rewrite (inside_rev w N). destruct (inside w n u); [reflexivity|ring]. Qed.
  Lemma anti_ext (t t' : tensor) u : (forall v, t v = t' v) -> anti t u = anti t' u.
  Proof. intros H. unfold anti. rewrite H. reflexivity. Qed.
  Notation Anti := (Antipode R).
  Theorem antipode_twice p x a : cov p -> may1 R w n Anti (kinds p x) (res p x) -> a <> x ->
    equal (p ++ [Op1 R a Anti x; Op1 R a Anti a]) a x.
  Proof.
    intros Hp Hm Ha. apply law; auto.
    - split; [exact Hm|]. split; [|exact I]. cbn [may kstep sstep]. rewrite kset_same, sset_same. intros K. cbn [kind1 sem1] in *.
      destruct Hm as [Hn Hs]; [destruct (kinds p x); auto|]. split; [apply anti_nz; auto|auto].
    - intros Ht u. set (t := res p) in *. sets. apply (anti_anti (qr R) Z _ u).
  Qed.
  Theorem antipode_mul p x y a b c : ~ In a [x; y] -> ~ In b [a; x; y] -> ~ In c [b; a; x; y] ->
    let q := [Op2 R a Times x y; Op1 R a Anti a; Op1 R b Anti y; Op1 R c Anti x; Op2 R b Times b c] in cov (p ++ q) -> equal (p ++ q) a b.
  Proof.
    intros Ha Hb Hc q Hq. fresh_vars. apply law'; auto. intros Ht u. set (t := res p) in *. subst q. sets.
    rewrite <- tr_anti. apply tr_agree. intros Hu. apply (anti_conv (qr R) Z _ _ u).
  Qed.
  Theorem antipode_exp p x a b : a <> x -> ~ In b [a; x] ->
    let q := [Op1 R a (Exp R) x; Op1 R a Anti a; Op1 R b Anti x; Op1 R b (Exp R) b] in cov (p ++ q) -> equal (p ++ q) a b.
  Proof.
    intros Ha Hb q Hq. fresh_vars. apply law'; auto. intros Ht u. set (t := res p) in *. subst q. sets.
    rewrite <- tr_anti. apply tr_agree. intros Hu. apply (anti_tpoly R Z n (invfact R) (t x) u).
  Qed.
  (** exp x * exp (-x) = 1 *)
  Lemma pexp_neg k : pmul R (invfact R) (fun m => rmul (rpow (ropp r1) m) (invfact R m)) k = pone R k.
  Proof.
    destruct k as [|k]; [cbn; ring|]. apply (qinv_cancel R (S k)); [lia|].
    set (g := fun m => rmul (rpow (ropp r1) m) (invfact R m)).
    assert (G : forall m, pder R g m = ropp (g m)).
    { intros m. unfold pder, g. cbn [invfact rpow]. transitivity (rmul (rmul (rnat (S m)) (@qinv R (S m))) (ropp (rmul (rpow (ropp r1) m) (invfact R m)))); [ring|]. rewrite (qinv_ok R) by lia. ring. }
    transitivity (pder R (pmul R (invfact R) g) k); [reflexivity|]. rewrite pder_mul. unfold padd.
    assert (E1 : pmul R (pder R (invfact R)) g k = pmul R (invfact R) g k) by (apply pmul_proper; [apply pder_exp|reflexivity]).
    assert (E2 : pmul R (invfact R) (pder R g) k = ropp (pmul R (invfact R) g k)).
    { unfold pmul. rewrite <- sum_opp. apply sum_ext. intros i _. rewrite G. ring. }
    rewrite E1, E2. cbn [pone]. ring.
  Qed.
  Lemma tpow_neg (x y : tensor) k u : (forall v, y v = ropp (x v)) -> tpow y k u = rmul (rpow (ropp r1) k) (tpow x k u).
  Proof.
    intros H. revert u. induction k as [|k IH]; intros u; cbn [tpow rpow]; [ring|]. unfold conv. rewrite <- sum_mul_l. apply sum_ext. intros i _. rewrite H, IH. ring.
  Qed.
  Lemma exp_neg (x y : tensor) u : x [] = r0 -> (forall v, y v = ropp (x v)) -> (length u <= n)%nat -> conv (texp n x) (texp n y) u = tone u.
  Proof.
    intros H0 Hy Hu. rewrite <- (tpoly_one R Z n x u H0 Hu). transitivity (tpoly n (pmul R (invfact R) (fun m => rmul (rpow (ropp r1) m) (invfact R m))) x u).
    - rewrite tpoly_mul by auto. apply conv_ext; [reflexivity|]. intros v. unfold texp, tpoly. apply sum_ext. intros k _. rewrite (tpow_neg x y k v Hy). ring.
    - unfold tpoly. apply sum_ext. intros k _. rewrite pexp_neg. reflexivity.
  Qed.
  Lemma tr_one u : tr tone u = tone u.
  Proof. unfold trunc. destruct (inside w n u) eqn:Hu; [reflexivity|]. destruct u; [discriminate|reflexivity]. Qed.
  Theorem exp_inverse p x a b : cov p -> kinds p x <> KNull -> res p x [] = r0 -> a <> x -> ~ In b [a; x] ->
    exists e, exec (p ++ [Op1 R a (Exp R) x; Op1 R b (Neg R) x; Op1 R b (Exp R) b; Op2 R a Times a b]) e /\ shows R w n req ctxs (e a) tone.
  Proof.
    intros Hp Kx Hx Ha Hb. fresh_vars. apply value_law.
    - apply covered_app; auto. ksets. repeat split; auto; apply fresh_null; auto.
    - intros Ht u. set (t := res p) in *. sets. rewrite <- tr_one. apply tr_agree. intros Hu. rewrite conv_tr by auto. apply exp_neg; auto. apply inside_iff in Hu. tauto.
  Qed.
  (** The antipode of a group-like tensor is its inverse. *)
  Theorem antipode_inverse p x a b c : cov p -> kinds p x <> KNull -> (w < 2 ^ 16 \/ N <= 2) -> grouplike n (res p x) -> a <> x -> ~ In b [a; x] -> ~ In c [b; a; x] ->
    exists e, exec (p ++ [Op1 R a Anti x; Op2 R b Times a x; Op2 R c Times x a]) e /\ shows R w n req ctxs (e b) tone /\ shows R w n req ctxs (e c) tone.
  Proof.
    intros Hp Kx Hs Hg Ha Hb Hc. fresh_vars.
    assert (Hq : cov (p ++ [Op1 R a Anti x; Op2 R b Times a x; Op2 R c Times x a])).
    { apply covered_app; auto. ksets. repeat split; auto; try (apply fresh_null; auto); [|lia]. exists []. destruct Hg as [-> _]. auto. }
    destruct (value_law p _ b tone Hq) as (e & E & Sb).
    { intros Ht u. set (t := res p) in *. sets. rewrite <- tr_one. apply tr_agree. intros Hu. apply (grouplike_inverse_l (qr R) Z n); auto. apply inside_iff in Hu. tauto. }
    destruct (value_law p _ c tone Hq) as (e' & E' & Sc).
    { intros Ht u. set (t := res p) in *. sets. rewrite <- tr_one. apply tr_agree. intros Hu. apply (grouplike_inverse_r (qr R) Z n); auto. apply inside_iff in Hu. tauto. }
    exists e. rewrite E in E'. injection E' as <-. auto.
  Qed.
  (** The exponential of a primitive tensor is group-like. *)
  Lemma tpow_bad (t : tensor) k u : trd t -> (length u <= n)%nat -> inside w n u = false -> tpow t k u = r0.
  Proof.
    intros Ht. revert u. induction k as [|k IH]; intros u Hl Hu; cbn [tpow].
    - destruct u; [discriminate|reflexivity].
    - unfold conv. apply sum_zero. intros i Hi. apply in_seq in Hi. destruct (inside w n (firstn i u)) eqn:H1; [|rewrite Ht by auto; ring].
      destruct (inside w n (skipn i u)) eqn:H2.
      + exfalso. apply inside_iff in H1, H2. assert (X : inside w n u = true); [|congruence]. apply inside_iff. split; auto. rewrite <- (firstn_skipn i u). apply Forall_app. tauto.
      + rewrite IH; auto; [ring|]. rewrite skipn_length. lia.
  Qed.
  Lemma grouplike_exp_tr (t : tensor) : trd t -> primitive n t -> grouplike n (tr (texp n t)).
  Proof.
    intros Ht Hp. apply grouplike_local with (g := texp n t); [|apply grouplike_exp; auto].
    intros u Hl. unfold trunc. destruct (inside w n u) eqn:Hu; [reflexivity|]. unfold texp, tpoly. apply sum_zero. intros k _. rewrite tpow_bad by auto. ring.
  Qed.
  (** The antipode of a dense tensor without data reads its first coefficient. *)
  Theorem antipode_empty p x z : cov p -> kdense (kinds p x) = true -> exists e, exec p e /\ (h_dimension R (e x) = 0 -> run R req ctxs (p ++ [Op1 R z Anti x]) (start R) = UB).
  Proof.
    intros Hp Kx. destruct (runs p Hp) as (e & E & H). exists e. split; [auto|]. intros Hd. rewrite (one_step p _ e E).
    assert (Nk : kinds p x <> KNull) by (destruct (kinds p x); discriminate). destruct (rep_some R w N B c0 _ _ _ Nk (H x)) as (d & Ex & Hdd). destruct (drep_dense R w N B HP _ d _ Kx Hdd) as (v & -> & Sv & _).
    cbn [step do1]. rewrite Ex in *. cbn in Hd. unfold h_antipode, impl1. cbn [im_ctx im_data]. rewrite Hc0. unfold td_antipode. cbn [un].
    rewrite (antipode_no_data R w N B HP HT v Sv Hd). reflexivity.
  Qed.

  (** *** Calls that go wrong *)
  (** A product with a null object is the other factor ... *)
  Theorem mul_null p x y z : cov p -> kinds p y = KNull -> ~ (forall u, res p x u = r0) ->
    exists e, exec (p ++ [Op2 R z Times x y]) e /\ h_is_zero R req (e z) = false /\ (x <> z -> h_eqb R req ctxs (e z) (e x) = Ok true).
  Proof.
    intros Hp Ky Hx. destruct (runs p Hp) as (e & E & H). exists (set_ R e z (e x)).
    assert (Hy := H y). rewrite Ky in Hy. destruct Hy as [Ey _]. assert (Sz : forall h, set_ R e z h z = h) by (intros h; unfold set_; rewrite Z.eqb_refl; reflexivity).
    split; [rewrite (one_step p _ e E); cbn [step do2 h_mul]; rewrite Ey; reflexivity|]. rewrite Sz. split.
    - destruct (h_is_zero R req (e x)) eqn:Z; [|reflexivity]. exfalso. apply Hx. apply (is_zero_ok R req Hreq w N B HP HS HT HN1 c0 _ _ _ (H x)). exact Z.
    - intros Hne. unfold set_. destruct (Z.eqb_spec x z); [congruence|]. destruct (eqb_ok R req Hreq w N B HP HS HT HN1 ctxs c0 Hc0 _ _ _ _ _ _ (H x) (H x)) as (r & Er & Hr). rewrite Er. f_equal. apply Hr. auto.
  Qed.
  (** ... and the exponential of a null object is null. *)
  Theorem exp_null p x z : cov p -> kinds p x = KNull -> exists e, exec (p ++ [Op1 R z (Exp R) x]) e /\ h_is_zero R req (e z) = true /\ tr (texp n (res p x)) [] = r1.
  Proof.
    intros Hp Kx. destruct (runs p Hp) as (e & E & H). assert (Hx := H x). rewrite Kx in Hx. destruct Hx as [Ex Tx]. exists (set_ R e z None).
    split; [rewrite (one_step p _ e E); cbn [step do1]; rewrite Ex; reflexivity|]. split; [unfold set_; rewrite Z.eqb_refl; reflexivity|].
    unfold trunc. cbn. apply texp_nil. auto.
  Qed.
  (** A null object on the left of a non-null one: a null context is followed. *)
  Theorem null_left p x y : cov p -> kinds p x = KNull -> kinds p y <> KNull ->
    (forall z o, run R req ctxs (p ++ [Op2 R z o x y]) (start R) = UB) /\
    (forall o, In o [IAdd R; ISub R; IMul R] -> run R req ctxs (p ++ [Iop2 R x o y]) (start R) = UB) /\
    (forall s, s <> r0 -> forall o, In o [AddSmul R s; SubSmul R s; MulSmul R s] -> run R req ctxs (p ++ [Iop2 R x o y]) (start R) = UB).
  Proof.
    intros Hp Kx Ky. destruct (runs p Hp) as (e & E & H). assert (Hx := H x). rewrite Kx in Hx. destruct Hx as [Ex Tx].
    destruct (rep_some R w N B c0 _ _ _ Ky (H y)) as (d & Ey & _). split; [|split].
    - intros z o. rewrite (one_step p _ e E). cbn [step]. rewrite Ex, Ey. destruct o; reflexivity.
    - intros o Ho. rewrite (one_step p _ e E). cbn [step]. rewrite Ex, Ey. cbn [In] in Ho. destruct Ho as [<-|[<-|[<-|[]]]]; reflexivity.
    - intros s Hs o Ho. assert (Es : req s r0 = false) by (destruct (req s r0) eqn:Z; auto; apply Hreq in Z; congruence).
      rewrite (one_step p _ e E). cbn [step]. rewrite Ex, Ey. cbn [In] in Ho. destruct Ho as [<-|[<-|[<-|[]]]]; cbn; rewrite Es; reflexivity.
  Qed.
  (** [x -= x] erases entries of the map it is going through. *)
  Theorem self_sub p x : cov p -> kinds p x = KSparse -> ~ (forall u, res p x u = r0) -> run R req ctxs (p ++ [Iop2 R x (ISub R) x]) (start R) = UB.
  Proof.
    intros Hp Kx Hz. destruct (runs p Hp) as (e & E & H). assert (Hx := H x). rewrite Kx in Hx. rewrite (one_step p _ e E). cbn [step]. rewrite Z.eqb_refl.
    assert (Z := is_zero_ok R req Hreq w N B HP HS HT HN1 c0 _ _ _ Hx). destruct Hx as (d & Ed & Hd). destruct Hd as (v & -> & Sv & C). rewrite Ed in *. cbn [h_is_zero im_data td_is_zero] in Z.
    cbn [ido2 h_ibin]. unfold check_contexts. cbn [im_ctx]. rewrite Z.eqb_refl. cbn [bind]. unfold impl2. cbn [im_ctx im_data]. rewrite Z.eqb_refl, Hc0. cbn [td_ibin bin to_sparse bind].
    unfold td_ibin. cbn [bin to_sparse bind]. unfold sv_iself. destruct v as [|[q y] v]; [exfalso; apply Hz; apply Z; reflexivity|]. cbn [existsb snd].
    replace (req (rsub' R y y) r0) with true; [reflexivity|]. symmetry. apply Hreq. unfold rsub'. ring.
  Qed.
  (** Division by zero is reported. *)
  Theorem div_zero p x y : cov p -> kinds p x <> KNull ->
    (forall z i, run R req ctxs (p ++ [Op1 R z (Sdiv R r0 i) x]) (start R) = Throw) /\ (forall i, run R req ctxs (p ++ [Iop1 R x (ISdiv R r0 i)]) (start R) = Throw) /\
    (kinds p y <> KNull -> forall i o, In o [AddSdiv R r0 i; SubSdiv R r0 i; MulSdiv R r0 i] -> run R req ctxs (p ++ [Iop2 R x o y]) (start R) = Throw).
  Proof.
    intros Hp Kx. destruct (runs p Hp) as (e & E & H). destruct (rep_some R w N B c0 _ _ _ Kx (H x)) as (d & Ex & _). assert (Z0 : req (@r0 R) r0 = true) by (apply Hreq; reflexivity).
    split; [|split].
    - intros z i. rewrite (one_step p _ e E). cbn [step do1]. rewrite Ex. cbn. rewrite Z0. reflexivity.
    - intros i. rewrite (one_step p _ e E). cbn [step ido1]. rewrite Ex. cbn. rewrite Z0. reflexivity.
    - intros Ky i o Ho. destruct (rep_some R w N B c0 _ _ _ Ky (H y)) as (d' & Ey & _). rewrite (one_step p _ e E). cbn [step]. rewrite Ex, Ey.
      destruct Ho as [<-|[<-|[<-|[]]]]; cbn; rewrite Z.eqb_refl; cbn; rewrite Z0; reflexivity.
  Qed.
  (** Dividing by a Scalar object multiplies by it. *)
  Theorem truediv p x s i : cov p -> rmul s i = r1 -> exists e, exec p e /\
    (exists h, py_truediv R req ctxs (e x) PyScalar s i = Ok h /\ shows R w n req ctxs h (fun u => rmul (res p x u) s)) /\
    (forall k, k <> PyScalar -> exists h, py_truediv R req ctxs (e x) k s i = Ok h /\ shows R w n req ctxs h (fun u => rmul (res p x u) i)) /\
    (forall k, exists h, py_itruediv R req ctxs (e x) k s i = Ok h /\ shows R w n req ctxs h (fun u => rmul (res p x u) i)).
  Proof.
    intros Hp Hs. destruct (runs p Hp) as (e & E & H). exists e. split; [auto|].
    destruct (h_sdiv_ok R req Hreq R10 w N B HP HS HT ctxs c0 Hc0 s i _ _ _ Hs (H x)) as (h & Eh & Hh).
    split; [|split].
    - destruct (h_smul_ok R req Hreq w N B HP HS HT ctxs c0 Hc0 s _ _ _ (H x)) as (h' & Eh' & Hh'). exists h'. split; [exact Eh'|]. apply (rep_shows _ _ _ Hh').
    - intros k Hk. exists h. split; [destruct k; [congruence|..]; exact Eh|apply (rep_shows _ _ _ Hh)].
    - intros k. exists h. split; [exact Eh|apply (rep_shows _ _ _ Hh)].
  Qed.
  (** [[]] past the end of the data of a dense tensor. *)
  Theorem get_past p x u : cov p -> kdense (kinds p x) = true -> inside w n u = true -> exists e, exec p e /\ (h_dimension R (e x) <= pos w u -> h_get R req ctxs (e x) (pos w u) = UB).
  Proof.
    intros Hp Kx Hu. destruct (runs p Hp) as (e & E & H). exists e. split; [auto|]. intros Hd. apply (get_out R req w N B HP HS HT HN1 ctxs c0 Hc0 _ _ _ u (H x) Kx Hu Hd).
  Qed.
  (** Operands of two contexts are not combined, even of the same width and depth. *)
  Theorem two_contexts (e : env R) x y a b : e x = Some a -> e y = Some b -> im_ctx R a <> im_ctx R b ->
    (forall z o, step R req ctxs (Op2 R z o x y) e = Throw) /\
    (forall o, In o [IAdd R; ISub R; IMul R; Fmexp R] -> step R req ctxs (Iop2 R x o y) e = Throw) /\
    h_eqb R req ctxs (e x) (e y) = if tb_width (ctxs (im_ctx R a)) =? tb_width (ctxs (im_ctx R b)) then Throw else Ok false.
  Proof.
    intros Ex Ey Hne. apply Z.eqb_neq in Hne. split; [|split].
    - intros z o. cbn [step]. rewrite Ex, Ey. destruct o; cbn [do2 h_add h_sub h_mul check_contexts]; unfold impl2; rewrite !Hne; destruct (tb_width _ =? _); reflexivity.
    - intros o Ho. cbn [step]. rewrite Ex, Ey. destruct Ho as [<-|[<-|[<-|[<-|[]]]]]; cbn [ido2 h_ibin h_imul h_fmexp check_contexts]; unfold impl2; rewrite !Hne; try (destruct (tb_width _ =? _)); reflexivity.
    - rewrite Ex, Ey. cbn [h_eqb]. rewrite Hne. destruct (tb_width _ =? _); reflexivity.
  Qed.
End Laws.
