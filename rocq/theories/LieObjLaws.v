(** Laws of brackets, conversions, signatures and the Campbell-Baker-Hausdorff product, as programs see them. *)
From Coq Require Import ZArith List Bool Lia ZifyBool.
From Verif Require Import LieObjModel Alg PowerSeries Words Series Shuffle Dual Dexp LhLaws LalBasis LalFun LhSpec LhProofs HallModel HallSpec BracketSem LieSpec Dynkin T2lLemmas LieBasis LieVec LieOne LieThree LieObj LieSim.
From Verif Require Import LieObjSpec.
Import ListNotations.
Open Scope Z_scope.

(** After the program, the objects [a] and [b] exist and [==] says they are equal. *)
Definition lagree (R : qalg) (req : R -> R -> bool) (ctxs : Z -> lctx) (p : list (lcmd R)) (a b : Z) : Prop :=
  exists e cs o o' cs', lie_run R req Ok ctxs p (lie_start R) = Ok (e, cs) /\ e a = Some o /\ e b = Some o' /\ obj_eqb R req Ok ctxs o o' cs = Ok (true, cs').

Section Laws.
  Variable R : qalg.
  Add Ring Rr65 : (rth (qr R)).
  Variable req : R -> R -> bool.
  Hypothesis Hreq : forall x y, req x y = true <-> x = y.
  Hypothesis R10 : @r1 R <> r0.
  Variables (width depth dims : Z -> Z) (trees : Z -> Z -> tree) (ctxs : Z -> lctx).
  Notation tensor := (tens R Z).
  Notation good := (lie_context width depth dims trees ctxs).
  Notation cov := (vcovered R width depth dims trees good).
  Notation vr := (vrun R width depth dims trees).
  Notation res p := (vrun R width depth dims trees p (vstart R)).
  Notation dn c := (Z.to_nat (depth c)).
  Notation cut c := (cutc R width depth c).
  Notation agree := (lagree R req ctxs).
  Definition fine (v : vobj R) : Prop := good (v_ctx R v) /\ (forall u, cut (v_ctx R v) (v_val R v) u = v_val R v u) /\ (v_lie R v = true -> v_val R v [] = r0 /\ forall m, primitive m (v_val R v)).
  Lemma cov_app p q t : cov (p ++ q) t <-> cov p t /\ cov q (vr p t).
  Proof. revert t. induction p as [|k p IH]; intros t; cbn [app vcovered]; [unfold vrun; cbn; tauto|]. rewrite IH. unfold vrun. cbn [fold_left]. tauto. Qed.
  Lemma vrun_app p q t : vr (p ++ q) t = vr q (vr p t). Proof. apply fold_left_app. Qed.
  Lemma fine_ok p x v : cov p (vstart R) -> res p x = Some v -> fine v.
  Proof.
    intros Hp Ex. destruct (run_ok R req Hreq R10 width depth dims trees ctxs p _ _ Hp (srep_start R width depth dims trees ctxs)) as ([e cs] & _ & [He _]). specialize (He x). rewrite Ex in He. cbn [fst] in He.
    destruct (e x) as [o|]; [|destruct He]. assert (Ho := He). destruct He as (_ & _ & _ & G & Hd). split; [exact G|]. split.
    - intros u. destruct (v_lie R v); [apply (lrep_tr R _ _ _ (good_ok _ _ _ _ _ _ G) _ _ Hd)|]. unfold cutc, LhSpec.trunc. destruct (inside _ _ u) eqn:Iu; [reflexivity|]. symmetry. eapply trep_out; eauto. apply (good_ok _ _ _ _ _ _ G).
    - intros El. split; [eapply orep_nil; eauto|]. intros m. eapply orep_prim; eauto.
  Qed.
  Lemma law p q a b : cov (p ++ q) (vstart R) ->
    (cov q (res p) -> (forall x v, res p x = Some v -> fine v) -> exists va vb, vr q (res p) a = Some va /\ vr q (res p) b = Some vb /\ v_ctx R va = v_ctx R vb /\ v_lie R va = v_lie R vb /\ forall u, v_val R va u = v_val R vb u) ->
    agree (p ++ q) a b.
  Proof.
    intros Hc H. assert (Hc' := Hc). apply cov_app in Hc'. destruct Hc' as [Hp Hq]. destruct H as (ta & tb & E1 & E2 & Ec & El & Ev); auto. { intros x t Ex. apply (fine_ok p x t Hp Ex). }
    destruct (programs R req Hreq R10 width depth dims trees ctxs (p ++ q) Hc) as (e & cs & E & He & Q). rewrite vrun_app in *.
    assert (Ha := He a). rewrite E1 in Ha. assert (Hb := He b). rewrite E2 in Hb. destruct (e a) as [o|] eqn:Ea; [|destruct Ha]. destruct (e b) as [o'|] eqn:Eb; [|destruct Hb].
    destruct (Q a b o o' ta tb Ea Eb E1 E2 Ec El) as (r & cs' & Er & Hr). exists e, cs, o, o', cs'. split; [auto|]. split; [auto|]. split; [auto|]. rewrite Er. do 2 f_equal. apply Hr. auto.
  Qed.
  Lemma vset_same (e : venv R) x k : vset R e x k x = Some k. Proof. unfold vset. rewrite Z.eqb_refl. reflexivity. Qed.
  Lemma vset_other (e : venv R) x k y : y <> x -> vset R e x k y = e y. Proof. intros H. unfold vset. apply Z.eqb_neq in H. rewrite H. reflexivity. Qed.
  Lemma vrun_cons k q e : vr (k :: q) e = vr q (vstep R width depth dims trees k e). Proof. reflexivity. Qed.
  Lemma vrun_nil e : vr [] e = e. Proof. reflexivity. Qed.

  (** Tensors up to the depth *)
  Lemma cut_in c (f g : tensor) u : (forall v, inside (width c) (dn c) v = true -> f v = g v) -> cut c f u = cut c g u.
  Proof. intros E. unfold cutc, LhSpec.trunc. destruct (inside (width c) (dn c) u) eqn:Iu; auto. Qed.
  Lemma cut_val c (f : tensor) v : inside (width c) (dn c) v = true -> cut c f v = f v.
  Proof. intros H. unfold cutc, LhSpec.trunc. rewrite H. reflexivity. Qed.
  Definition like_ c (f g : tensor) : Prop := forall v, inside (width c) (dn c) v = true -> f v = g v.
  Lemma like_refl c f : like_ c f f. Proof. intros v _. reflexivity. Qed.
  Lemma like_cut c f : like_ c (cut c f) f. Proof. intros v Hv. apply cut_val; auto. Qed.
  Lemma like_trans c f g h : like_ c f g -> like_ c g h -> like_ c f h. Proof. intros H1 H2 v Hv. rewrite H1, H2; auto. Qed.
  Lemma like_sym c f g : like_ c f g -> like_ c g f. Proof. intros H v Hv. symmetry. auto. Qed.
  Lemma like_conv c f f' g g' : like_ c f f' -> like_ c g g' -> like_ c (conv f g) (conv f' g').
  Proof. intros H1 H2 v Hv. apply (conv_in R (width c) (dn c)); auto. Qed.
  Lemma like_comm c f f' g g' : like_ c f f' -> like_ c g g' -> like_ c (comm f g) (comm f' g').
  Proof. intros H1 H2 v Hv. unfold comm, tsub. rewrite (like_conv c f f' g g'), (like_conv c g g' f f'); auto. Qed.
  Lemma like_texp c f g : like_ c f g -> like_ c (texp (dn c) f) (texp (dn c) g).
  Proof. intros H v Hv. apply (tpoly_in R (width c) (dn c)); auto. Qed.
  Lemma like_tlog c f g : like_ c f g -> like_ c (tlog (dn c) f) (tlog (dn c) g).
  Proof. intros H v Hv. apply (tpoly_in R (width c) (dn c)); auto. intros v' Hv'. unfold tsub. rewrite H; auto. Qed.
  Lemma like_len c f g : (forall v, (length v <= dn c)%nat -> f v = g v) -> like_ c f g.
  Proof. intros H v Hv. apply H. apply inside_iff in Hv. tauto. Qed.
  Lemma exps_from n (xs : list tensor) : forall g u, fold_left (fun g x => conv g (texp n x)) xs g u = conv g (exps n xs) u.
  Proof.
    unfold exps. induction xs as [|x xs IH]; intros g u; cbn [fold_left]; [symmetry; apply (conv_one_r R Z)|]. rewrite IH. rewrite (conv_assoc R Z g (texp n x) _ u). apply LieSpec.conv_ext; [intros v; reflexivity|]. intros v.
    rewrite IH. apply LieSpec.conv_ext; [|intros v'; reflexivity]. intros v'. symmetry. apply (conv_one_l R Z).
  Qed.
  Lemma exps_app n (xs ys : list tensor) u : exps n (xs ++ ys) u = conv (exps n xs) (exps n ys) u.
  Proof. unfold exps at 1. rewrite fold_left_app. apply exps_from. Qed.
  Lemma exps_one n (x : tensor) u : exps n [x] u = texp n x u. Proof. unfold exps. cbn [fold_left]. apply (conv_one_l R Z). Qed.
  Lemma exps_two n (x y : tensor) u : exps n [x; y] u = conv (texp n x) (texp n y) u.
  Proof. unfold exps. cbn [fold_left]. apply LieSpec.conv_ext; [|intros v; reflexivity]. intros v. apply (conv_one_l R Z). Qed.
  Lemma like_explog c g : g [] = r1 -> like_ c (texp (dn c) (cut c (tlog (dn c) g))) g.
  Proof. intros G1. eapply like_trans; [apply like_texp, like_cut|]. apply like_len. intros v Hv. apply texp_tlog; auto. Qed.
  Lemma exp_nil n (x : tensor) : x [] = r0 -> texp n x [] = r1. Proof. apply texp_nil. Qed.
  Lemma row_gl c rows : good c -> exps (dn c) (map (rowval R dims trees c) rows) [] = r1.
  Proof. intros G. apply (proj1 (rows_gl R width depth dims trees ctxs c rows G)). Qed.

  Ltac neq := first [assumption | apply not_eq_sym; assumption].
  Ltac look := repeat first [rewrite vset_same | rewrite vset_other by neq | match goal with H : res _ ?x = Some _ |- context [res _ ?x] => rewrite H end].
  Ltac step := rewrite vrun_cons; cbn [vstep map fst snd]; unfold von1, von2, val; look; cbn [v_val v_ctx v_lie v_dense].
  Ltac sets := repeat step; rewrite ?vrun_nil; look.
  Ltac known := repeat match goal with H : ?e = Some ?a, K : ?e = Some ?b |- _ => rewrite H in K; injection K as <- end.
  Ltac apart := repeat match goal with H : ~ In ?a (?x :: ?l) |- _ => let K := fresh in assert (K : a <> x /\ ~ In a l) by (split; [intros ->; apply H; left; reflexivity|intros Q; apply H; right; exact Q]); clear H; destruct K as [? H] end.
  Ltac vals := cbn [v_val v_ctx v_lie v_dense] in *.

  (** [x, y] == -[y, x] *)
  Theorem bracket_anti p x y a b tx : res p x = Some tx -> v_lie R tx = true -> ~ In a [x; y] -> ~ In b [a; x; y] ->
    let q := [LTimes R a x y; LTimes R b y x; LLin R b (LNeg R) b] in cov (p ++ q) (vstart R) -> agree (p ++ q) a b.
  Proof.
    intros Ex Lx Na Nb q Hc. apply law; [auto|]. intros Hq F. unfold q in *. apart. cbn [vcovered vmay] in Hq. destruct Hq as ((t1 & t2 & E1 & E2 & Ec & El) & _). known.
    sets. rewrite <- El, Lx. do 2 eexists. split; [reflexivity|]. split; [reflexivity|]. vals. split; [auto|]. split; [auto|]. intros u. rewrite <- Ec.
    unfold cutc, LhSpec.trunc. destruct (inside _ _ u); [|ring]. rewrite (comm_anti R Z _ _ u). unfold tscal. ring.
  Qed.
  (** [x, [y, z]] == [[x, y], z] - [[x, z], y] *)
  Theorem bracket_jacobi p x y z a b c tx : res p x = Some tx -> v_lie R tx = true -> ~ In a [x; y; z] -> ~ In b [a; x; y; z] -> ~ In c [b; a; x; y; z] ->
    let q := [LTimes R a y z; LTimes R a x a; LTimes R b x y; LTimes R b b z; LTimes R c x z; LTimes R c c y; LLin2 R b LSub b c] in cov (p ++ q) (vstart R) -> agree (p ++ q) a b.
  Proof.
    intros Ex Lx Na Nb Nc q Hc. apply law; [auto|]. intros Hq F. unfold q in *. apart. cbn [vcovered vmay] in Hq. destruct Hq as ((t1 & t2 & E1 & E2 & Ec & El) & (t3 & t4 & E3 & E4 & Ec2 & El2) & _). known.
    cbn [vstep] in E3, E4. unfold von2 in E3, E4. rewrite E1, E2 in E3, E4. rewrite vset_same in E4. rewrite vset_other in E3 by congruence. injection E4 as <-. known. vals.
    sets. rewrite <- El2, Lx. do 2 eexists. split; [reflexivity|]. split; [reflexivity|]. vals. split; [auto|]. split; [auto|].
    rewrite <- Ec2. intros u. set (cc := v_ctx R tx). transitivity (cut cc (tsub (comm (comm (v_val R tx) (v_val R t1)) (v_val R t2)) (comm (comm (v_val R tx) (v_val R t2)) (v_val R t1))) u).
    - apply cut_in. intros v Hv. rewrite (like_comm cc _ (v_val R tx) _ (comm (v_val R t1) (v_val R t2))); [apply (jacobi R Z)|apply like_refl|apply like_cut|auto].
    - unfold cutc at 1 2 4, LhSpec.trunc. destruct (inside (width cc) (dn cc) u) eqn:Iu; [|ring]. unfold tsub. f_equal; symmetry; (apply (like_comm cc); [apply like_cut|apply like_refl|exact Iu]).
  Qed.
  (** [x, y + z] == [x, y] + [x, z] *)
  Theorem bracket_add p x y z a b c tx : res p x = Some tx -> v_lie R tx = true -> ~ In a [x; y; z] -> ~ In b [a; x; y; z] -> ~ In c [b; a; x; y; z] ->
    let q := [LLin2 R a LAdd y z; LTimes R a x a; LTimes R b x y; LTimes R c x z; LLin2 R b LAdd b c] in cov (p ++ q) (vstart R) -> agree (p ++ q) a b.
  Proof.
    intros Ex Lx Na Nb Nc q Hc. apply law; [auto|]. intros Hq F. unfold q in *. apart. cbn [vcovered vmay] in Hq. destruct Hq as ((t1 & t2 & E1 & E2 & Ec & El) & (t3 & t4 & E3 & E4 & Ec2 & El2) & _). known.
    cbn [vstep] in E3, E4. unfold von2 in E3, E4. rewrite E1, E2 in E3, E4. rewrite vset_same in E4. rewrite vset_other in E3 by congruence. injection E4 as <-. known. vals.
    sets. rewrite Lx. do 2 eexists. split; [reflexivity|]. split; [reflexivity|]. vals. split; [auto|]. split; [auto|].
    intros u. unfold cutc, LhSpec.trunc. destruct (inside _ _ u); [|ring]. apply (comm_add_r R Z).
  Qed.
  (** [x, y s] == [x, y] s *)
  Theorem bracket_smul p x y s a b tx : res p x = Some tx -> v_lie R tx = true -> ~ In a [x; y] -> ~ In b [a; x; y] ->
    let q := [LLin R a (LSmul R s) y; LTimes R a x a; LTimes R b x y; LLin R b (LSmul R s) b] in cov (p ++ q) (vstart R) -> agree (p ++ q) a b.
  Proof.
    intros Ex Lx Na Nb q Hc. apply law; [auto|]. intros Hq F. unfold q in *. apart. cbn [vcovered vmay] in Hq. destruct Hq as (Hy & _). destruct (res p y) as [ty|] eqn:Ey; [|congruence].
    sets. rewrite Lx. do 2 eexists. split; [reflexivity|]. split; [reflexivity|]. vals. split; [auto|]. split; [auto|].
    intros u. unfold cutc, LhSpec.trunc. destruct (inside _ _ u); [|ring]. transitivity (tscal s (comm (v_val R tx) (v_val R ty)) u); [|unfold tscal; ring].
    rewrite <- (comm_scal_r R Z s _ _ u). apply LieSpec.comm_ext; [intros v; reflexivity|]. intros v. unfold tscal. ring.
  Qed.
  (** x as a tensor and back is x *)
  Theorem to_tensor_to_lie p x a b tx : res p x = Some tx -> v_lie R tx = true -> a <> x -> b <> x ->
    let q := [LToTensor R a (v_ctx R tx) x; LToLie R b (v_ctx R tx) a] in cov (p ++ q) (vstart R) -> agree (p ++ q) b x.
  Proof.
    intros Ex Lx Na Nb q Hc. apply law; [auto|]. intros _ F. unfold q in *. sets.  do 2 eexists. split; [reflexivity|]. split; [reflexivity|]. vals. split; [auto|]. split; [auto|]. intros u.
    destruct (F x tx Ex) as (G & Fc & Fl). destruct (Fl Lx) as [_ Fp]. unfold cutc. transitivity (dyn R (width (v_ctx R tx)) (depth (v_ctx R tx)) (LhSpec.trunc R (width (v_ctx R tx)) (dn (v_ctx R tx)) (v_val R tx)) u); [reflexivity|].
    rewrite dyn_tr, dyn_fix by auto. apply Fc.
  Qed.
  (** the bracket becomes the commutator of tensors *)
  Theorem bracket_commutator p x y a b d e tx : let c := v_ctx R tx in res p x = Some tx -> v_lie R tx = true -> ~ In a [x; y] -> ~ In b [a; x; y] -> ~ In d [b; a; x; y] -> ~ In e [d; b; a; x; y] ->
    let q := [LTimes R a x y; LToTensor R a c a; LToTensor R b c x; LToTensor R d c y; LTimes R e b d; LTimes R b d b; LLin2 R e LSub e b] in cov (p ++ q) (vstart R) -> agree (p ++ q) a e.
  Proof.
    intros c Ex Lx Na Nb Nd Ne q Hc. apply law; [auto|]. intros Hq F. unfold q in *. apart. cbn [vcovered vmay] in Hq. destruct Hq as ((t1 & t2 & E1 & E2 & Ec & El) & _). known.
    sets. rewrite Lx. do 2 eexists. split; [reflexivity|]. split; [reflexivity|]. vals. split; [auto|]. split; [auto|]. fold c.
    intros u. unfold cutc at 1 2 3 6, LhSpec.trunc. destruct (inside (width c) (dn c) u) eqn:Iu; [|ring]. unfold comm, tsub. f_equal; (apply (like_conv c); [apply like_sym, like_cut|apply like_sym, like_cut|exact Iu]).
  Qed.

  (** ** Signatures *)
  (** Chen: the signature over joined data is the product of the signatures *)
  Theorem signature_app p a b c d1 d2 d3 rows1 rows2 : a <> b ->
    let q := [LSig R a c d1 rows1; LSig R b c d2 rows2; LTimes R a a b; LSig R b c d3 (rows1 ++ rows2)] in cov (p ++ q) (vstart R) -> agree (p ++ q) a b.
  Proof.
    intros Na q Hc. apply law; [auto|]. intros _ F. unfold q in *. sets.  do 2 eexists. split; [reflexivity|]. split; [reflexivity|]. vals. split; [auto|]. split; [auto|]. intros u. apply cut_in. intros v Hv.
    rewrite map_app, exps_app. apply (like_conv c); auto using like_cut.
  Qed.
  (** the log signature is the logarithm of the signature *)
  Theorem log_signature_is_log p a b c d d' rows : a <> b ->
    let q := [LLogSig R a c d rows; LSig R b c d' rows; LLog R b b; LToLie R b c b] in cov (p ++ q) (vstart R) -> agree (p ++ q) a b.
  Proof.
    intros Na q Hc. apply law; [auto|]. intros Hq F. unfold q in *. cbn [vcovered vmay] in Hq. destruct Hq as ((G & _) & _). sets.  do 2 eexists. split; [reflexivity|]. split; [reflexivity|]. vals. split; [auto|]. split; [auto|]. intros u.
    transitivity (dyn R (width c) (depth c) (LhSpec.trunc R (width c) (dn c) (tlog1p (dn c) (nocst R (cut c (exps (dn c) (map (rowval R dims trees c) rows)))))) u); [|reflexivity].
    rewrite (dyn_ext R (width c) (depth c) _ (tlog (dn c) (exps (dn c) (map (rowval R dims trees c) rows)))).
    - symmetry. apply dyn_fix. apply Cbh.primitive_log. apply (rows_gl R width depth dims trees ctxs c rows G).
    - intros v Hv. rewrite (cut_val c) || (unfold LhSpec.trunc at 1; rewrite Hv). unfold tlog, tlog1p. apply (tpoly_in R (width c) (dn c)); auto. intros v' Hv'. unfold nocst, tsub, tone, cutc, LhSpec.trunc. destruct v' as [|z v']; [rewrite (row_gl c rows G); ring|]. rewrite Hv'. ring.
  Qed.
  (** the log signature over joined data is the Campbell-Baker-Hausdorff product of the log signatures *)
  Theorem log_signature_app p a b e c d1 d2 d3 d4 rows1 rows2 : a <> b -> e <> a -> e <> b ->
    let q := [LLogSig R a c d1 (rows1 ++ rows2); LLogSig R b c d2 rows1; LLogSig R e c d3 rows2; LCbh R b c [b; e] d4] in cov (p ++ q) (vstart R) -> agree (p ++ q) a b.
  Proof.
    intros N1 N2 N3 q Hc. apply law; [auto|]. intros Hq F. unfold q in *. cbn [vcovered vmay] in Hq. destruct Hq as ((G & _) & _). sets.  do 2 eexists. split; [reflexivity|]. split; [reflexivity|]. vals. split; [auto|]. split; [auto|]. intros u.
    apply cut_in. apply like_tlog. intros v Hv. rewrite map_app, exps_app, exps_two. apply (like_conv c); [apply like_sym, like_explog, row_gl, G|apply like_sym, like_explog, row_gl, G|exact Hv].
  Qed.

  (** ** The Campbell-Baker-Hausdorff product *)
  Theorem cbh_two p x y a b c d tx : res p x = Some tx -> ~ In a [x; y] -> ~ In b [a; x; y] ->
    let q := [LCbh2 R a c x y; LCbh R b c [x; y] d] in cov (p ++ q) (vstart R) -> agree (p ++ q) a b.
  Proof.
    intros Ex Na Nb q Hc. apply law; [auto|]. intros Hq F. unfold q in *. apart. sets.  do 2 eexists. split; [reflexivity|]. split; [reflexivity|]. vals. split; [auto|]. split; [auto|]. intros u.
    apply cut_in. apply like_tlog. intros v Hv. symmetry. apply exps_two.
  Qed.
  Lemma gl_exp n (x : tensor) : x [] = r0 -> texp n x [] = r1. Proof. apply exp_nil. Qed.
  Lemma conv_one_at (f g : tensor) : f [] = r1 -> g [] = r1 -> conv f g [] = r1. Proof. intros H1 H2. rewrite (conv_nil R Z), H1, H2. ring. Qed.
  Theorem cbh_assoc p x y z a b c tx ty tz : res p x = Some tx -> res p y = Some ty -> res p z = Some tz -> ~ In a [x; y; z] -> ~ In b [a; x; y; z] ->
    let q := [LCbh2 R a c x y; LCbh2 R a c a z; LCbh2 R b c y z; LCbh2 R b c x b] in cov (p ++ q) (vstart R) -> agree (p ++ q) a b.
  Proof.
    intros Ex Ey Ez Na Nb q Hc. apply law; [auto|]. intros Hq F. unfold q in *. apart. cbn [vcovered vmay] in Hq. destruct Hq as ((G & (t1 & E1 & L1 & _) & (t2 & E2 & L2 & _)) & (_ & _ & (t3 & E3 & L3 & _)) & _). cbn [vstep] in E3. unfold von1 in E3. rewrite E1 in E3. rewrite vset_other in E3 by congruence. known.
    sets.  do 2 eexists. split; [reflexivity|]. split; [reflexivity|]. vals. split; [auto|]. split; [auto|]. intros u.
    destruct (F x tx Ex) as (_ & _ & Fx). destruct (Fx L1) as [X0 _]. destruct (F y ty Ey) as (_ & _ & Fy). destruct (Fy L2) as [Y0 _]. destruct (F z tz Ez) as (_ & _ & Fz). destruct (Fz L3) as [Z0 _].
    apply cut_in. apply like_tlog. apply like_trans with (conv (conv (texp (dn c) (v_val R tx)) (texp (dn c) (v_val R ty))) (texp (dn c) (v_val R tz))).
    - apply like_conv; [|apply like_refl]. apply like_explog. apply conv_one_at; apply gl_exp; auto.
    - apply like_trans with (conv (texp (dn c) (v_val R tx)) (conv (texp (dn c) (v_val R ty)) (texp (dn c) (v_val R tz)))).
      + intros v _. apply (conv_assoc R Z).
      + apply like_conv; [apply like_refl|]. apply like_sym, like_explog. apply conv_one_at; apply gl_exp; auto.
  Qed.
  (** the product with the negative is zero, the product of nothing *)
  Theorem cbh_inverse p x a b c d tx : res p x = Some tx -> a <> x -> b <> a ->
    let q := [LLin R a (LNeg R) x; LCbh2 R a c x a; LCbh R b c [] d] in cov (p ++ q) (vstart R) -> agree (p ++ q) a b.
  Proof.
    intros Ex Na Nb q Hc. apply law; [auto|]. intros Hq F. unfold q in *. cbn [vcovered vmay] in Hq. destruct Hq as (_ & (G & (t1 & E1 & L1 & _) & _) & _). cbn [vstep] in E1. unfold von1 in E1. rewrite Ex in E1. rewrite vset_other in E1 by congruence. known.
    sets.  do 2 eexists. split; [reflexivity|]. split; [reflexivity|]. vals. split; [auto|]. split; [auto|]. intros u. cbn [map].
    destruct (F x tx Ex) as (_ & _ & Fx). destruct (Fx L1) as [X0 X1]. apply cut_in. apply like_tlog. apply like_len. intros v Hv.
    apply (LhLaws.exp_neg R (depth c)); auto.
  Qed.
  (** ** Derivatives: linear in the perturbation *)
  Lemma dexp1_add n (x y z : tensor) u : x [] = r0 -> y [] = r0 -> z [] = r0 -> (length u <= n)%nat -> dexp1 R n x (fun v => radd (y v) (z v)) u = radd (dexp1 R n x y u) (dexp1 R n x z u).
  Proof.
    intros X0 Y0 Z0 Hu. set (yz := fun v => radd (y v) (z v)). assert (YZ0 : yz [] = r0) by (unfold yz; rewrite Y0, Z0; ring). unfold dexp1.
    assert (A1 := dexp_eq R Z x yz X0 YZ0 n u Hu). assert (A2 := dexp_eq R Z x y X0 Y0 n u Hu). assert (A3 := dexp_eq R Z x z X0 Z0 n u Hu).
    unfold xy in A1, A2, A3. rewrite A1, A2, A3. clear A1 A2 A3. change (radd (conv (texp n x) (dser R Z x y n) u) (conv (texp n x) (dser R Z x z n) u)) with (tadd (conv (texp n x) (dser R Z x y n)) (conv (texp n x) (dser R Z x z n)) u).
    rewrite <- (conv_add_r R Z _ _ _ u). apply LieSpec.conv_ext; [intros v; reflexivity|]. intros v. unfold tadd, dser, yz.
    assert (A : forall d v, adp R Z x (fun v => radd (y v) (z v)) d v = radd (adp R Z x y d v) (adp R Z x z d v)).
    { induction d as [|d IH]; intros w; cbn [adp]; [reflexivity|]. rewrite (LieSpec.comm_ext x x _ (tadd (adp R Z x y d) (adp R Z x z d)) ltac:(intros ?; reflexivity) IH w). apply (comm_add_r R Z). }
    induction (seq 0 (S n)) as [|d l IH]; cbn [sum]; [ring|]. rewrite IH, A. ring.
  Qed.
  Theorem derivative_add p x y z a b e c dense tx ty tz : res p x = Some tx -> res p y = Some ty -> res p z = Some tz -> ~ In a [x; y; z] -> ~ In b [a; x; y; z] -> ~ In e [b; a; x; y; z] ->
    let q := [LDeriv R a c dense [(x, y)]; LDeriv R b c dense [(x, z)]; LLin2 R a LAdd a b; LLin2 R e LAdd y z; LDeriv R b c dense [(x, e)]] in cov (p ++ q) (vstart R) -> agree (p ++ q) a b.
  Proof.
    intros Ex Ey Ez Na Nb Ne q Hc. apply law; [auto|]. intros Hq F. unfold q in *. apart. cbn [vcovered vmay] in Hq. destruct Hq as ((G & _ & HD1) & (_ & _ & HD2) & _). inversion HD1 as [|? ? ((t1 & E1 & L1 & _) & (t2 & E2 & L2 & _)) _]; subst. inversion HD2 as [|? ? (_ & (t3 & E3 & L3 & _)) _]; subst. cbn [fst snd vstep] in *. rewrite vset_other in E3 by congruence. known.
    sets.  do 2 eexists. split; [reflexivity|]. split; [reflexivity|]. vals. split; [auto|]. split; [auto|]. intros u.
    destruct (F x tx Ex) as (_ & _ & Fx). destruct (Fx L1) as [X0 _]. destruct (F y ty Ey) as (_ & _ & Fy). destruct (Fy L2) as [Y0 _]. destruct (F z tz Ez) as (_ & _ & Fz). destruct (Fz L3) as [Z0 _].
    unfold cutc, LhSpec.trunc. destruct (inside (width c) (dn c) u) eqn:Iu; [|ring]. rewrite <- !(dsteps_one R) by (cbn; lia). unfold dsteps. cbn [fold_left fst snd]. rewrite !(conv_zero_l R Z _ u). unfold tzero.
    rewrite dexp1_add by (auto; apply inside_iff in Iu; tauto). ring.
  Qed.
End Laws.
