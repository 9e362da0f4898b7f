(** Laws of the shuffle and half-shuffle products, as programs see them. *)
From Verif Require Export ShufObj TensorLemmas3.
Open Scope Z_scope.

(** After the program, the objects [a] and [b] exist and [==] says they are equal. *)
Definition agree_after (R : qalg) (req : R -> R -> bool) (ctxs : Z -> tbasis) (p : list (scmd R)) (a b : Z) : Prop :=
  exists e cs o o', sh_run R req ctxs p (sh_start R) = Ok (e, cs) /\ e a = Some o /\ e b = Some o' /\ h_eqb R req ctxs (handle_of R o) (handle_of R o') = Ok true.

Section Laws.
  Variable R : qalg.
  Add Ring Rr64 : (rth (qr R)).
  Variable req : R -> R -> bool.
  Hypothesis Hreq : forall x y, req x y = true <-> x = y.
  Hypothesis R10 : @r1 R <> r0.
  Variables (width depth : Z -> Z) (ctxs : Z -> tbasis).
  Notation tensor := (tens R Z).
  Notation ctx := (context width depth ctxs).
  Notation cov := (scovered R width depth ctx).
  Notation tr_ := (trun R width depth).
  Notation res p := (trun R width depth p (tstart R)).
  Notation wd a := (width (t_ctx R a)).
  Notation dp a := (Z.to_nat (depth (t_ctx R a))).
  Notation agree := (agree_after R req ctxs).
  Definition low (t : tobj R) : Prop := forall u, inside (wd t) (dp t) u = false -> t_val R t u = r0.
  Lemma cov_app p q t : cov (p ++ q) t <-> cov p t /\ cov q (tr_ p t).
  Proof. revert t. induction p as [|k p IH]; intros t; cbn [app scovered]; [unfold trun; cbn; tauto|]. rewrite IH. unfold trun. cbn [fold_left]. tauto. Qed.
  Lemma trun_app p q t : tr_ (p ++ q) t = tr_ q (tr_ p t). Proof. apply fold_left_app. Qed.
  Lemma low_ok p x t : cov p (tstart R) -> res p x = Some t -> low t /\ ctx (t_ctx R t).
  Proof.
    intros Hp Ex. destruct (run_ok R req Hreq R10 width depth ctxs p _ _ Hp (srep_start R width depth ctxs)) as ([e cs] & _ & [He _]). specialize (He x). rewrite Ex in He. cbn [fst] in He.
    destruct (e x) as [o|]; [|destruct He]. destruct He as (_ & _ & Hc & Hd). split; [|auto]. intros u Hu. assert (Kn : t_kind R t <> KNull) by (intros Q; rewrite Q in Hd; destruct Hd).
    eapply (rep_out R (wd t) (depth (t_ctx R t)) (ctxs (t_ctx R t)) (proj1 Hc) 0 _ _ _ u); [apply some_rep; eauto|auto].
  Qed.
  Lemma law p q a b : cov (p ++ q) (tstart R) ->
    (cov q (res p) -> (forall x t, res p x = Some t -> low t) -> exists ta tb, tr_ q (res p) a = Some ta /\ tr_ q (res p) b = Some tb /\ t_ctx R ta = t_ctx R tb /\ forall u, t_val R ta u = t_val R tb u) ->
    agree (p ++ q) a b.
  Proof.
    intros Hc H. assert (Hc' := Hc). apply cov_app in Hc'. destruct Hc' as [Hp Hq]. destruct H as (ta & tb & E1 & E2 & Ec & Ev); auto. { intros x t Ex. apply (low_ok p x t Hp Ex). }
    destruct (programs R req Hreq R10 width depth ctxs (p ++ q) Hc) as (e & cs & E & He & Q). rewrite trun_app in *.
    assert (Ha := He a). rewrite E1 in Ha. assert (Hb := He b). rewrite E2 in Hb. destruct (e a) as [o|] eqn:Ea; [|destruct Ha]. destruct (e b) as [o'|] eqn:Eb; [|destruct Hb].
    exists e, cs, o, o'. split; [auto|]. split; [auto|]. split; [auto|]. destruct (Q a b o o' ta tb Ea Eb E1 E2 Ec) as (r & Er & Hr). rewrite Er. f_equal. apply Hr. auto.
  Qed.
  Lemma tset_same (e : tenv R) x k : tset R e x k x = Some k. Proof. unfold tset. rewrite Z.eqb_refl. reflexivity. Qed.
  Lemma tset_other (e : tenv R) x k y : y <> x -> tset R e x k y = e y. Proof. intros H. unfold tset. apply Z.eqb_neq in H. rewrite H. reflexivity. Qed.

  (** Tensors *)
  Lemma inside_splits w n s p : inside w n s = true -> In p (splits s) -> inside w n (fst p) = true /\ inside w n (snd p) = true.
  Proof.
    intros Hs Hp. apply inside_iff in Hs. destruct Hs as [H1 H2]. destruct (splits_Forall _ s H1 p Hp) as [A1 A2]. assert (L := splits_length Z s p Hp).
    split; apply inside_iff; split; auto; lia.
  Qed.
  Lemma shuf_in w n (a a' b b' : tensor) s : inside w n s = true -> (forall u, inside w n u = true -> a u = a' u) -> (forall u, inside w n u = true -> b u = b' u) -> shuf a b s = shuf a' b' s.
  Proof. intros Hs Ha Hb. unfold shuf. apply sum_ext. intros p Hp. destruct (inside_splits w n s p Hs Hp). rewrite Ha, Hb; auto. Qed.
  Lemma inside_tail w n x s : inside w n (x :: s) = true -> inside w n s = true.
  Proof. rewrite !inside_iff. intros [H1 H2]. inversion H1; subst. split; auto. cbn in H2. lia. Qed.
  Lemma half_in w n (a a' b b' : tensor) s : inside w n s = true -> (forall u, inside w n u = true -> a u = a' u) -> (forall u, inside w n u = true -> b u = b' u) -> half R a b s = half R a' b' s.
  Proof.
    intros Hs Ha Hb. destruct s as [|x s]; [reflexivity|]. cbn [half]. unfold shuf. apply sum_ext. intros p Hp. destruct (inside_splits w n s p (inside_tail _ _ _ _ Hs) Hp) as [A1 A2].
    rewrite Hb by auto. f_equal. unfold dl. apply Ha. apply inside_iff. apply inside_iff in Hs. apply inside_iff in A1. destruct Hs as [H1 H2]. destruct A1 as [H3 H4]. inversion H1; subst.
    split; [constructor; auto|]. assert (L := splits_length Z s p Hp). cbn in *. lia.
  Qed.
  Lemma tr_agree w n (f g : tensor) u : (inside w n u = true -> f u = g u) -> LhSpec.trunc R w n f u = LhSpec.trunc R w n g u.
  Proof. intros H. unfold LhSpec.trunc. destruct (inside w n u); auto. Qed.
  Lemma tr_in w n (f : tensor) u : inside w n u = true -> LhSpec.trunc R w n f u = f u. Proof. intros H. unfold LhSpec.trunc. rewrite H. reflexivity. Qed.
  Lemma half_shuf (a b c : tensor) s : half R (half R a b) c s = half R a (shuf b c) s.
  Proof. destruct s as [|x s]; [reflexivity|]. cbn [half]. change (dl x (half R a b)) with (shuf (dl x a) b). apply (shuf_assoc R Z). Qed.
  Lemma halves_sum (a b : tensor) s : rmul (a []) (b []) = r0 -> radd (half R a b s) (half R b a s) = shuf a b s.
  Proof. intros H. destruct s as [|x s]; [rewrite shuf_nil, H; cbn [half]; ring|]. cbn [half]. rewrite shuf_cons, (shuf_comm R Z (dl x b) a s). reflexivity. Qed.

  Lemma trun_cons k q e : tr_ (k :: q) e = tr_ q (tstep R width depth k e). Proof. reflexivity. Qed.
  Lemma trun_nil e : tr_ [] e = e. Proof. reflexivity. Qed.
  Ltac sets := rewrite ?trun_cons, ?trun_nil; cbn [tstep]; unfold on2; repeat first [rewrite tset_same | rewrite tset_other by congruence].
  Ltac known := repeat match goal with H : ?e = Some ?a, K : ?e = Some ?b |- _ => rewrite H in K; injection K as <- end.

  (** x * y == y * x *)
  Theorem times_comm p x y a b tx : res p x = Some tx -> t_free R tx = false -> ~ In a [x; y] -> b <> a ->
    let q := [STimes R a x y; STimes R b y x] in cov (p ++ q) (tstart R) -> agree (p ++ q) a b.
  Proof.
    intros Ex Fx Na Nb q Hc. apply law; [auto|]. intros Hq Hlow. unfold q in *. cbn [scovered smay] in Hq. destruct Hq as ((t1 & t2 & E1 & E2 & Ec & Ef & H33) & _). known. cbn [In] in *.
    assert (a <> x) by (intros ?; subst; tauto). assert (a <> y) by (intros ?; subst; tauto). sets. rewrite Ex, E2. sets. rewrite Ex, E2. sets. cbn [t_val t_ctx]. rewrite <- Ef, Fx. do 2 eexists. split; [reflexivity|]. split; [reflexivity|]. split; [auto|].
    intros u. unfold cut. rewrite Ec. apply tr_agree. intros _. apply (shuf_comm R Z).
  Qed.
  (** (x * y) * z == x * (y * z) *)
  Theorem times_assoc p x y z a b tx : res p x = Some tx -> t_free R tx = false -> ~ In a [x; y; z] -> ~ In b [a; x; y; z] ->
    let q := [STimes R a x y; STimes R a a z; STimes R b y z; STimes R b x b] in cov (p ++ q) (tstart R) -> agree (p ++ q) a b.
  Proof.
    intros Ex Fx Na Nb q Hc. apply law; [auto|]. intros Hq Hlow. unfold q in *. cbn [In] in *.
    assert (a <> x) by (intros ?; subst; tauto). assert (a <> y) by (intros ?; subst; tauto). assert (a <> z) by (intros ?; subst; tauto). assert (b <> a) by (intros ?; subst; tauto). assert (b <> x) by (intros ?; subst; tauto). assert (b <> y) by (intros ?; subst; tauto). assert (b <> z) by (intros ?; subst; tauto).
    cbn [scovered] in Hq. destruct Hq as ((t1 & t2 & E1 & E2 & Ec & Ef & H33) & (t3 & t4 & E3 & E4 & Ec2 & Ef2 & _) & _). known. cbn [tstep] in E3, E4. unfold on2 in E3, E4. rewrite Ex, E2 in E3, E4. rewrite tset_same in E3. rewrite tset_other in E4 by congruence.
    injection E3 as <-. cbn [t_ctx t_free] in *. sets. rewrite Ex, E2. sets. rewrite E4. sets. rewrite E2, E4. sets. rewrite Ex. sets. cbn [t_val t_ctx t_free]. rewrite <- Ef, Fx.
    do 2 eexists. split; [reflexivity|]. split; [reflexivity|]. split; [auto|]. intros u. unfold cut. cbn [t_ctx]. rewrite <- Ec. apply tr_agree. intros Hu.
    transitivity (shuf (shuf (t_val R tx) (t_val R t2)) (t_val R t4) u).
    - eapply shuf_in; eauto. intros v Hv. apply tr_in; auto.
    - rewrite (shuf_assoc R Z). eapply shuf_in; eauto. intros v Hv. symmetry. apply tr_in; auto.
  Qed.
  (** x * (y + z) == x * y + x * z *)
  Theorem times_distr p x y z a b c tx : res p x = Some tx -> t_free R tx = false -> ~ In a [x; y; z] -> ~ In b [a; x; y; z] -> ~ In c [b; a; x; y; z] ->
    let q := [SLin2 R a LAdd y z; STimes R a x a; STimes R b x y; STimes R c x z; SLin2 R b LAdd b c] in cov (p ++ q) (tstart R) -> agree (p ++ q) a b.
  Proof.
    intros Ex Fx Na Nb Nc q Hc. apply law; [auto|]. intros Hq Hlow. unfold q in *. cbn [In] in *.
    assert (a <> x) by (intros ?; subst; tauto). assert (a <> y) by (intros ?; subst; tauto). assert (a <> z) by (intros ?; subst; tauto). assert (b <> a) by (intros ?; subst; tauto). assert (b <> x) by (intros ?; subst; tauto). assert (b <> y) by (intros ?; subst; tauto). assert (b <> z) by (intros ?; subst; tauto). assert (c <> b) by (intros ?; subst; tauto). assert (c <> a) by (intros ?; subst; tauto).
    cbn [scovered] in Hq. destruct Hq as ((t1 & t2 & E1 & E2 & Ec & Ef & _) & (t3 & t4 & E3 & E4 & Ec2 & Ef2 & _) & _). cbn [tstep] in E3, E4. unfold on2 in E3, E4. rewrite E1, E2 in E3, E4. rewrite tset_same in E4. rewrite tset_other in E3 by congruence.
    injection E4 as <-. known. cbn [t_ctx t_free] in *. sets. rewrite E1, E2. sets. rewrite Ex. sets. rewrite Ex, E1. sets. rewrite Ex, E2. sets. cbn [t_val t_ctx t_free]. rewrite Fx.
    do 2 eexists. split; [reflexivity|]. split; [reflexivity|]. split; [auto|]. intros u. unfold cut. cbn [t_ctx t_val]. unfold LhSpec.trunc. destruct (inside _ _ u); [|ring]. apply (shuf_add_r R Z).
  Qed.
  (** x * 1 == x *)
  Theorem times_one p x y a tx ty : res p x = Some tx -> t_free R tx = false -> res p y = Some ty -> (forall u, t_val R ty u = tone u) -> a <> x ->
    let q := [STimes R a x y] in cov (p ++ q) (tstart R) -> agree (p ++ q) a x.
  Proof.
    intros Ex Fx Ey Hy Na q Hc. apply law; [auto|]. intros _ Hlow. unfold q. sets. rewrite Ex, Ey. sets. cbn [t_val t_ctx]. do 2 eexists. split; [reflexivity|]. split; [exact Ex|]. split; [auto|].
    intros u. cbn [t_val]. rewrite Fx. unfold cut, LhSpec.trunc. destruct (inside (wd tx) (dp tx) u) eqn:Hu; [|symmetry; apply (Hlow x tx Ex u Hu)].
    rewrite (shuf_comm R Z). rewrite (shuf_ext R _ tone _ (t_val R tx)) by auto. apply (shuf_one_l R Z).
  Qed.
  (** x * y == shuffle_multiply(x, y) *)
  Theorem times_fn p x y a b tx : res p x = Some tx -> t_free R tx = false -> ~ In a [x; y] -> b <> a ->
    let q := [STimes R a x y; SFn R FShuffle b x y] in cov (p ++ q) (tstart R) -> agree (p ++ q) a b.
  Proof.
    intros Ex Fx Na Nb q Hc. apply law; [auto|]. intros Hq Hlow. unfold q in *. cbn [scovered smay] in Hq. destruct Hq as ((t1 & t2 & E1 & E2 & Ec & Ef & H33) & _). known. cbn [In] in *.
    assert (a <> x) by (intros ?; subst; tauto). assert (a <> y) by (intros ?; subst; tauto). sets. rewrite Ex, E2. sets. rewrite Ex, E2. sets. cbn [t_val t_ctx]. rewrite Fx. do 2 eexists. split; [reflexivity|]. split; [reflexivity|]. split; [auto|]. auto.
  Qed.
  (** half_shuffle_multiply(x, y) + half_shuffle_multiply(y, x) == shuffle_multiply(x, y), if one of the two has no constant term *)
  Theorem halves_law p x y a b c tx ty : res p x = Some tx -> res p y = Some ty -> t_ctx R tx = t_ctx R ty -> rmul (t_val R tx []) (t_val R ty []) = r0 -> ~ In a [x; y] -> ~ In b [a; x; y] -> ~ In c [b; a; x; y] ->
    let q := [SFn R FHalf a x y; SFn R FHalf b y x; SLin2 R a LAdd a b; SFn R FShuffle c x y] in cov (p ++ q) (tstart R) -> agree (p ++ q) a c.
  Proof.
    intros Ex Ey Ec Hz Na Nb Nc q Hc. apply law; [auto|]. intros _ Hlow. unfold q. cbn [In] in *.
    assert (a <> x) by (intros ?; subst; tauto). assert (a <> y) by (intros ?; subst; tauto). assert (b <> a) by (intros ?; subst; tauto). assert (b <> x) by (intros ?; subst; tauto). assert (b <> y) by (intros ?; subst; tauto). assert (c <> b) by (intros ?; subst; tauto). assert (c <> a) by (intros ?; subst; tauto).
    sets. rewrite Ex, Ey. sets. rewrite Ey, Ex. sets. rewrite Ex, Ey. sets. cbn [t_val t_ctx t_free]. do 2 eexists. split; [reflexivity|]. split; [reflexivity|]. split; [auto|].
    intros u. unfold cut. rewrite <- Ec. cbn [t_val t_ctx]. unfold LhSpec.trunc. destruct (inside _ _ u); [apply halves_sum; auto|ring].
  Qed.
  (** half_shuffle_multiply(half_shuffle_multiply(x, y), z) == half_shuffle_multiply(x, shuffle_multiply(y, z)) *)
  Theorem half_assoc p x y z a b tx : res p x = Some tx -> ~ In a [x; y; z] -> ~ In b [a; x; y; z] ->
    let q := [SFn R FHalf a x y; SFn R FHalf a a z; SFn R FShuffle b y z; SFn R FHalf b x b] in cov (p ++ q) (tstart R) -> agree (p ++ q) a b.
  Proof.
    intros Ex Na Nb q Hc. apply law; [auto|]. intros Hq Hlow. unfold q in *. cbn [In] in *.
    assert (a <> x) by (intros ?; subst; tauto). assert (a <> y) by (intros ?; subst; tauto). assert (a <> z) by (intros ?; subst; tauto). assert (b <> a) by (intros ?; subst; tauto). assert (b <> x) by (intros ?; subst; tauto). assert (b <> y) by (intros ?; subst; tauto). assert (b <> z) by (intros ?; subst; tauto).
    cbn [scovered] in Hq. destruct Hq as ((t1 & t2 & E1 & E2 & Ew & En & H33) & (t3 & t4 & E3 & E4 & Ew2 & En2 & _) & _). known. cbn [tstep] in E3, E4. unfold on2 in E3, E4. rewrite Ex, E2 in E3, E4. rewrite tset_same in E3. rewrite tset_other in E4 by congruence.
    injection E3 as <-. cbn [t_ctx t_free] in *. sets. rewrite Ex, E2. sets. rewrite E4. sets. rewrite E2, E4. sets. rewrite Ex. sets. cbn [t_val t_ctx t_free].
    do 2 eexists. split; [reflexivity|]. split; [reflexivity|]. split; [auto|]. intros u. unfold cut. cbn [t_ctx t_val]. apply tr_agree. intros Hu.
    transitivity (half R (half R (t_val R tx) (t_val R t2)) (t_val R t4) u).
    - eapply half_in; eauto. intros v Hv. apply tr_in; auto.
    - rewrite half_shuf. eapply half_in; eauto. intros v Hv. symmetry. apply tr_in. rewrite <- Ew. apply inside_iff in Hv. destruct Hv as [A1 A2]. apply inside_iff. split; auto. lia.
  Qed.
  (** As a linear functional on signatures, the product is the product. *)
  Theorem product_of_functionals p x y z a tx ty tg i j : res p x = Some tx -> t_free R tx = false -> res p y = Some ty -> res p z = Some tg -> t_ctx R tg = t_ctx R tx ->
    grouplike (dp tx) (t_val R tg) -> (forall u, (i < length u)%nat -> t_val R tx u = r0) -> (forall u, (j < length u)%nat -> t_val R ty u = r0) -> (i + j <= dp tx)%nat ->
    let q := [STimes R a x y] in cov (p ++ q) (tstart R) ->
    exists e cs o t, sh_run R req ctxs (p ++ q) (sh_start R) = Ok (e, cs) /\ e a = Some o /\ sees R width depth req ctxs o t /\ t_ctx R t = t_ctx R tx /\
      pairing (wd tx) (dp tx) (t_val R t) (t_val R tg) = rmul (pairing (wd tx) (dp tx) (t_val R tx) (t_val R tg)) (pairing (wd tx) (dp tx) (t_val R ty) (t_val R tg)).
  Proof.
    intros Ex Fx Ey Ez Ec Hg Hi Hj Hij q Hc. assert (Hc' := Hc). apply cov_app in Hc'. destruct Hc' as [Hp Hq]. destruct (low_ok p x tx Hp Ex) as [_ Hctx].
    destruct (programs R req Hreq R10 width depth ctxs (p ++ q) Hc) as (e & cs & E & He & _). specialize (He a). rewrite trun_app in He. unfold q in He.
    assert (Ea : tr_ [STimes R a x y] (res p) a = Some (ShufObjSpec.mkT R (t_ctx R tx) false (fresh (t_kind R tx)) (cut R width depth tx (shuf (t_val R tx) (t_val R ty))))) by (sets; rewrite Ex, Ey; sets; rewrite Fx; reflexivity).
    rewrite Ea in He. destruct (e a) as [o|] eqn:Eo; [|destruct He]. do 4 eexists. split; [exact E|]. split; [exact Eo|]. split; [exact He|]. split; [reflexivity|]. cbn [t_val].
    set (w := wd tx). set (D := dp tx) in *. set (f := t_val R tx) in *. set (h := t_val R ty) in *. set (g := t_val R tg) in *.
    assert (Hw : 0 < w) by (destruct Hctx as ((Q & _) & _); unfold w; lia).
    transitivity (pairing w D (shuf f h) g). { apply pairing_local; auto. intros u Hu Hl. unfold cut. apply tr_in. apply inside_iff. auto. }
    transitivity (sum (seq O (S D)) (fun n => sum (seq O (S n)) (fun i => sum (words w i) (fun u => sum (words w (n - i)) (fun v => rmul (rmul (f u) (h v)) (sum (shuffles u v) g)))))).
    { unfold pairing. apply sum_ext. intros m _. apply shuf_dual. }
    rewrite (sum_rect R i j D (fun i j => sum (words w i) (fun u => sum (words w j) (fun v => rmul (rmul (f u) (h v)) (sum (shuffles u v) g))))); auto.
    - transitivity (rmul (sum (seq O (S i)) (fun i => sum (words w i) (fun u => rmul (f u) (g u)))) (sum (seq O (S j)) (fun j => sum (words w j) (fun v => rmul (h v) (g v))))).
      + rewrite <- sum_mul_r. apply sum_ext. intros m Hm. apply in_seq in Hm.
        transitivity (sum (seq 0 (S j)) (fun j => rmul (sum (words w m) (fun u => rmul (f u) (g u))) (sum (words w j) (fun v => rmul (h v) (g v))))); [|apply sum_mul_l].
        apply sum_ext. intros l Hl. apply in_seq in Hl. rewrite <- sum_mul_r. apply sum_ext. intros u Hu. rewrite <- sum_mul_l. apply sum_ext. intros v Hv.
        apply words_In in Hu. apply words_In in Hv. fold (cop g u v). rewrite (grouplike_cop R Z D g u v Hg) by lia. ring.
      + unfold pairing. f_equal; symmetry.
        * apply (sum_seq_extend R (S i)); [lia|]. intros k Hk. apply sum_zero. intros u Hu. apply words_In in Hu. rewrite Hi by lia. ring.
        * apply (sum_seq_extend R (S j)); [lia|]. intros k Hk. apply sum_zero. intros u Hu. apply words_In in Hu. rewrite Hj by lia. ring.
    - intros m l Hm. apply sum_zero. intros u Hu. apply words_In in Hu. apply sum_zero. intros v _. rewrite Hi by lia. ring.
    - intros m l Hl. apply sum_zero. intros u _. apply sum_zero. intros v Hv. apply words_In in Hv. rewrite Hj by lia. ring.
  Qed.
End Laws.

Lemma operators_refuse R req ctxs (e : Z -> option (sobj R)) cs x y z a b : e y = Some a -> e z = Some b -> so_ctx R a <> so_ctx R b \/ so_free R a <> so_free R b ->
  sh_step R req ctxs (STimes R x y z) (e, cs) = Throw /\ forall o, sh_step R req ctxs (SLin2 R x o y z) (e, cs) = Throw.
Proof.
  intros Ey Ez H. cbn [sh_step]. rewrite Ey, Ez. assert (E : ShufModel.alike R a b = false).
  { unfold ShufModel.alike. destruct H as [H|H]; [apply Z.eqb_neq in H; rewrite H; reflexivity|]. destruct (so_free R a), (so_free R b); try congruence; apply andb_false_r. }
  rewrite E. auto.
Qed.
