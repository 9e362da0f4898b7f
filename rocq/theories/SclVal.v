(** Scalars: values. *)
From Verif Require Export SclOps.
Open Scope Z_scope.

Section Val.
  Variable V : Type.
  Variable conv : sty -> sty -> V -> option V.
  Variable op : sop -> sty -> V -> V -> V.
  Variable zero : sty -> V.
  Variable bits0 : sty -> V -> bool.
  Variable R : Type.
  Variable rop : sop -> R -> R -> R.
  Variable r0 : R.
  Variable den : sty -> V -> R.
  Hypothesis SV : sound_values conv op zero bits0 rop r0 den.
  Notation mem := (mem V).
  Notation scalar := (scalar V).
  Notation cv := (convert_or conv).
  Notation means := (means r0 den).
  Variable n : nat.

  Lemma cv_den d t t' v : conv t t' v <> None -> den t' (cv d t t' v) = den t v.
  Proof. intros H. unfold convert_or. destruct (conv t t' v) as [w|] eqn:E; [|congruence]. apply (sv_conv SV) in E. auto. Qed.
  Lemma copied_den t v v' : copied V conv zero bits0 t v v' -> den t v' = den t v.
  Proof.
    intros [->| [[B ->]| ->]]; auto.
    - rewrite (sv_zero SV). symmetry. apply (sv_bits SV). auto.
    - apply cv_den. apply (sv_self SV).
  Qed.
  Lemma means_holds (m : mem) s t v : holds m s t v -> means m s (den t v).
  Proof. destruct s; [contradiction|]. intros H. exists t, v. auto. Qed.
  Lemma means_fun (m : mem) s t v y : holds m s t v -> means m s y -> y = den t v.
  Proof. destruct s; [contradiction|]. intros H (t' & v' & H' & ->). destruct (holds_fun _ _ _ _ _ _ H H') as [-> ->]. auto. Qed.
  Lemma fast_means (m : mem) s y : good n m s -> means m s y -> fast_is_zero bits0 s = true -> y = r0.
  Proof.
    intros G M F. destruct (fast_zero_good V bits0 n m s G F) as [-> |(o & t & v & -> & B)]; [exact M|]. destruct M as (t' & v' & [<- <-] & ->). apply (sv_bits SV). auto.
  Qed.
  Lemma mul_zero s' other' (x y : R) : (s' = true -> x = r0) -> (other' = true -> y = r0) -> s' || other' = true -> rop Mul x y = r0.
  Proof.
    intros H1 H2 H. apply orb_true_iff in H as [H|H]; [rewrite (H1 H)|rewrite (H2 H)]; apply (sv_mul0 SV).
  Qed.
  (** The type of the result of an operation with a scalar. *)
  Definition fits (m : mem) (s other : scalar) : Prop := forall t v t' w, holds m s t v -> holds m other t' w -> common t t' = t.
  Lemma op_assign_value o (m : mem) s other t v y : (n <= length m)%nat -> good n m s -> good n m other -> apart V s other -> holds m s t v -> means m other y -> ~ constant s ->
    (target s = None \/ fits m s other) ->
    exists m' s' t2 v2, op_assign conv op zero bits0 o m s other = Ok (m', s') /\ effect n m s m' s' /\ target s' = target s /\ ~ constant s' /\
      holds m' s' t2 v2 /\ den t2 v2 = rop o (den t v) y /\
      (forall t' w, holds m other t' w -> (t2 = t \/ t2 = common t t') /\ (target s <> None -> t2 = t) /\ (target s = None -> den t v <> r0 -> den t' w <> r0 -> t2 = common t t')).
  Proof.
    intros Hn G G' A H M C Fit.
    assert (Zc : rop o (den t v) y = r0 -> (den t v = r0 \/ y = r0) -> exists m' s' t2 v2, assign_zero conv zero m s = Ok (m', s') /\ effect n m s m' s' /\ target s' = target s /\ ~ constant s' /\
      holds m' s' t2 v2 /\ den t2 v2 = rop o (den t v) y /\
      (forall t' w, holds m other t' w -> (t2 = t \/ t2 = common t t') /\ (target s <> None -> t2 = t) /\ (target s = None -> den t v <> r0 -> den t' w <> r0 -> t2 = common t t'))).
    { intros E0 D. destruct (assign_zero_ok V conv zero n m s t v Hn G H) as [[_ [X|X]]|(_ & z & m' & s' & Ez & X1 & X2 & X3 & X4 & X5)]; [contradiction|destruct (sv_zero_conv SV t X)|].
      exists m', s', t, z. split; [auto|]. split; [auto|]. split; [auto|]. split; [auto|]. split; [auto|]. split.
      - rewrite E0. rewrite (sv_conv SV _ _ _ _ Ez). apply (sv_zero SV).
      - intros t' w H'. pose proof (means_fun _ _ _ _ _ H' M) as Ey. split; [auto|]. split; [auto|]. intros _ D1 D2. destruct D; congruence. }
    assert (Ip : fast_is_zero bits0 other = false -> exists m' s' t2 v2, inplace conv op zero o m s other = Ok (m', s') /\ effect n m s m' s' /\ target s' = target s /\ ~ constant s' /\
      holds m' s' t2 v2 /\ den t2 v2 = rop o (den t v) y /\
      (forall t' w, holds m other t' w -> (t2 = t \/ t2 = common t t') /\ (target s <> None -> t2 = t) /\ (target s = None -> den t v <> r0 -> den t' w <> r0 -> t2 = common t t'))).
    { intros F. assert (N' : other <> Null) by (intros ->; discriminate). destruct (good_holds n m other G' N') as (t' & w & H'). pose proof (means_fun _ _ _ _ _ H' M) as ->.
      destruct (inplace_ok V conv op zero n o m s other t v t' w Hn G G' A H H') as [[X _]|(_ & m' & s' & X1 & X2 & X3 & X4 & v2 & Ev & Hh)]; [contradiction|].
      set (t2 := match target s with Some _ => t | None => common t t' end) in *.
      assert (P2 : t2 = t /\ common t t' = t \/ t2 = common t t').
      { subst t2. destruct (target s) as [p|] eqn:Ts; [|auto]. left. split; [auto|]. destruct Fit as [X|X]; [discriminate|]. eapply X; eauto. }
      exists m', s', t2. eexists. split; [exact X1|]. split; [auto|]. split; [auto|]. split; [auto|]. split; [exact Hh|]. split.
      - rewrite (sv_op SV). f_equal.
        + destruct Ev as [[E2 ->]|[N2 ->]]; [rewrite E2; auto|]. apply cv_den. destruct P2 as [[E2 _]|E2]; [congruence|]. rewrite E2. apply (sv_left SV).
        + destruct (sty_eq_dec t2 t') as [E3|_]; [rewrite E3; auto|]. apply cv_den. destruct P2 as [[E2 Ep]|E2]; [rewrite E2, <- Ep|rewrite E2]; apply (sv_right SV).
      - intros t1 w1 H1. destruct (holds_fun _ _ _ _ _ _ H' H1) as [<- <-]. split; [|split].
        + destruct P2 as [[? _]|?]; auto.
        + subst t2. destruct (target s); congruence.
        + intros Ts _ _. subst t2. rewrite Ts. reflexivity. }
    assert (Ic : fast_is_zero bits0 other = true -> y = r0) by (intros F; eapply fast_means; eauto).
    assert (Is : fast_is_zero bits0 s = true -> den t v = r0) by (intros F; apply (fast_means m s _ G (means_holds _ _ _ _ H) F)).
    unfold op_assign. destruct o.
    - destruct (fast_is_zero bits0 other) eqn:F; [|auto]. exists m, s, t, v. split; [reflexivity|]. split; [apply effect_refl; auto|]. split; [auto|]. split; [auto|]. split; [auto|].
      rewrite (Ic eq_refl). split; [symmetry; apply (sv_add0 SV)|]. intros t' w H'. split; [auto|]. split; [auto|]. intros _ _ D. destruct D. rewrite <- (means_fun _ _ _ _ _ H' M). auto.
    - destruct (fast_is_zero bits0 other) eqn:F; [|auto]. exists m, s, t, v. split; [reflexivity|]. split; [apply effect_refl; auto|]. split; [auto|]. split; [auto|]. split; [auto|].
      rewrite (Ic eq_refl). split; [symmetry; apply (sv_sub0 SV)|]. intros t' w H'. split; [auto|]. split; [auto|]. intros _ _ D. destruct D. rewrite <- (means_fun _ _ _ _ _ H' M). auto.
    - destruct (fast_is_zero bits0 s || fast_is_zero bits0 other) eqn:F.
      + apply Zc; [apply (mul_zero _ _ _ _ Is Ic F)|]. apply orb_true_iff in F as [F|F]; auto.
      + apply Ip. apply orb_false_iff in F. tauto.
  Qed.
  Lemma copy_value (m : mem) s t v : (n <= length m)%nat -> good n m s -> holds m s t v ->
    exists m' r v', copy conv zero bits0 m s = Ok (m', r) /\ effect n m Null m' r /\ target r = None /\ ~ constant r /\ holds m' r t v' /\ den t v' = den t v.
  Proof.
    intros Hn G H. destruct (copy_ok V conv zero bits0 n m s Hn G) as (m' & r & E & Ef & T & C & _ & Hv). destruct (Hv t v H) as (v' & H' & Cv). exists m', r, v'.
    split; [auto|]. split; [auto|]. split; [auto|]. split; [auto|]. split; [auto|]. apply copied_den. auto.
  Qed.
  Lemma means_kept (m m' : mem) r s y : good n m s -> effect n m Null m' r -> means m s y -> means m' s y.
  Proof.
    destruct s; [auto|]. intros G E (u & v & H & ->). exists u, v. split; auto. eapply holds_frame; [exact H|]. intros p _ Hp. apply (ef_frame _ _ _ _ _ E); auto; discriminate.
  Qed.
  Lemma holds_kept (m m' : mem) r s t v : effect n m Null m' r -> holds m s t v -> holds m' s t v.
  Proof. intros E H. eapply holds_frame; [exact H|]. intros p _ Hp. apply (ef_frame _ _ _ _ _ E); auto; discriminate. Qed.
  Lemma binary_value o (m : mem) a b t v y : (n <= length m)%nat -> good n m a -> good n m b -> holds m a t v -> means m b y ->
    exists m' r t2 v2, binary conv op zero bits0 o m a b = Ok (m', r) /\ effect n m Null m' r /\ target r = None /\ ~ constant r /\ holds m' r t2 v2 /\ den t2 v2 = rop o (den t v) y /\
      (forall t' w, holds m b t' w -> (t2 = t \/ t2 = common t t') /\ (den t v <> r0 -> den t' w <> r0 -> t2 = common t t')).
  Proof.
    intros Hn G G' H M. unfold binary. destruct (copy_value m a t v Hn G H) as (m1 & r & v1 & Ec & E & T & C & Hr & D). rewrite Ec. cbn [bind fst snd].
    pose proof (ef_len _ _ _ _ _ E) as L.
    destruct (op_assign_value o m1 r b t v1 y ltac:(lia) (ef_good _ _ _ _ _ E) (good_kept V n _ _ _ _ G' E) (fresh_apart V n _ _ _ _ G' E) Hr (means_kept _ _ _ _ _ G' E M) C (or_introl T))
      as (m' & s' & t2 & v2 & X1 & X2 & X3 & X4 & X5 & X6 & X7).
    exists m', s', t2, v2. split; [auto|]. split; [eapply effect_trans; [exact Hn|exact I|exact E|right; exact T|exact X2]|]. split; [congruence|]. split; [auto|]. split; [auto|]. split; [congruence|].
    intros t' w H'. destruct (X7 t' w (holds_kept _ _ _ _ _ _ E H')) as (Y1 & _ & Y3). split; auto. intros D1 D2. apply Y3; auto. congruence.
  Qed.
  Lemma assign_value (m : mem) s other t' w : (n <= length m)%nat -> good n m s -> good n m other -> holds m other t' w -> ~ constant s -> fits m s other ->
    exists m' s' t2 v2, assign conv zero bits0 m s other = Ok (m', s') /\ effect n m s m' s' /\ target s' = target s /\ ~ constant s' /\ holds m' s' t2 v2 /\ den t2 v2 = den t' w.
  Proof.
    intros Hn G G' H' C Fit. unfold assign. destruct (fast_is_zero bits0 s) eqn:F.
    - assert (On : owned s = None /\ target s = None) by (destruct (fast_zero_good V bits0 n m s G F) as [-> |(o & t & v & -> & _)]; auto).
      assert (R1 : exists m' r v', match other with
        | Null => UB | Scl o t (CTrivial v) => Ok (m, Scl o t (CTrivial v)) | Scl o t (CConstTrivial v) => Ok (m, Scl o t (CConstTrivial v))
        | Scl o t (COpaque p) | Scl o t (CConstOpaque p) => copy_pointer conv zero m o t p | Scl o t (COwned p) => copy_owned conv zero m o t p end = Ok (m', r) /\ effect n m Null m' r /\ target r = None /\ ~ constant r /\
        holds m' r t' v' /\ den t' v' = den t' w).
      { destruct other as [|o t [x|x|[p|]|[p|]|[p|]]]; cbn [good] in G'; try contradiction.
        - destruct H' as [<- <-]. eexists; eexists; exists x. split; [reflexivity|]. destruct (inline_new n m o t x G') as (Y1 & Y2 & Y3 & Y4). auto 10.
        - destruct (copy_value m (Scl o t (COpaque (Some p))) t' w Hn G' H') as (m' & r & v' & X). exists m', r, v'. exact X.
        - destruct (copy_value m (Scl o t (CConstOpaque (Some p))) t' w Hn G' H') as (m' & r & v' & X). exists m', r, v'. exact X.
        - destruct (copy_value m (Scl o t (COwned (Some p))) t' w Hn G' H') as (m' & r & v' & X). exists m', r, v'. exact X. }
      destruct R1 as (m' & r & v' & X & E & T & Cr & Hr & D). exists m', r, t', v'. split; [auto|]. split; [apply effect_null; tauto|]. split; [destruct On; congruence|]. auto.
    - assert (Ns : s <> Null) by (intros ->; discriminate). destruct (good_holds n m s G Ns) as (t & v & H). pose proof (Fit t v t' w H H') as Ep.
      rewrite (holds_ti _ _ _ _ H), (holds_ti _ _ _ _ H'). cbn [bind]. rewrite (holds_value _ _ _ _ H'). cbn [bind]. rewrite (holds_value _ _ _ _ H). cbn [bind].
      destruct (write_ok n m s t v (cv v t' t w) Hn G H C) as (m' & s' & X1 & X2 & X3 & _ & X4 & X5 & _). exists m', s', t. eexists. split; [exact X1|]. split; [auto|]. split; [auto|]. split; [auto|].
      split; [exact X3|]. apply cv_den. rewrite <- Ep at 1. apply (sv_right SV).
  Qed.
  Variable is0 : sty -> V -> bool.
  Variable eqv : sty -> V -> sty -> V -> bool.
  Lemma is_zero_value (m : mem) s y : sound_equal bits0 is0 eqv r0 den -> good n m s -> means m s y -> exists b, is_zero bits0 is0 m s = Ok b /\ (b = true <-> y = r0).
  Proof.
    intros SE G M. unfold is_zero. destruct (fast_is_zero bits0 s) eqn:F; [exists true; split; auto; split; auto; intros _; eapply fast_means; eauto|].
    destruct s as [|o t [x|x|[p|]|[p|]|[p|]]]; try discriminate; cbn [good] in G; try contradiction; destruct M as (t' & v' & H & ->); pose proof (holds_value _ _ _ _ H) as Hv; destruct H as [<- H].
    - subst. cbn [fast_is_zero] in F. rewrite F. exists false. split; auto. rewrite <- F. apply (se_bits SE). auto.
    - rewrite Hv. cbn [bind]. eexists. split; [reflexivity|]. apply (se_is0 SE).
    - rewrite Hv. cbn [bind]. eexists. split; [reflexivity|]. apply (se_is0 SE).
    - rewrite Hv. cbn [bind]. eexists. split; [reflexivity|]. apply (se_is0 SE).
  Qed.
  Lemma equal_value (m : mem) a b x y : sound_equal bits0 is0 eqv r0 den -> good n m a -> good n m b -> means m a x -> means m b y ->
    exists e, equal bits0 is0 eqv m a b = Ok e /\ (e = true <-> x = y).
  Proof.
    intros SE Ga Gb Ma Mb. unfold equal. destruct (fast_is_zero bits0 a) eqn:Fa.
    - destruct (is_zero_value m b y SE Gb Mb) as (e & E & He). exists e. split; auto. rewrite He, (fast_means m a x Ga Ma Fa). split; congruence.
    - destruct (fast_is_zero bits0 b) eqn:Fb.
      + destruct (is_zero_value m a x SE Ga Ma) as (e & E & He). exists e. split; auto. rewrite He, (fast_means m b y Gb Mb Fb). tauto.
      + assert (Na : a <> Null) by (intros ->; discriminate). assert (Nb : b <> Null) by (intros ->; discriminate).
        destruct (good_holds n m a Ga Na) as (t & v & H). destruct (good_holds n m b Gb Nb) as (t' & w & H'). pose proof (means_fun _ _ _ _ _ H Ma) as ->. pose proof (means_fun _ _ _ _ _ H' Mb) as ->.
        rewrite (holds_ti _ _ _ _ H), (holds_ti _ _ _ _ H'). cbn [bind]. rewrite (holds_value _ _ _ _ H). cbn [bind]. rewrite (holds_value _ _ _ _ H'). cbn [bind].
        eexists. split; [reflexivity|]. apply (se_eqv SE).
  Qed.
  Variable quot : sty -> V -> sty -> V -> outcome V.
  Lemma div_value (m : mem) s other t v w q : (n <= length m)%nat -> good n m s -> good n m other -> holds m s t v -> holds m other t w -> ~ constant s -> fast_is_zero bits0 other = false -> quot t v t w = Ok q ->
    exists m' s', div_assign conv quot zero bits0 m s other = Ok (m', s') /\ effect n m s m' s' /\ target s' = target s /\ ~ constant s' /\ holds m' s' t q.
  Proof.
    intros Hn G G' H H' C F Q. unfold div_assign. rewrite F, (holds_ti _ _ _ _ H), (holds_ti _ _ _ _ H'). cbn [bind]. rewrite (holds_value _ _ _ _ H'). cbn [bind].
    destruct (sty_eq_dec t t) as [_|X]; [|congruence]. cbn [bind fst snd]. rewrite (holds_value _ _ _ _ H).
    destruct (write_ok n m s t v q Hn G H C) as (m' & s' & X1 & X2 & X3 & _ & X4 & X5 & _).
    destruct s as [|o u [x|x|[p|]|[p|]|[p|]]]; cbn [good constant] in *; try contradiction; cbn [bind]; rewrite Q; cbn [bind]; exists m', s'; auto.
  Qed.
End Val.
