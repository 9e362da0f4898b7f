(** Scalars: each operation. *)
From Verif Require Export SclProofs.
Open Scope Z_scope.

Lemma promote_common t t' : promote t t' = common t t'.
Proof. destruct t, t'; reflexivity. Qed.
Lemma common_same t : common t t = t.
Proof. destruct t; reflexivity. Qed.

Section Ops.
  Variable V : Type.
  Variable conv : sty -> sty -> V -> option V.
  Variable op : sop -> sty -> V -> V -> V.
  Variable quot : sty -> V -> sty -> V -> outcome V.
  Variable zero : sty -> V.
  Variable bits0 is0 : sty -> V -> bool.
  Variable eqv : sty -> V -> sty -> V -> bool.
  Notation mem := (mem V).
  Notation scalar := (scalar V).
  Notation cv := (convert_or conv).
  Variable n : nat.

  (** No cell belongs to both, unless they are one and the same. *)
  Definition apart (s other : scalar) : Prop := s = other \/ forall p, owned s = Some p -> owned other <> Some p.

  Lemma fast_zero_good (m : mem) s : good n m s -> fast_is_zero bits0 s = true -> s = Null \/ exists o t v, s = Scl o t (CTrivial v) /\ bits0 t v = true.
  Proof. destruct s as [|o t [x|x|[p|]|[p|]|[p|]]]; cbn [good fast_is_zero]; intros G H; try discriminate; try contradiction; eauto. right. eauto. Qed.
  Lemma fast_zero_holds (m : mem) s t v : good n m s -> holds m s t v -> fast_is_zero bits0 s = true -> bits0 t v = true.
  Proof. intros G H F. destruct (fast_zero_good m s G F) as [-> |(o & t' & v' & -> & B)]; cbn [holds] in H; [contradiction|]. destruct H as [<- <-]. auto. Qed.
  Lemma effect_null (m m' : mem) s r : owned s = None -> target s = None -> effect n m Null m' r -> effect n m s m' r.
  Proof.
    intros Ho Ht [A1 A2 A3 A4 A5 A6 A7]. constructor; auto; try congruence.
    - intros p Hp _ _. apply A2; auto; discriminate.
    - intros p Hp. right. destruct (A5 p Hp); [discriminate|auto].
  Qed.
  Definition copied (t : sty) (v v' : V) : Prop := v' = v \/ (bits0 t v = true /\ v' = zero t) \/ v' = cv (zero t) t t v.
  Lemma copy_ok (m : mem) s : (n <= length m)%nat -> good n m s ->
    exists m' r, copy conv zero bits0 m s = Ok (m', r) /\ effect n m Null m' r /\ target r = None /\ ~ constant r /\ (s = Null -> r = Null) /\
      forall t v, holds m s t v -> exists v', holds m' r t v' /\ copied t v v'.
  Proof.
    intros Hn G. destruct s as [|o t [x|x|[p|]|[p|]|[p|]]]; cbn [good copy fast_is_zero] in *; try contradiction.
    - exists m, Null. split; [reflexivity|]. split; [apply effect_refl; exact I|]. cbn. repeat split; auto. intros t v [].
    - destruct (bits0 t x) eqn:B.
      + exists m, (Scl o t (CTrivial (zero t))). split; [reflexivity|]. destruct (inline_new n m o t (zero t) G) as (E & H & T & C). split; [exact E|]. split; [exact T|]. split; [exact C|]. split; [discriminate|].
        intros t' v [<- <-]. exists (zero t). split; auto. right. left. auto.
      + exists m, (Scl o t (CTrivial x)). split; [reflexivity|]. destruct (inline_new n m o t x G) as (E & H & T & C). split; [exact E|]. split; [exact T|]. split; [exact C|]. split; [discriminate|].
        intros t' v [<- <-]. exists x. split; auto. left. auto.
    - destruct G as (-> & G2 & v & E). unfold copy_pointer, allocate. rewrite (proj2 (load_ok m t p v)) by auto. cbn [bind]. destruct (inline t) eqn:Hi.
      + eexists; eexists. split; [reflexivity|]. destruct (inline_new n m true t v Hi) as (Ef & H & T & C). split; [exact Ef|]. split; [exact T|]. split; [exact C|]. split; [discriminate|].
        intros t' v' [<- H']. exists v. split; auto. left. congruence.
      + eexists; eexists. split; [reflexivity|]. destruct (new_cell n m t (cv (zero t) t t v) Hn) as (Ef & H & T & C). split; [exact Ef|]. split; [exact T|]. split; [exact C|]. split; [discriminate|].
        intros t' v' [<- H']. eexists. split; [exact H|]. right. right. replace v' with v by congruence. reflexivity.
    - destruct G as (-> & G2 & v & E). unfold copy_pointer, allocate. rewrite (proj2 (load_ok m t p v)) by auto. cbn [bind]. destruct (inline t) eqn:Hi.
      + eexists; eexists. split; [reflexivity|]. destruct (inline_new n m true t v Hi) as (Ef & H & T & C). split; [exact Ef|]. split; [exact T|]. split; [exact C|]. split; [discriminate|].
        intros t' v' [<- H']. exists v. split; auto. left. congruence.
      + eexists; eexists. split; [reflexivity|]. destruct (new_cell n m t (cv (zero t) t t v) Hn) as (Ef & H & T & C). split; [exact Ef|]. split; [exact T|]. split; [exact C|]. split; [discriminate|].
        intros t' v' [<- H']. eexists. split; [exact H|]. right. right. replace v' with v by congruence. reflexivity.
    - destruct G as (-> & G2 & v & E). unfold copy_owned, allocate. rewrite (proj2 (load_ok m t p v)) by auto. cbn [bind].
      eexists; eexists. split; [reflexivity|]. destruct (new_cell n m t (cv (zero t) t t v) Hn) as (Ef & H & T & C). split; [exact Ef|]. split; [exact T|]. split; [exact C|]. split; [discriminate|].
      intros t' v' [<- H']. eexists. split; [exact H|]. right. right. replace v' with v by congruence. reflexivity.
  Qed.
  Lemma assign_zero_ok (m : mem) s t v : (n <= length m)%nat -> good n m s -> holds m s t v ->
    (assign_zero conv zero m s = Throw /\ (constant s \/ conv I32 t (zero I32) = None)) \/
    ~ constant s /\ exists z m' s', conv I32 t (zero I32) = Some z /\ assign_zero conv zero m s = Ok (m', s') /\ effect n m s m' s' /\ holds m' s' t z /\ target s' = target s /\ ~ constant s'.
  Proof.
    intros Hn G H. assert (W : forall z, ~ constant s -> exists m' s', write m t s z = Ok (m', s') /\ effect n m s m' s' /\ holds m' s' t z /\ target s' = target s /\ ~ constant s').
    { intros z C. destruct (write_ok n m s t v z Hn G H C) as (m' & s' & A & B & D & _ & E & F & _). exists m', s'. auto 10. }
    destruct s as [|o t' [x|x|[p|]|[p|]|[p|]]]; cbn [good holds assign_zero write] in *; try contradiction; destruct H as [-> H].
    - destruct (conv I32 t (zero I32)) as [z|]; [|auto]. right. split; [cbn; auto|]. destruct (W z) as (m' & s' & A & B & D & E & F); [cbn; auto|]. destruct (sty_eq_dec t t) in A; [|congruence].
      exists z, m', s'. auto 10.
    - destruct (conv I32 t (zero I32)) as [z|]; [|auto]. right. split; [cbn; auto|]. destruct (W z) as (m' & s' & A & B & D & E & F); [cbn; auto|]. exists z, m', s'. auto 10.
    - left. destruct (conv I32 t (zero I32)) as [z|]; cbn; auto.
    - destruct (conv I32 t (zero I32)) as [z|]; [|auto]. right. split; [cbn; auto|]. destruct (W z) as (m' & s' & A & B & D & E & F); [cbn; auto|]. exists z, m', s'. auto 10.
  Qed.
  Lemma arith_ok o (m : mem) s other t v t' w : (n <= length m)%nat -> good n m s -> holds m s t v -> holds m other t' w ->
    (constant s /\ arith conv op zero o m s other = Throw) \/
    ~ constant s /\ arith conv op zero o m s other = write m t s (op o t v (if sty_eq_dec t t' then w else cv (zero t) t' t w)).
  Proof.
    intros Hn G H H'. unfold arith. rewrite (holds_ti _ _ _ _ H), (holds_ti _ _ _ _ H'). cbn [bind]. rewrite (holds_value _ _ _ _ H'). cbn [bind].
    destruct s as [|o' u [x|x|[p|]|[p|]|[p|]]]; cbn [good constant] in *; try contradiction; cbn [bind]; rewrite ?(holds_value _ _ _ _ H); cbn [bind]; auto.
  Qed.
  Lemma change_type_ok (m : mem) s t v t' : (n <= length m)%nat -> good n m s -> holds m s t v ->
    exists m' r, change_type conv zero m s t' = Ok (m', r) /\ effect n m s m' r /\ holds m' r t' (cv (zero t') t t' v) /\ target r = None /\ ~ constant r /\
      (forall p, (p < length m)%nat -> owned s <> Some p -> nth_error m' p = nth_error m p).
  Proof.
    intros Hn G H. unfold change_type. rewrite (holds_ti _ _ _ _ H). cbn [bind]. rewrite (holds_value _ _ _ _ H). cbn [bind].
    destruct (make_ok n m t' (cv (zero t') t t' v) Hn) as (m1 & r & Em & E & Hr & T & C). rewrite Em. cbn [bind fst snd].
    destruct (replace_ok n m m1 s r _ _ Hn G E Hr T) as (m' & Ed & D & Hm & F). rewrite Ed. cbn [bind]. exists m', r. auto 10.
  Qed.
  Lemma other_kept (m m' : mem) s other t' w : holds m other t' w -> apart s other -> s <> other -> (forall p, (p < length m)%nat -> owned s <> Some p -> nth_error m' p = nth_error m p) ->
    (forall p, target other = Some p -> owned s <> Some p) -> holds m' other t' w.
  Proof.
    intros H A Ne F T. eapply holds_frame; [exact H|]. intros p Hr Hp. apply F; auto. intros Ho. destruct Hr as [Hr|Hr]; [destruct A as [A|A]; [auto|exact (A p Ho Hr)]|exact (T p Hr Ho)].
  Qed.
  Lemma inplace_ok o (m : mem) s other t v t' w : (n <= length m)%nat -> good n m s -> good n m other -> apart s other -> holds m s t v -> holds m other t' w ->
    (constant s /\ inplace conv op zero o m s other = Throw) \/
    ~ constant s /\ exists m' s', let t2 := match target s with Some _ => t | None => common t t' end in
      inplace conv op zero o m s other = Ok (m', s') /\ effect n m s m' s' /\ target s' = target s /\ ~ constant s' /\
      exists v2, (t2 = t /\ v2 = v \/ t2 <> t /\ v2 = cv (zero t2) t t2 v) /\ holds m' s' t2 (op o t2 v2 (if sty_eq_dec t2 t' then w else cv (zero t2) t' t2 w)).
  Proof.
    intros Hn G G' A H H'. unfold inplace. rewrite (holds_ti _ _ _ _ H), (holds_ti _ _ _ _ H'). cbn [bind].
    assert (Same : (constant s /\ arith conv op zero o m s other = Throw) \/ ~ constant s /\ exists m' s',
      arith conv op zero o m s other = Ok (m', s') /\ effect n m s m' s' /\ target s' = target s /\ ~ constant s' /\ holds m' s' t (op o t v (if sty_eq_dec t t' then w else cv (zero t) t' t w))).
    { destruct (arith_ok o m s other t v t' w Hn G H H') as [[C E]|[C E]]; [auto|]. right. split; auto. rewrite E.
      destruct (write_ok n m s t v (op o t v (if sty_eq_dec t t' then w else cv (zero t) t' t w)) Hn G H C) as (m' & s' & X1 & X2 & X3 & _ & X4 & X5 & _). exists m', s'. auto 10. }
    destruct (sty_eq_dec t t') as [Et|Ne].
    - destruct Same as [S|(C & m' & s' & X1 & X2 & X3 & X4 & X5)]; [auto|]. right. split; auto. exists m', s'.
      assert (T2 : match target s with Some _ => t | None => common t t' end = t) by (destruct (target s); auto; rewrite Et; apply common_same).
      cbv zeta. rewrite T2. split; [auto|]. split; [auto|]. split; [auto|]. split; [auto|]. exists v. split; [auto|]. destruct (sty_eq_dec t t'); [auto|congruence].
    - assert (Dt : dest_type s t t' = match target s with Some _ => t | None => common t t' end).
      { destruct s as [|o' u [x|x|[p|]|[p|]|[p|]]]; cbn [good] in G; try contradiction; cbn [dest_type target]; auto using promote_common. }
      rewrite Dt. cbv zeta. set (t2 := match target s with Some _ => t | None => common t t' end) in *. destruct (sty_eq_dec t2 t) as [E2|N2].
      + cbn [bind fst snd]. rewrite E2. destruct Same as [S|(C & m' & s' & X1 & X2 & X3 & X4 & X5)]; [auto|]. right. split; auto. exists m', s'. split; [auto|]. split; [auto|]. split; [auto|]. split; [auto|]. exists v. split; [auto|].
        destruct (sty_eq_dec t t'); [congruence|auto].
      + assert (Tn : target s = None) by (destruct (target s); [subst t2; congruence|reflexivity]).
        destruct (change_type_ok m s t v t2 Hn G H) as (m1 & r & Ec & E & Hr & T & C & F). rewrite Ec. cbn [bind fst snd].
        assert (Cs : ~ constant s) by (destruct s as [|o' u [x|x|[p|]|[p|]|[p|]]]; cbn [good constant target] in *; try contradiction; try discriminate; auto).
        assert (So : s <> other) by (intros ->; destruct (holds_fun _ _ _ _ _ _ H H'); congruence).
        assert (H1 : holds m1 other t' w).
        { eapply other_kept; eauto. intros p Hp Ho. apply (good_target _ _ _ _ G') in Hp. apply (good_owned _ _ _ _ G) in Ho. lia. }
        pose proof (ef_len _ _ _ _ _ E) as L. pose proof (ef_good _ _ _ _ _ E) as Gr.
        destruct (arith_ok o m1 r other t2 _ t' w ltac:(lia) Gr Hr H1) as [[X _]|[_ Ea]]; [contradiction|]. rewrite Ea.
        destruct (write_ok n m1 r t2 _ (op o t2 (cv (zero t2) t t2 v) (if sty_eq_dec t2 t' then w else cv (zero t2) t' t2 w)) ltac:(lia) Gr Hr C) as (m' & s' & X1 & X2 & X3 & _ & X4 & X5 & _).
        right. split; [auto|]. exists m', s'. split; [auto|]. split; [eapply effect_trans; eauto|]. split; [congruence|]. split; [auto|]. exists (cv (zero t2) t t2 v). split; auto.
  Qed.
  Lemma op_assign_safe o (m : mem) s other : (n <= length m)%nat -> good n m s -> good n m other -> apart s other -> s <> Null ->
    op_assign conv op zero bits0 o m s other = Throw \/ exists m' s', op_assign conv op zero bits0 o m s other = Ok (m', s') /\ effect n m s m' s'.
  Proof.
    intros Hn G G' A N. destruct (good_holds n m s G N) as (t & v & H).
    assert (Z0 : assign_zero conv zero m s = Throw \/ exists m' s', assign_zero conv zero m s = Ok (m', s') /\ effect n m s m' s').
    { destruct (assign_zero_ok m s t v Hn G H) as [[X _]|(_ & z & m' & s' & _ & X1 & X2 & _)]; [auto|]. right. exists m', s'. auto 10. }
    assert (P : fast_is_zero bits0 other = false -> inplace conv op zero o m s other = Throw \/ exists m' s', inplace conv op zero o m s other = Ok (m', s') /\ effect n m s m' s').
    { intros F. assert (N' : other <> Null) by (intros ->; discriminate). destruct (good_holds n m other G' N') as (t' & w & H').
      destruct (inplace_ok o m s other t v t' w Hn G G' A H H') as [[_ X]|(_ & m' & s' & X1 & X2 & _)]; [auto|]. right. exists m', s'. auto 10. }
    unfold op_assign. destruct o, (fast_is_zero bits0 other) eqn:F; rewrite ?orb_true_r; auto.
    1,2: right; exists m, s; split; [reflexivity|apply effect_refl; auto].
    destruct (fast_is_zero bits0 s); cbn [orb]; auto.
  Qed.
  Lemma fresh_apart (m m' : mem) r other : good n m other -> effect n m Null m' r -> apart r other.
  Proof.
    intros G E. right. intros p Hp Ho. apply (good_owned _ _ _ _ G) in Ho. destruct (ef_own _ _ _ _ _ E _ Hp); [discriminate|lia].
  Qed.
  Lemma good_kept (m m' : mem) r other : good n m other -> effect n m Null m' r -> good n m' other.
  Proof. intros G E. eapply good_frame; [exact G|apply E|]. intros p Hp. apply (ef_frame _ _ _ _ _ E); try discriminate. eapply good_owned; eauto. Qed.
  Lemma binary_safe o (m : mem) s other : (n <= length m)%nat -> good n m s -> good n m other -> s <> Null ->
    binary conv op zero bits0 o m s other = Throw \/ exists m' s', binary conv op zero bits0 o m s other = Ok (m', s') /\ effect n m Null m' s'.
  Proof.
    intros Hn G G' N. unfold binary. destruct (copy_ok m s Hn G) as (m1 & r & Ec & E & T & C & _ & Hv). rewrite Ec. cbn [bind fst snd].
    pose proof (ef_len _ _ _ _ _ E) as L. destruct (good_holds n m s G N) as (t & v & H). destruct (Hv t v H) as (v' & Hr & _).
    assert (Nr : r <> Null) by (intros ->; exact Hr).
    destruct (op_assign_safe o m1 r other ltac:(lia) (ef_good _ _ _ _ _ E) (good_kept _ _ _ _ G' E) (fresh_apart _ _ _ _ G' E) Nr) as [X|(m' & s' & X & E')]; [auto|].
    right. exists m', s'. split; auto. eapply effect_trans; [exact Hn|exact I|exact E|right; exact T|exact E'].
  Qed.
  Lemma assign_safe (m : mem) s other : (n <= length m)%nat -> good n m s -> good n m other -> other <> Null ->
    assign conv zero bits0 m s other = Throw \/ exists m' s', assign conv zero bits0 m s other = Ok (m', s') /\ effect n m s m' s'.
  Proof.
    intros Hn G G' N. unfold assign. destruct (fast_is_zero bits0 s) eqn:F.
    - assert (On : owned s = None /\ target s = None) by (destruct (fast_zero_good m s G F) as [-> |(o & t & v & -> & _)]; auto).
      assert (R : exists m' r, match other with
        | Null => UB | Scl o t (CTrivial v) => Ok (m, Scl o t (CTrivial v)) | Scl o t (CConstTrivial v) => Ok (m, Scl o t (CConstTrivial v))
        | Scl o t (COpaque p) | Scl o t (CConstOpaque p) => copy_pointer conv zero m o t p | Scl o t (COwned p) => copy_owned conv zero m o t p end = Ok (m', r) /\ effect n m Null m' r).
      { destruct other as [|o t [x|x|[p|]|[p|]|[p|]]]; cbn [good] in G'; try contradiction; try congruence.
        - eexists; eexists. split; [reflexivity|]. apply inline_new; auto.
        - destruct (copy_ok m (Scl o t (COpaque (Some p))) Hn G') as (m' & r & X & E & _). exists m', r. auto 10.
        - destruct (copy_ok m (Scl o t (CConstOpaque (Some p))) Hn G') as (m' & r & X & E & _). exists m', r. auto 10.
        - destruct (copy_ok m (Scl o t (COwned (Some p))) Hn G') as (m' & r & X & E & _). exists m', r. auto 10. }
      destruct R as (m' & r & X & E). right. exists m', r. split; auto. apply effect_null; tauto.
    - assert (Ns : s <> Null) by (intros ->; discriminate). destruct (good_holds n m s G Ns) as (t & v & H). destruct (good_holds n m other G' N) as (t' & w & H').
      rewrite (holds_ti _ _ _ _ H), (holds_ti _ _ _ _ H'). cbn [bind]. rewrite (holds_value _ _ _ _ H'). cbn [bind]. rewrite (holds_value _ _ _ _ H). cbn [bind].
      set (z := convert_or conv v t' t w). assert (W : ~ constant s -> write m t s z = Throw \/ exists m' s', write m t s z = Ok (m', s') /\ effect n m s m' s').
      { intros C. destruct (write_ok n m s t v z Hn G H C) as (m' & s' & X1 & X2 & _). right. exists m', s'. auto. }
      destruct s as [|o u [x|x|[p|]|[p|]|[p|]]]; cbn [good] in G; try contradiction; try congruence; try (apply W; cbn; auto; fail). left. reflexivity.
  Qed.
  Lemma div_safe (m : mem) s other : (n <= length m)%nat -> good n m s -> good n m other -> s <> Null ->
    (forall t v t' w, holds m s t v -> holds m other t' w -> common t t' = t /\ forall x, x = v \/ x = cv (zero t) t t v -> quot t x t' w <> UB /\ quot t x t' w <> NoFuel) ->
    div_assign conv quot zero bits0 m s other = Throw \/ exists m' s', div_assign conv quot zero bits0 m s other = Ok (m', s') /\ effect n m s m' s'.
  Proof.
    intros Hn G G' N P. unfold div_assign. destruct (fast_is_zero bits0 other) eqn:F; [auto|].
    assert (N' : other <> Null) by (intros ->; discriminate). destruct (good_holds n m s G N) as (t & v & H). destruct (good_holds n m other G' N') as (t' & w & H').
    destruct (P t v t' w H H') as [Pt Pq]. rewrite (holds_ti _ _ _ _ H), (holds_ti _ _ _ _ H'). cbn [bind]. rewrite (holds_value _ _ _ _ H'). cbn [bind].
    assert (Q : forall m1 r x, (n <= length m1)%nat -> good n m1 r -> holds m1 r t x -> (x = v \/ x = cv (zero t) t t v) -> effect n m s m1 r -> target r = target s \/ target r = None ->
      let res := (let! _ := match r with Scl _ _ (CConstTrivial _) | Scl _ _ (CConstOpaque _) | Scl _ _ (COpaque None) | Scl _ _ (COwned None) => Throw | _ => Ok tt end in
        let! v := value m1 t r in let! q := quot t v t' w in write m1 t r q) in
      res = Throw \/ exists m' s', res = Ok (m', s') /\ effect n m s m' s').
    { intros m1 r x L Gr Hr Hx E T. cbv zeta. rewrite (holds_value _ _ _ _ Hr). destruct (Pq x Hx) as [Q1 Q2].
      destruct r as [|o u [y|y|[p|]|[p|]|[p|]]]; cbn [good] in Gr; try contradiction; cbn [bind]; auto; (destruct (quot t x t' w) as [q| | |]; cbn [bind]; [|auto|congruence|congruence]);
        right; match goal with |- context [write m1 t ?s ?z] => destruct (write_ok n m1 s t x z L Gr Hr ltac:(cbn; auto)) as (m' & s' & X1 & X2 & _) end; exists m', s'; split; auto; eapply effect_trans; eauto. }
    destruct (sty_eq_dec t t') as [Et|Ne]; cbn [bind fst snd].
    - apply Q with (x := v); auto. apply effect_refl; auto.
    - assert (Dt : dest_type s t t' = t) by (destruct s as [|o u [y|y|[p|]|[p|]|[p|]]]; cbn [good] in G; try contradiction; cbn [dest_type]; rewrite ?promote_common; auto).
      rewrite Dt. destruct (change_type_ok m s t v t Hn G H) as (m1 & r & Ec & E & Hr & T & C & _). rewrite Ec. cbn [bind fst snd].
      pose proof (ef_len _ _ _ _ _ E). eapply Q; eauto; [lia|apply E].
  Qed.
  Lemma negate_safe (m : mem) s : (n <= length m)%nat -> good n m s -> s <> Null -> exists m' r, negate zero bits0 m s = Ok (m', r) /\ effect n m Null m' r.
  Proof.
    intros Hn G N. destruct (good_holds n m s G N) as (t & v & H). unfold negate. rewrite (holds_ti _ _ _ _ H). cbn [bind]. destruct (fast_is_zero bits0 s).
    - exists m, Null. split; [reflexivity|]. apply effect_refl. exact I.
    - destruct s as [|o u [y|y|[p|]|[p|]|[p|]]]; cbn [good] in G; try contradiction; try congruence; cbn [holds] in H; destruct H as [<- H]; unfold allocate; eexists; eexists; (split; [reflexivity|]); [apply inline_new; auto|..]; apply new_cell; auto.
  Qed.

  (** *** Programs. *)
  Notation stp := (step conv op quot zero bits0).
  Lemma env_apart (m : mem) env i j : sound_memory n m env -> apart (nth i env Null) (nth j env Null).
  Proof.
    intros S. destruct (Nat.eq_dec i j) as [->|Ne]; [left; auto|]. right. intros p H1 H2. apply Ne. eapply (sm_unique _ _ _ _ S); eauto.
  Qed.
  Lemma step_sound (m : mem) env c : sound_memory n m env -> permitted conv zero quot n (m, env) c -> exists m' env', stp (m, env) c = Ok (m', env') /\ sound_memory n m' env'.
  Proof.
    intros S P. pose proof (sound_len _ _ _ S) as Hn. assert (G : forall i, good n m (nth i env Null)) by (intros i; apply good_nth; apply S).
    assert (U : forall i r, (i < length env)%nat -> (r = Throw \/ exists m' s', r = Ok (m', s') /\ effect n m (nth i env Null) m' s') ->
      exists m' env', recover (m, env) (let! x := r in Ok (fst x, set_at i (snd x) env)) = Ok (m', env') /\ sound_memory n m' env').
    { intros i r Hi [->|(m' & s' & -> & E)]; cbn [bind recover fst snd]; [eauto|]. eexists; eexists. split; [reflexivity|]. eapply effect_env; eauto. }
    assert (Ps : forall r, (r = Throw \/ exists m' s', r = Ok (m', s') /\ effect n m Null m' s') ->
      exists m' env', recover (m, env) (let! x := r in Ok (fst x, env ++ [snd x])) = Ok (m', env') /\ sound_memory n m' env').
    { intros r [->|(m' & s' & -> & E)]; cbn [bind recover fst snd]; [eauto|]. eexists; eexists. split; [reflexivity|]. eapply push_env; eauto. }
    destruct c as [c t p|t v|i|o i j|o i j|i j|i j|i|i]; cbn [step permitted] in *.
    - apply Ps. right. destruct P as (Hp & v & E). eexists; eexists. split; [reflexivity|]. destruct (effect_refl n m Null I) as [A1 A2 A3 A4 A5 A6 A7]. constructor; auto.
      all: try (intros q x Hq Hc; apply live_lt in Hc; lia). all: try (destruct c; discriminate).
      destruct c; cbn [good]; repeat split; auto; exists v; auto.
    - rewrite P. apply Ps. right. eexists; eexists. split; [reflexivity|]. apply inline_new; auto.
    - apply Ps. right. destruct (copy_ok m _ Hn (G i)) as (m' & r & X & E & _). exists m', r. auto 10.
    - apply Ps. apply binary_safe; auto.
    - destruct P as [Hi P]. apply U; auto. apply op_assign_safe; auto. apply env_apart with (m := m); auto.
    - destruct P as [Hi P]. destruct (Nat.eqb_spec i j); [eauto|]. apply U; auto. apply assign_safe; auto.
    - destruct P as (Hi & Pt & P). apply U; auto. apply div_safe; auto.
    - apply Ps. right. apply negate_safe; auto.
    - destruct (destroy_ok n m _ Hn (G i)) as (m' & E & D & _). rewrite E. cbn [bind]. eexists; eexists. split; [reflexivity|].
      destruct (Nat.lt_ge_cases i (length env)) as [Hi|Hi]; [eapply effect_env; eauto|]. rewrite (nth_overflow env) in E by auto. cbn [destroy] in E. injection E as <-.
      replace (set_at i Null env) with env; auto. clear - Hi. revert i Hi. induction env as [|x env IH]; intros [|i] Hi; cbn [length set_at] in *; auto; try lia. f_equal. apply IH. lia.
  Qed.
  Lemma run_sound l : forall (m : mem) env, sound_memory n m env -> along (permitted conv zero quot n) stp (m, env) l -> exists m' env', run conv op quot zero bits0 (m, env) l = Ok (m', env') /\ sound_memory n m' env'.
  Proof.
    induction l as [|c l IH]; intros m env S P; cbn [run along] in *; [eauto|]. destruct P as [P1 P2].
    destruct (step_sound m env c S P1) as (m1 & env1 & E & S1). rewrite E. cbn [bind]. apply IH; auto.
  Qed.
End Ops.
