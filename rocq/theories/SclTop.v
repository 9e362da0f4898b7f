(** Scalars: the statements, and examples. *)
From Verif Require Export SclRef.
Open Scope Z_scope.

Section Top.
  Variable V : Type.
  Variable conv : sty -> sty -> V -> option V.
  Variable op : sop -> sty -> V -> V -> V.
  Variable zero : sty -> V.
  Variable bits0 : sty -> V -> bool.
  Variable R : Type.
  Variable rop : sop -> R -> R -> R.
  Variable r0 : R.
  Variable den : sty -> V -> R.
  Notation mem := (mem V).
  Notation scalar := (scalar V).
  Notation means := (means r0 den).

  Lemma fresh_unchanged n (m m' : mem) r : effect n m Null m' r -> unchanged m m' (fun _ => False).
  Proof. intros E p Hp _. apply (ef_frame _ _ _ _ _ E); auto; discriminate. Qed.
  Lemma own_unchanged n (m m' : mem) s s' : effect n m s m' s' -> unchanged m m' (fun p => owned s = Some p \/ target s = Some p).
  Proof. intros E p Hp H. apply (ef_frame _ _ _ _ _ E); auto. Qed.

  Lemma top_binary n o (m : mem) a b t v y : sound_values conv op zero bits0 rop r0 den -> (n <= length m)%nat -> good n m a -> good n m b -> holds m a t v -> means m b y ->
    exists m' r t2 v2, binary conv op zero bits0 o m a b = Ok (m', r) /\ holds m' r t2 v2 /\ den t2 v2 = rop o (den t v) y /\
      (forall t' w, holds m b t' w -> (t2 = t \/ t2 = common t t') /\ (den t v <> r0 -> den t' w <> r0 -> t2 = common t t')) /\
      good n m' r /\ target r = None /\ unchanged m m' (fun _ => False).
  Proof.
    intros SV Hn G G' H M. destruct (binary_value V conv op zero bits0 R rop r0 den SV n o m a b t v y Hn G G' H M) as (m' & r & t2 & v2 & X & E & T & C & Hr & D & Ty).
    exists m', r, t2, v2. split; [auto|]. split; [auto|]. split; [auto|]. split; [auto|]. split; [apply E|]. split; [auto|]. eapply fresh_unchanged; eauto.
  Qed.
  Lemma top_assign_op n o (m : mem) s other t v y : sound_values conv op zero bits0 rop r0 den -> (n <= length m)%nat -> good n m s -> good n m other ->
    s = other \/ (forall p, owned s = Some p -> owned other <> Some p) -> holds m s t v -> means m other y -> ~ constant s ->
    target s = None \/ (forall t' w, holds m other t' w -> common t t' = t) ->
    exists m' s' t2 v2, op_assign conv op zero bits0 o m s other = Ok (m', s') /\ holds m' s' t2 v2 /\ den t2 v2 = rop o (den t v) y /\
      (forall t' w, holds m other t' w -> (t2 = t \/ t2 = common t t') /\ (target s <> None -> t2 = t) /\ (target s = None -> den t v <> r0 -> den t' w <> r0 -> t2 = common t t')) /\
      good n m' s' /\ target s' = target s /\ unchanged m m' (fun p => owned s = Some p \/ target s = Some p).
  Proof.
    intros SV Hn G G' A H M C Fit.
    assert (Fit' : target s = None \/ fits V m s other).
    { destruct Fit as [X|X]; [auto|]. right. intros t1 v1 t' w H1 H'. destruct (holds_fun _ _ _ _ _ _ H H1) as [<- _]. eauto. }
    destruct (op_assign_value V conv op zero bits0 R rop r0 den SV n o m s other t v y Hn G G' A H M C Fit') as (m' & r & t2 & v2 & X & E & T & C' & Hr & D & Ty).
    exists m', r, t2, v2. split; [auto|]. split; [auto|]. split; [auto|]. split; [auto|]. split; [apply E|]. split; [auto|]. eapply own_unchanged; eauto.
  Qed.
  Lemma top_constant n o (m : mem) s other : (n <= length m)%nat -> good n m s -> good n m other -> constant s ->
    (op_assign conv op zero bits0 o m s other = Throw \/ op_assign conv op zero bits0 o m s other = Ok (m, s)) /\
    (fast_is_zero bits0 other = false -> op_assign conv op zero bits0 o m s other = Throw) /\
    (other <> Null -> assign conv zero bits0 m s other = Throw).
  Proof.
    intros Hn G G' C. assert (A : apart V s other) by (right; intros p Hp; destruct s as [|o' u [x|x|[q|]|[q|]|[q|]]]; cbn in *; try discriminate; contradiction).
    split; [apply (op_assign_constant V conv op (fun _ _ _ _ => Throw) zero bits0 n); auto|]. split; [|intros N; eapply assign_constant; eauto].
    intros F. assert (Ns : s <> Null) by (intros ->; exact C). destruct (good_holds n m s G Ns) as (t & v & H).
    assert (N' : other <> Null) by (intros ->; discriminate). destruct (good_holds n m other G' N') as (t' & w & H').
    assert (Ip : inplace conv op zero o m s other = Throw) by (destruct (inplace_ok V conv op zero n o m s other t v t' w Hn G G' A H H') as [[_ X]|[X _]]; [auto|contradiction]).
    assert (Zc : assign_zero conv zero m s = Throw) by (destruct (assign_zero_ok V conv zero n m s t v Hn G H) as [[X _]|[X _]]; [auto|contradiction]).
    unfold op_assign. destruct o; rewrite F; auto. destruct (fast_is_zero bits0 s); cbn [orb]; auto.
  Qed.
  Lemma top_copy n (m : mem) s t v : sound_values conv op zero bits0 rop r0 den -> (n <= length m)%nat -> good n m s -> holds m s t v ->
    exists m' r v', copy conv zero bits0 m s = Ok (m', r) /\ holds m' r t v' /\ den t v' = den t v /\ good n m' r /\ target r = None /\
      (forall p, owned r = Some p -> (length m <= p)%nat) /\ unchanged m m' (fun _ => False).
  Proof.
    intros SV Hn G H. destruct (copy_value V conv op zero bits0 R rop r0 den SV n m s t v Hn G H) as (m' & r & v' & X & E & T & C & Hr & D).
    exists m', r, v'. split; [auto|]. split; [auto|]. split; [auto|]. split; [apply E|]. split; [auto|]. split; [|eapply fresh_unchanged; eauto].
    intros p Hp. destruct (ef_own _ _ _ _ _ E p Hp); [discriminate|auto].
  Qed.
  Lemma top_assign n (m : mem) s other t' w : sound_values conv op zero bits0 rop r0 den -> (n <= length m)%nat -> good n m s -> good n m other -> holds m other t' w -> ~ constant s ->
    (forall t v, holds m s t v -> common t t' = t) ->
    exists m' s' t2 v2, assign conv zero bits0 m s other = Ok (m', s') /\ holds m' s' t2 v2 /\ den t2 v2 = den t' w /\ good n m' s' /\ target s' = target s /\
      unchanged m m' (fun p => owned s = Some p \/ target s = Some p).
  Proof.
    intros SV Hn G G' H' C Fit. assert (Fit' : fits V m s other) by (intros t1 v1 t2 w2 H1 H2; destruct (holds_fun _ _ _ _ _ _ H' H2) as [<- _]; eauto).
    destruct (assign_value V conv op zero bits0 R rop r0 den SV n m s other t' w Hn G G' H' C Fit') as (m' & s' & t2 & v2 & X & E & T & C' & Hh & D).
    exists m', s', t2, v2. split; [auto|]. split; [auto|]. split; [auto|]. split; [apply E|]. split; [auto|]. eapply own_unchanged; eauto.
  Qed.
  Variable quot : sty -> V -> sty -> V -> outcome V.
  Lemma top_divide n (m : mem) s other t v w q : (n <= length m)%nat -> good n m s -> good n m other -> holds m s t v -> holds m other t w -> ~ constant s -> fast_is_zero bits0 other = false -> quot t v t w = Ok q ->
    exists m' s', div_assign conv quot zero bits0 m s other = Ok (m', s') /\ holds m' s' t q /\ good n m' s' /\ target s' = target s /\ unchanged m m' (fun p => owned s = Some p \/ target s = Some p).
  Proof.
    intros Hn G G' H H' C F Q. destruct (div_value V conv zero bits0 n quot m s other t v w q Hn G G' H H' C F Q) as (m' & s' & X & E & T & C' & Hh).
    exists m', s'. split; [auto|]. split; [auto|]. split; [apply E|]. split; [auto|]. eapply own_unchanged; eauto.
  Qed.
  (** Negation. *)
  Lemma top_negate n (m : mem) s t v : (n <= length m)%nat -> good n m s -> holds m s t v ->
    exists m' r, negate zero bits0 m s = Ok (m', r) /\ (r = Null \/ holds m' r t (zero t)).
  Proof.
    intros Hn G H. unfold negate. rewrite (holds_ti _ _ _ _ H). cbn [bind]. destruct (fast_is_zero bits0 s); [exists m, Null; auto|].
    destruct s as [|o u [y|y|[p|]|[p|]|[p|]]]; cbn [good holds] in *; try contradiction; destruct H as [<- H]; unfold allocate; eexists; eexists; (split; [reflexivity|]); right; cbn [holds]; [auto|..]; (split; [reflexivity|apply last_app]).
  Qed.
End Top.

Lemma no_leak_top (V : Type) conv op quot zero bits0 n l (m : mem V) env m' env' : sound_memory n m env -> along (permitted conv zero quot n) (step conv op quot zero bits0) (m, env) l ->
  run conv op quot zero bits0 (m, env) l = Ok (m', env') -> Forall (fun s => s = Null) env' -> forall p c, (n <= p)%nat -> nth_error m' p = Some c -> c = None.
Proof.
  intros S P E F p c Hp Hc. destruct (run_sound V conv op quot zero bits0 n l m env S P) as (m1 & e1 & E1 & S1). rewrite E in E1. injection E1 as <- <-.
  destruct c as [c|]; [|reflexivity]. destruct (sm_no_leak _ _ _ _ S1 p c Hp Hc) as (i & Hi). exfalso.
  destruct (nth_in_or_default i env' Null) as [H|H]; [rewrite Forall_forall in F; rewrite (F _ H) in Hi; discriminate|rewrite H in Hi; discriminate].
Qed.

(** *** An instance: numbers a + b e with e e = 0 in the place of polynomials; for other types only
    a counts. *)
Definition dual := (Z * Z)%type.
Definition dden (t : sty) (v : dual) : dual := match t with SPol => v | _ => (fst v, 0) end.
Definition drop (o : sop) (x y : dual) : dual :=
  match o with Add => (fst x + fst y, snd x + snd y) | Sub => (fst x - fst y, snd x - snd y) | Mul => (fst x * fst y, fst x * snd y + snd x * fst y) end.
Definition dconv (t t' : sty) (v : dual) : option dual :=
  match t, t' with SPol, SPol => Some v | SPol, _ => if snd v =? 0 then Some v else None | _, _ => Some (fst v, 0) end.
Definition dop (o : sop) (t : sty) (v w : dual) : dual := drop o (dden t v) (dden t w).
Definition dzero (t : sty) : dual := (0, 0).
Definition dbits0 (t : sty) (v : dual) : bool := let '(a, b) := dden t v in (a =? 0) && (b =? 0).
Definition deqv (t : sty) (v : dual) (t' : sty) (w : dual) : bool := (fst v =? fst w) && (snd (dden t v) =? snd (dden t' w)).
Definition dquot (t : sty) (v : dual) (t' : sty) (w : dual) : outcome dual := if fst w =? 0 then Throw else Ok (fst v / fst w, 0).
Lemma d_sound : sound_values dconv dop dzero dbits0 drop (0, 0) dden.
Proof.
  constructor.
  - intros t t' [a b] w H. destruct t, t'; cbn in H; try (injection H as <-; reflexivity); destruct (Z.eqb_spec b 0) as [->|]; try discriminate; injection H as <-; reflexivity.
  - intros t [a b]. destruct t; discriminate.
  - intros t t' [a b]. destruct t, t'; discriminate.
  - intros t t' [a b]. destruct t, t'; discriminate.
  - intros t. destruct t; discriminate.
  - intros t. destruct t; reflexivity.
  - intros t [a b] H. unfold dbits0 in H. destruct (dden t (a, b)) as [x y]. apply andb_prop in H as [H1 H2]. f_equal; lia.
  - intros o t [a b] [c d]. unfold dop. destruct t, o; cbn; try reflexivity; f_equal; lia.
  - intros [a b]. cbn. f_equal; lia.
  - intros [a b]. cbn. f_equal; lia.
  - intros [a b]. cbn. split; f_equal; lia.
Qed.
Lemma d_equal : sound_equal dbits0 dbits0 deqv (0, 0) dden.
Proof.
  assert (B : forall t v, dbits0 t v = true <-> dden t v = (0, 0)).
  { intros t v. unfold dbits0. destruct (dden t v) as [x y]. rewrite andb_true_iff, !Z.eqb_eq. split; [intros []|intros H; injection H]; subst; auto. }
  constructor; auto. intros t [a b] t' [c d]. unfold deqv. rewrite andb_true_iff, !Z.eqb_eq. destruct t, t'; cbn; (split; [intros [-> H]; f_equal; auto|intros H; injection H; auto]).
Qed.
(** Two coefficients: the double 3 and 1 + 2e. *)
Definition dmem : mem dual := [Some (F64, (3, 0)); Some (SPol, (1, 2))].
Definition dview (t : sty) (p : nat) : scalar dual := Scl true t (COpaque (Some p)).
Definition dnum (t : sty) (a : Z) : scalar dual := Scl false t (CTrivial (a, 0)).
Notation dbin := (binary dconv dop dzero dbits0).
Notation dset := (op_assign dconv dop dzero dbits0).
Notation ddiv := (div_assign dconv dquot dzero dbits0).
Notation drun := (run dconv dop dquot dzero dbits0).
Notation dstep := (step dconv dop dquot dzero dbits0).
Definition dprog : list (cmd dual) :=
  [DoView false F64 0; DoView true SPol 1; DoNumber I64 (2, 0); DoBinary Mul 0 1; DoAssignOp Add 0 2; DoCopy 3; DoDrop 3; DoAssignOp Sub 4 0; DoAssignOp Mul 1 2; DoCopy 0].
Lemma d_prog_ok : along (fun x c => permitted dconv dzero dquot 2 x c /\ tracked x c) dstep (dmem, []) dprog.
Proof.
  unfold dprog.
  repeat (cbn [along]; split; [|let st' := fresh "st" in let E := fresh "E" in intros st' E; vm_compute in E; injection E as <-]).
  all: try exact I; split; cbn; try exact I; try (split; [lia|]); try (intros X; discriminate); try (eexists; reflexivity); try reflexivity; auto.
  all: try (right; intros t v t' w [<- _] [<- _]; reflexivity).
  all: try (left; reflexivity).
Qed.
Lemma d_sm : sound_memory 2 dmem [].
Proof.
  constructor; auto.
  - intros [|i] j p H; discriminate.
  - intros [|[|p]] c H E; [lia|lia|]. destruct p; discriminate.
  - intros [|[|p]] H; [exists F64, (3, 0)|exists SPol, (1, 2)|lia]; reflexivity.
Qed.
Definition dprog2 : list (cmd dual) :=
  [DoView true SPol 1; DoBinary Mul 0 0; DoBinary Add 1 0; DoAssignOp Mul 1 2; DoAssign 1 0; DoNegate 1; DoDrop 1; DoDrop 2; DoDrop 3; DoDrop 0].
Lemma d_prog2_ok : along (permitted dconv dzero dquot 2) dstep (dmem, []) dprog2.
Proof.
  unfold dprog2.
  repeat (cbn [along]; split; [|let st' := fresh "st" in let E := fresh "E" in intros st' E; vm_compute in E; injection E as <-]).
  all: try exact I; cbn; try exact I; try (split; [lia|]); try (intros X; discriminate); try (eexists; reflexivity); try reflexivity; auto.
Qed.
