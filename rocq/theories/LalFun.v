(** Products, exponentials and logarithms of the vendored free tensors, for either storage. *)
From Verif Require Export LalDense.

Section Local.
  Variables (R : cring) (w : Z) (N : nat).
  Add Ring Rr4 : (rth R).
  Lemma conv_in (f f' g g' : tens R Z) u : inside w N u = true ->
    (forall v, inside w N v = true -> (length v <= length u)%nat -> f v = f' v) -> (forall v, inside w N v = true -> (length v <= length u)%nat -> g v = g' v) -> conv f g u = conv f' g' u.
  Proof.
    intros Hu Hf Hg. unfold conv. apply sum_ext. intros k Hk. rewrite Hf, Hg; [reflexivity| | | |].
    - apply inside_skipn; auto.
    - rewrite skipn_length. lia.
    - apply inside_firstn; auto.
    - rewrite firstn_length. lia.
  Qed.
  (** Without a constant term on the right, the left factor is only read at shorter words. *)
  Lemma conv_in_lt (f f' g : tens R Z) u : inside w N u = true -> g [] = r0 ->
    (forall v, inside w N v = true -> (length v < length u)%nat -> f v = f' v) -> conv f g u = conv f' g u.
  Proof.
    intros Hu H0 Hf. unfold conv. apply sum_ext. intros k Hk. apply in_seq in Hk.
    destruct (Nat.eq_dec k (length u)) as [->|Hne].
    - rewrite skipn_all, H0. ring.
    - rewrite Hf; [reflexivity|apply inside_firstn; auto|]. rewrite firstn_length. lia.
  Qed.
End Local.

Section Products.
  Variables (R : cring) (X : Type) (O : vops R X) (fma : X -> X -> X -> (R -> R) -> Z -> unit -> outcome (X * unit))
    (rtd : X -> Z -> outcome X) (w : Z) (N : nat) (fr st : X -> Prop) (cf : X -> list Z -> R).
  Add Ring Rr5 : (rth R).
  Hypothesis T : tgood R X O fma rtd w N fr st cf.
  Notation keep := (keeps (vo_empty O) fr st).
  Lemma conv_empty l r : st l -> st r -> vo_empty O l = true \/ vo_empty O r = true -> forall u, conv (cf l) (cf r) u = r0.
  Proof.
    intros Hl Hr H u. unfold conv. apply sum_zero. intros k _. destruct H as [H|H].
    - rewrite (t_empty _ _ _ _ _ _ _ _ _ _ T l Hl H). ring.
    - rewrite (t_empty _ _ _ _ _ _ _ _ _ _ T r Hr H). ring.
  Qed.
  Lemma op_mul_ok depth l r : (0 < N)%nat -> 0 <= depth -> depth = Z.of_nat N -> st l -> st r ->
    exists x, op_mul R X O depth unit fma l r tt = Ok (x, tt) /\ fr x /\ forall u, inside w N u = true -> cf x u = conv (cf l) (cf r) u.
  Proof.
    intros HN Hd Ed Hl Hr. unfold op_mul. destruct (vo_empty O l) eqn:El, (vo_empty O r) eqn:Er; cbn [negb andb].
    4: { rewrite (t_fma0 _ _ _ _ _ _ _ _ _ _ T). destruct (t_fma _ _ _ _ _ _ _ _ _ _ T l r (fun x => x) 0 depth) as (x & E & Fx & _ & Cx); auto.
      exists x. split; [exact E|]. split; [auto|]. intros u Hu. apply Cx; auto. apply inside_iff in Hu. lia. }
    all: destruct (t_new _ _ _ _ _ _ _ _ _ _ T) as (A & C & _); exists (vo_new O); (split; [reflexivity|]); (split; [auto|]); intros u _; rewrite C, conv_empty; auto.
  Qed.
  Lemma inplace_ok l r (fn : R -> R) md : (0 < N)%nat -> 0 <= md -> fn r0 = r0 -> (forall x y, fn (radd x y) = radd (fn x) (fn y)) -> st l -> st r ->
    exists x, multiply_inplace R X O unit fma l r fn md tt = Ok (x, tt) /\ st x /\ (keep l -> keep r -> fr x /\ keep x) /\ forall u, inside w N u = true -> Z.of_nat (length u) <= md -> cf x u = fn (conv (cf l) (cf r) u).
  Proof.
    intros HN Hd F0 Fa Hl Hr. unfold multiply_inplace. destruct (vo_empty O l) eqn:El, (vo_empty O r) eqn:Er; cbn [negb andb].
    4: { destruct (t_fma _ _ _ _ _ _ _ _ _ _ T l r fn (Z.min (vo_degree O l + vo_degree O r) md) md) as (x & E & Fx & Kx & Cx); auto.
      exists x. split; [exact E|]. split; [apply (t_sub _ _ _ _ _ _ _ _ _ _ T); auto|]. split; [auto|]. intros u Hu Hlu. apply Cx; auto. }
    all: destruct (t_clear _ _ _ _ _ _ _ _ _ _ T l Hl) as (A & C); exists (vo_clear O l); (split; [reflexivity|]); (split; [auto|]); (split; [|intros u _ _; rewrite C, conv_empty; auto]).
    all: intros [K|K] [K2|K2]; try congruence; split; auto; left; auto.
  Qed.
  Lemma op_imul_ok depth l r : (0 < N)%nat -> depth = Z.of_nat N -> st l -> st r ->
    exists x, op_imul R X O depth unit fma l r tt = Ok (x, tt) /\ st x /\ (keep l -> keep r -> fr x /\ keep x) /\ (fr l -> (vo_empty O r = false \/ vo_empty O l = false /\ keep l /\ keep r) -> fr x) /\ forall u, inside w N u = true -> cf x u = conv (cf l) (cf r) u.
  Proof.
    intros HN Ed Hl Hr. unfold op_imul. destruct (vo_empty O r) eqn:Er.
    - destruct (t_clear _ _ _ _ _ _ _ _ _ _ T l Hl) as (A & C). exists (vo_clear O l). split; [reflexivity|]. split; [auto|]. split; [|split].
      + intros [K|K] [K2|K2]; try congruence; split; auto; left; auto.
      + intros Fl [K|(_ & K1 & K2)]; [congruence|]. destruct K2 as [K2|K2]; [auto|congruence].
      + intros u _. rewrite C, conv_empty; auto.
    - destruct (vo_empty O l) eqn:El.
      + exists l. split; [reflexivity|]. split; [auto|]. split; [|split; [auto|]].
        * intros [K|K] _; [split; [auto|left; auto]|congruence].
        * intros u _. rewrite conv_empty by auto. apply (t_empty _ _ _ _ _ _ _ _ _ _ T l Hl El).
      + unfold multiply_inplace. rewrite El, Er. cbn [negb andb].
        destruct (t_fma _ _ _ _ _ _ _ _ _ _ T l r (fun x => x) (Z.min (vo_degree O l + vo_degree O r) depth) depth) as (x & E & Fx & Kx & Cx); auto; [lia|].
        exists x. split; [exact E|]. split; [apply (t_sub _ _ _ _ _ _ _ _ _ _ T); auto|]. split; [auto|]. split; [auto|]. intros u Hu. apply Cx; auto. apply inside_iff in Hu. lia.
  Qed.
End Products.

Section Functions.
  Variables (R : qalg) (X : Type) (O : vops R X) (fma : X -> X -> X -> (R -> R) -> Z -> unit -> outcome (X * unit))
    (rtd : X -> Z -> outcome X) (w : Z) (N : nat) (fr st : X -> Prop) (cf : X -> list Z -> R).
  Add Ring Rr6 : (rth (qr R)).
  Hypothesis T : tgood R X O fma rtd w N fr st cf.
  Hypothesis R10 : @r1 R <> r0.
  Notation keep := (keeps (vo_empty O) fr st).
  Notation tz := (fun x : tens R Z => fun u : list Z => match u with [] => r0 | _ => x u end).
  Lemma msd_ok l r i md : (0 < N)%nat -> 0 <= md -> st l -> st r ->
    exists x, mul_scal_div R X O fma l r i md = Ok x /\ st x /\ (keep l -> keep r -> fr x /\ keep x) /\ forall u, inside w N u = true -> Z.of_nat (length u) <= md -> cf x u = rmul (@qinv R (Z.to_nat i)) (conv (cf l) (cf r) u).
  Proof.
    intros HN Hd Hl Hr. unfold mul_scal_div.
    destruct (inplace_ok R X O fma rtd w N fr st cf T l r (fun x => rmul x (@qinv R (Z.to_nat i))) md) as (x & E & A & K & C); auto; [ring|intros; ring|].
    rewrite E. cbn [bind]. exists x. split; [reflexivity|]. split; [auto|]. split; [auto|]. intros u Hu Hlu. rewrite C by auto. ring.
  Qed.
  Lemma iadd_ok a b : st a -> st b -> st (v_iadd R O a b) /\ (forall u, cf (v_iadd R O a b) u = radd (cf a u) (cf b u)) /\
    (fr a -> fr (v_iadd R O a b)) /\ (keep a -> keep (v_iadd R O a b)) /\ (fr b -> vo_empty O b = false -> fr (v_iadd R O a b)).
  Proof. intros Ha Hb. apply (t_ibinary _ _ _ _ _ _ _ _ _ _ T a b (fun x y => radd x y) Ha Hb); intros; [ring|]. rewrite <- H. ring. Qed.
  Lemma qinv_zero (y : R) i : (0 < i)%nat -> rmul y (@qinv R i) = r0 -> y = r0.
  Proof.
    intros Hi H. assert (Q := qinv_ok R i Hi). transitivity (rmul (rmul y (@qinv R i)) (rnat i)).
    - transitivity (rmul y (rmul (rnat i) (@qinv R i))); [rewrite Q; ring|ring].
    - rewrite H. ring.
  Qed.

  Theorem exp_ok arg : st arg -> exists x, lal_exp R X O (Z.of_nat N) fma rtd arg = Ok x /\ fr x /\
    forall u, inside w N u = true -> cf x u = texp N (cf arg) u.
  Proof.
    intros Ha. unfold lal_exp.
    destruct (t_single _ _ _ _ _ _ _ _ _ _ T r1) as (one & E1 & F1 & C1 & N1). rewrite E1. cbn [bind].
    destruct (t_resize _ _ _ _ _ _ _ _ _ _ T one (t_sub _ _ _ _ _ _ _ _ _ _ T one F1)) as (r0' & E2 & F2 & K2 & C2). rewrite E2. cbn [bind].
    destruct (for_down (fun d t => fr t /\ forall u, inside w N u = true -> cf t u = hexp N tone (cf arg) (N - Z.to_nat d) u) (Z.of_nat N) 1 r0'
      (fun i result => let! result := mul_scal_div R X O fma result arg i (Z.of_nat N) in Ok (v_iadd R O result one))) as (x & E & Fx & Cx).
    - lia.
    - split; [auto|]. intros u Hu. rewrite C2, C1. rewrite Nat2Z.id, Nat.sub_diag. reflexivity.
    - intros d t Hd [Ft Ct]. destruct (msd_ok t arg d (Z.of_nat N)) as (y & Ey & Sy & _ & Cy); auto; [lia|lia|apply (t_sub _ _ _ _ _ _ _ _ _ _ T); auto|].
      rewrite Ey. cbn [bind]. eexists. split; [reflexivity|].
      destruct (iadd_ok y one Sy (t_sub _ _ _ _ _ _ _ _ _ _ T one F1)) as (_ & Cs & _ & _ & Fs). split; [auto|].
      intros u Hu. rewrite Cs, Cy, C1 by (auto; apply inside_iff in Hu; lia).
      replace (N - Z.to_nat (d - 1))%nat with (S (N - Z.to_nat d)) by lia. cbn [hexp]. unfold tadd, tscal. replace (N - (N - Z.to_nat d))%nat with (Z.to_nat d) by lia.
      rewrite (conv_in R w N (cf t) (hexp N tone (cf arg) (N - Z.to_nat d)) (cf arg) (cf arg)) by auto. unfold tone at 2. destruct u; ring.
    - exists x. split; [exact E|]. split; [auto|]. intros u Hu. rewrite Cx by auto. change (Z.to_nat (1 - 1)) with 0%nat. rewrite Nat.sub_0_r.
      rewrite (hexp_texp R Z N tone (cf arg) u). apply conv_one_l.
  Qed.

  Theorem fmexp_ok self arg : st self -> st arg -> exists x, lal_fmexp R X O (Z.of_nat N) fma rtd self arg = Ok x /\ fr x /\
    forall u, inside w N u = true -> cf x u = conv (cf self) (texp N (tz (cf arg))) u.
  Proof.
    intros Hs' Ha. unfold lal_fmexp.
    destruct (t_upd _ _ _ _ _ _ _ _ _ _ T arg (fun _ => r0) Ha) as (y & E1 & F1 & K1 & C1). rewrite E1. cbn [bind].
    assert (Sy := t_sub _ _ _ _ _ _ _ _ _ _ T y F1).
    assert (Cy : forall u, cf y u = tz (cf arg) u) by (intros u; rewrite C1; destruct u; reflexivity).
    destruct (t_resize _ _ _ _ _ _ _ _ _ _ T self Hs') as (r0' & E2 & F2 & K2 & C2). rewrite E2. cbn [bind].
    destruct (for_down (fun d t => fr t /\ keep t /\ forall u, inside w N u = true -> (length u <= N - Z.to_nat d)%nat -> cf t u = hexp N (cf self) (tz (cf arg)) (N - Z.to_nat d) u) (Z.of_nat N) 1 r0'
      (fun i result => let! result := mul_scal_div R X O fma result y i (Z.of_nat N - i + 1) in Ok (v_iadd R O result self))) as (x & E & Fx & _ & Cx).
    - lia.
    - split; [auto|]. split; [auto|]. intros u Hu _. rewrite C2. rewrite Nat2Z.id, Nat.sub_diag. reflexivity.
    - intros d t Hd (Ft & Kt & Ct). destruct (msd_ok t y d (Z.of_nat N - d + 1)) as (z & Ez & Sz & Kz & Cz); auto; [lia|lia|apply (t_sub _ _ _ _ _ _ _ _ _ _ T); auto|].
      rewrite Ez. cbn [bind]. eexists. split; [reflexivity|]. destruct (Kz Kt K1) as [Fz Kz'].
      destruct (iadd_ok z self Sz Hs') as (_ & Cs & Fs & Ks & _). split; [auto|]. split; [auto|].
      intros u Hu Hlu. rewrite Cs, Cz by (auto; lia).
      replace (N - Z.to_nat (d - 1))%nat with (S (N - Z.to_nat d)) in * by lia. cbn [hexp]. unfold tadd, tscal. replace (N - (N - Z.to_nat d))%nat with (Z.to_nat d) by lia.
      rewrite (conv_in R w N (cf t) (cf t) (cf y) (tz (cf arg))) by auto.
      rewrite (conv_in_lt R w N (cf t) (hexp N (cf self) (tz (cf arg)) (N - Z.to_nat d)) (tz (cf arg))); auto; [ring|]. intros v Hv Hlv. apply Ct; auto. lia.
    - exists x. split; [exact E|]. split; [auto|]. intros u Hu. rewrite Cx; [|auto|apply inside_iff in Hu; change (Z.to_nat (1 - 1)) with 0%nat; lia].
      change (Z.to_nat (1 - 1)) with 0%nat. rewrite Nat.sub_0_r. apply (hexp_texp R Z N (cf self) (tz (cf arg)) u).
  Qed.

  Lemma plog_even d : 0 < d -> plog R (Z.to_nat d) = if Z.even d then ropp (@qinv R (Z.to_nat d)) else @qinv R (Z.to_nat d).
  Proof.
    intros Hd. remember (Z.to_nat d) as m eqn:Em. assert (Ed : d = Z.of_nat m) by lia. rewrite Ed in *. clear Ed Em.
    destruct m as [|m]; [lia|]. unfold plog.
    assert (H : forall k, @rpow R (ropp r1) k = if Z.even (Z.of_nat (S k)) then ropp r1 else r1).
    { induction k as [|k IH]; [reflexivity|]. cbn [rpow]. rewrite IH. replace (Z.of_nat (S (S k))) with (Z.succ (Z.of_nat (S k))) by lia.
      rewrite Z.even_succ, <- Z.negb_even. destruct (Z.even (Z.of_nat (S k))); cbn [negb]; ring. }
    rewrite H. destruct (Z.even (Z.of_nat (S m))); ring.
  Qed.
  Theorem log_ok arg : st arg -> exists x, lal_log R X O (Z.of_nat N) fma rtd arg = Ok x /\ fr x /\
    forall u, inside w N u = true -> cf x u = tlog1p N (tz (cf arg)) u.
  Proof.
    intros Ha. unfold lal_log.
    destruct (t_upd _ _ _ _ _ _ _ _ _ _ T arg (fun _ => r0) Ha) as (y & E1 & F1 & K1 & C1). rewrite E1. cbn [bind].
    assert (Sy := t_sub _ _ _ _ _ _ _ _ _ _ T y F1).
    assert (Cy : forall u, cf y u = tz (cf arg) u) by (intros u; rewrite C1; destruct u; reflexivity).
    destruct (t_new _ _ _ _ _ _ _ _ _ _ T) as (Fn & Cn & _).
    destruct (t_resize _ _ _ _ _ _ _ _ _ _ T (vo_new O) (t_sub _ _ _ _ _ _ _ _ _ _ T _ Fn)) as (r0' & E2 & F2 & K2 & C2). rewrite E2. cbn [bind].
    destruct (t_single _ _ _ _ _ _ _ _ _ _ T r1) as (one & E3 & F3 & C3 & N3). rewrite E3. cbn [bind].
    assert (So := t_sub _ _ _ _ _ _ _ _ _ _ T one F3).
    destruct (for_down (fun d t => fr t /\ keep t /\ forall u, inside w N u = true -> cf t u = hlog N r0 (tz (cf arg)) (N - Z.to_nat d) u) (Z.of_nat N) 1 r0'
      (fun i result => let result := if Z.even i then v_sub_scal_div R X O result one i else v_add_scal_div R X O result one i in
        let! (r, _) := op_imul R X O (Z.of_nat N) unit fma result y tt in Ok r)) as (x & E & Fx & _ & Cx).
    - lia.
    - split; [auto|]. split; [auto|]. intros u Hu. rewrite C2, Cn. rewrite Nat2Z.id, Nat.sub_diag. cbn [hlog]. unfold tscal. ring.
    - intros d t Hd (Ft & Kt & Ct). cbv zeta. assert (St := t_sub _ _ _ _ _ _ _ _ _ _ T t Ft).
      set (s := if Z.even d then v_sub_scal_div R X O t one d else v_add_scal_div R X O t one d).
      assert (Hs : fr s /\ keep s /\ forall u, cf s u = radd (cf t u) (rmul (plog R (Z.to_nat d)) (tone u))).
      { rewrite plog_even by lia. subst s. destruct (Z.even d); unfold v_sub_scal_div, v_add_scal_div.
        - destruct (t_ibinary _ _ _ _ _ _ _ _ _ _ T t one (fun x y => rsub x (rmul y (@qinv R (Z.to_nat d)))) St So) as (_ & Cs & Fs & Ks & _);
            [intros; ring|intros v Hv; apply (qinv_zero v (Z.to_nat d)); [lia|]; transitivity (ropp (rsub r0 (rmul v (@qinv R (Z.to_nat d))))); [ring|rewrite Hv; ring]|].
          split; [auto|]. split; [auto|]. intros u. rewrite Cs, C3. unfold tone. destruct u; ring.
        - destruct (t_ibinary _ _ _ _ _ _ _ _ _ _ T t one (fun x y => radd x (rmul y (@qinv R (Z.to_nat d)))) St So) as (_ & Cs & Fs & Ks & _);
            [intros; ring|intros v Hv; apply (qinv_zero v (Z.to_nat d)); [lia|]; rewrite <- Hv; ring|].
          split; [auto|]. split; [auto|]. intros u. rewrite Cs, C3. unfold tone. destruct u; ring. }
      destruct Hs as (Fs & Ks & Cs).
      destruct (op_imul_ok R X O fma rtd w N fr st cf T (Z.of_nat N) s y) as (z & Ez & _ & Kz & _ & Cz); auto; [lia|apply (t_sub _ _ _ _ _ _ _ _ _ _ T); auto|].
      rewrite Ez. cbn [bind]. eexists. split; [reflexivity|]. destruct (Kz Ks K1) as [Fz Kz']. split; [auto|]. split; [auto|].
      intros u Hu. rewrite Cz by auto. replace (N - Z.to_nat (d - 1))%nat with (S (N - Z.to_nat d)) by lia. cbn [hlog].
      replace (N - (N - Z.to_nat d))%nat with (Z.to_nat d) by lia. apply (conv_in R w N); auto. intros v Hv _. rewrite Cs, Ct by auto. reflexivity.
    - exists x. split; [exact E|]. split; [auto|]. intros u Hu. rewrite Cx by auto. change (Z.to_nat (1 - 1)) with 0%nat. rewrite Nat.sub_0_r.
      destruct N as [|N'] eqn:EN; [|rewrite (hlog_tlog R Z (S N') r0 (tz (cf arg)) ltac:(lia) u); unfold tadd, tscal; ring].
      cbn [hlog]. unfold tlog1p, tpoly, tscal. cbn [seq sum]. unfold plog. ring.
  Qed.
End Functions.
