(** Merging partitions. *)
From Verif Require Export IntervalProofs.
Open Scope Q_scope.

Lemma span_lt_app b l : fst (span_lt b l) ++ snd (span_lt b l) = l.
Proof. induction l as [|x l IH]; cbn [span_lt]; [auto|]. qd; [|auto]. destruct (span_lt b l) as [p r]. cbn [fst snd app] in *. congruence. Qed.
Lemma span_lt_between b lo hi l : between lo hi l -> lo <= b -> b <= hi -> between lo b (fst (span_lt b l)) /\ between b hi (snd (span_lt b l)).
Proof.
  revert lo. induction l as [|x l IH]; intros lo H H1 H2; cbn [span_lt between] in *; [cbn; auto|].
  destruct H as [Hx H]. qd; qb.
  - destruct (IH x H) as [A B]; [lra|lra|]. destruct (span_lt b l) as [p r]. cbn [fst snd between] in *. auto.
  - cbn [fst snd between]. auto.
Qed.
Lemma span_lt_none b lo hi l : between lo hi l -> b <= lo -> span_lt b l = ([], l).
Proof. destruct l as [|x l]; cbn [span_lt between]; intros H Hb; [auto|]. qd; qb; [lra|auto]. Qed.
Lemma span_lt_all b lo hi l : between lo hi l -> hi < b -> span_lt b l = (l, []).
Proof.
  revert lo. induction l as [|x l IH]; intros lo H Hb; cbn [span_lt between] in *; [auto|]. destruct H as [Hx H].
  rewrite (IH x H Hb). qd; qb; [auto|]. apply between_le in H. lra.
Qed.
Lemma skip_eq_between m lo hi l : between lo hi l -> between lo hi (skip_eq m l).
Proof. destruct l as [|x l]; cbn [skip_eq between]; [auto|]. intros [H K]. qd; [|cbn; auto]. apply (between_weaken x lo hi hi); auto; lra. Qed.
Lemma skip_eq_in m x l : inQ x l <-> inQ x (skip_eq m l) \/ (x == m /\ inQ x l).
Proof.
  destruct l as [|y l]; cbn [skip_eq]; [tauto|]. qd; qb; [|tauto]. rewrite !inQ_cons. split; [|tauto].
  intros [K|K]; [|tauto]. right. split; [lra|tauto].
Qed.
Lemma interleave_nil_r l : interleave l [] = ([], l, []).
Proof. destruct l; reflexivity. Qed.
Lemma interleave_cons x l y r : interleave (x :: l) (y :: r) =
  if qeq x y then let '(p, a, b) := interleave l r in (x :: p, a, b)
  else if qlt x y then let '(p, a, b) := interleave l (y :: r) in (x :: p, a, b)
  else let '(p, a, b) := interleave (x :: l) r in (y :: p, a, b).
Proof. reflexivity. Qed.
Lemma interleave_spec n : forall l r M ls rs, (length l + length r <= n)%nat -> between M ls l -> between M rs r ->
  let '(p, a, b) := interleave l r in
  (exists T, between M T p /\ between T ls a /\ between T rs b) /\ (a = [] \/ b = []) /\
  (forall x, inQ x p \/ inQ x a \/ inQ x b <-> inQ x l \/ inQ x r).
Proof.
  induction n as [|n IH]; intros l r M ls rs Hn Hl Hr.
  - destruct l, r; cbn [length] in Hn; try lia. cbn [interleave]. cbn [between] in *. split; [exists M; cbn; split; [lra|auto]|]. split; [auto|]. intros; rewrite !inQ_nil; tauto.
  - destruct l as [|x l].
    { cbn [interleave]. cbn [between] in *. split; [exists M; cbn [between]; split; [lra|auto]|]. split; [auto|]. intros; rewrite !inQ_nil; tauto. }
    destruct r as [|y r].
    { rewrite interleave_nil_r. split; [exists M; split; [cbn [between]; lra|auto]|]. split; [auto|]. intros; rewrite !inQ_nil; tauto. }
    rewrite interleave_cons. cbn [length] in Hn. destruct Hl as [Hx Hl], Hr as [Hy Hr]. destruct (qeq x y) eqn:QE; qb; [|destruct (qlt x y) eqn:QL; qb].
    + assert (Hr' : between x rs r) by (apply (between_weaken y x rs rs); auto; lra).
      assert (I := IH l r x ls rs ltac:(lia) Hl Hr'). destruct (interleave l r) as [[p a] b]. destruct I as ((T & I1 & I2 & I3) & I4 & I5). cbv beta iota.
      split; [exists T; cbn [between]; auto|]. split; [auto|]. intros z. rewrite !inQ_cons. specialize (I5 z). assert (x == z <-> y == z) by (split; lra). tauto.
    + assert (I := IH l (y :: r) x ls rs ltac:(cbn [length]; lia) Hl ltac:(cbn [between]; split; [lra|auto])). destruct (interleave l (y :: r)) as [[p a] b]. destruct I as ((T & I1 & I2 & I3) & I4 & I5). cbv beta iota.
      split; [exists T; cbn [between]; auto|]. split; [auto|]. intros z. rewrite !inQ_cons. specialize (I5 z). rewrite inQ_cons in I5. tauto.
    + assert (I := IH (x :: l) r y ls rs ltac:(cbn [length]; lia) ltac:(cbn [between]; split; [lra|auto]) Hr). destruct (interleave (x :: l) r) as [[p a] b]. destruct I as ((T & I1 & I2 & I3) & I4 & I5). cbv beta iota.
      split; [exists T; cbn [between]; auto|]. split; [auto|]. intros z. rewrite !inQ_cons. specialize (I5 z). rewrite inQ_cons in I5. tauto.
Qed.

Section Merge.
  Variables linf lsup rinf rsup : Q.
  Variables lp rp : list Q.
  Hypothesis Hl : between linf lsup lp.
  Hypothesis Hr : between rinf rsup rp.
  Hypothesis H1 : rinf <= lsup.
  Hypothesis H2 : linf <= rsup.
  Let M := qmax linf rinf.
  Let m := qmin lsup rsup.
  Let lo := qmin linf rinf.
  Let hi := qmax lsup rsup.
  Lemma Mm : M <= m. Proof. assert (A := between_le _ _ _ Hl). assert (B := between_le _ _ _ Hr). unfold M, m, qmax, qmin; repeat qd; qb; lra. Qed.
  (** Lines 179-184. *)
  Lemma phase1 : between lo M (fst (span_lt rinf lp) ++ fst (span_lt linf rp)) /\
    between M lsup (snd (span_lt rinf lp)) /\ between M rsup (snd (span_lt linf rp)).
  Proof.
    unfold lo, M, qmin, qmax. destruct (Qlt_le_dec linf rinf) as [L|L].
    - rewrite (span_lt_none linf rinf rsup rp) by (auto; lra). cbn [fst snd]. rewrite app_nil_r.
      destruct (span_lt_between rinf linf lsup lp Hl) as [A B]; [lra|lra|].
      destruct (qlt rinf linf) eqn:Q1; qb; [lra|]. destruct (qlt linf rinf) eqn:Q2; qb; [|lra]. auto.
    - rewrite (span_lt_none rinf linf lsup lp) by (auto; lra). cbn [fst snd app].
      destruct (span_lt_between linf rinf rsup rp Hr) as [A B]; [lra|lra|].
      destruct (qlt linf rinf) eqn:Q2; qb; [lra|]. destruct (qlt rinf linf) eqn:Q1; qb; [auto|].
      split; [|auto]. apply (between_weaken rinf linf linf linf); auto; lra.
  Qed.
  (** Lines 219-250. *)
  Lemma phase4 T l3 r3 : between T lsup l3 -> between T rsup r3 -> M <= T -> (l3 = [] \/ r3 = []) ->
    between T hi (fst (span_lt rsup l3) ++ fst (span_lt lsup r3) ++
      (let '(top, l5, r5) := if negb (qeq lsup rsup) && negb (qeq m M) then ([m], skip_eq m (snd (span_lt rsup l3)), skip_eq m (snd (span_lt lsup r3)))
                             else ([], snd (span_lt rsup l3), snd (span_lt lsup r3)) in top ++ l5 ++ r5)).
  Proof.
    intros Kl Kr HT HE. assert (Tl := between_le _ _ _ Kl). assert (Tr := between_le _ _ _ Kr).
    assert (E : exists X, (X = [m] \/ X = []) /\ exists A B,
      (let '(top, l5, r5) := if negb (qeq lsup rsup) && negb (qeq m M) then ([m], skip_eq m (snd (span_lt rsup l3)), skip_eq m (snd (span_lt lsup r3)))
                             else ([], snd (span_lt rsup l3), snd (span_lt lsup r3)) in top ++ l5 ++ r5) = X ++ A ++ B /\
      (forall a b, between a b (snd (span_lt rsup l3)) -> between a b A) /\ (forall a b, between a b (snd (span_lt lsup r3)) -> between a b B) /\
      (snd (span_lt rsup l3) = [] -> A = []) /\ (snd (span_lt lsup r3) = [] -> B = [])).
    { destruct (negb (qeq lsup rsup) && negb (qeq m M)).
      - exists [m]. split; [auto|]. eexists _, _. split; [reflexivity|]. split; [intros; apply skip_eq_between; auto|split; [intros; apply skip_eq_between; auto|]].
        split; intros ->; reflexivity.
      - exists []. split; [auto|]. eexists _, _. split; [reflexivity|]. auto. }
    destruct E as (X & HX & A & B & -> & PA & PB & NA & NB).
    assert (XX : between m m X) by (destruct HX as [->| ->]; cbn; [split|]; lra).
    assert (Mi : T <= m) by (unfold m, qmin; qd; qb; lra).
    assert (mh : m <= hi) by (unfold m, hi, qmin, qmax; repeat qd; qb; lra).
    destruct HE as [->| ->].
    - cbn [span_lt fst snd app] in *. rewrite NA by reflexivity. cbn [app].
      destruct (Qlt_le_dec rsup lsup) as [L|L].
      + rewrite (span_lt_all lsup T rsup r3) in * by auto. cbn [fst snd] in *. rewrite NB by reflexivity. rewrite app_nil_r.
        assert (Em : m = rsup) by (unfold m, qmin; destruct (qlt rsup lsup) eqn:Q; qb; [auto|lra]).
        apply (between_app T m hi); [rewrite Em; auto|]. apply (between_weaken m m m hi); auto; lra.
      + destruct (span_lt_between lsup T rsup r3 Kr) as [C1 C2]; [lra|lra|].
        assert (Em : m = lsup) by (unfold m, qmin; destruct (qlt rsup lsup) eqn:Q; qb; [lra|auto]).
        apply (between_app T m hi); [rewrite Em; auto|]. apply (between_app m m hi); [auto|].
        apply (between_weaken m m rsup hi); [lra|unfold hi, qmax; qd; qb; lra|]. rewrite Em. apply PB; auto.
    - cbn [span_lt fst snd app] in *. rewrite NB by reflexivity. rewrite app_nil_r.
      destruct (Qlt_le_dec lsup rsup) as [L|L].
      + rewrite (span_lt_all rsup T lsup l3) in * by auto. cbn [fst snd] in *. rewrite NA by reflexivity. rewrite app_nil_r.
        assert (Em : m = lsup) by (unfold m, qmin; destruct (qlt rsup lsup) eqn:Q; qb; [lra|auto]).
        apply (between_app T m hi); [rewrite Em; auto|]. apply (between_weaken m m m hi); auto; lra.
      + destruct (span_lt_between rsup T lsup l3 Kl) as [C1 C2]; [lra|lra|].
        assert (Em : m == rsup) by (unfold m, qmin; destruct (qlt rsup lsup) eqn:Q; qb; lra).
        apply (between_app T m hi); [apply (between_weaken T T rsup m); auto; lra|]. apply (between_app m m hi); [auto|].
        apply (between_weaken rsup m lsup hi); [lra|unfold hi, qmax; qd; qb; lra|]. apply PA; auto.
  Qed.
  Theorem merge_points_between : between lo hi (merge_points linf lsup rinf rsup lp rp).
  Proof.
    unfold merge_points. destruct phase1 as (P1 & P2 & P3).
    destruct (span_lt rinf lp) as [a1 l1]. destruct (span_lt linf rp) as [b1 r1]. cbn [fst snd] in *. fold M m.
    set (ph2 := if qeq linf rinf then _ else _).
    assert (E2 : exists mid l2 r2, ph2 = (mid, l2, r2) /\ between M M mid /\ between M lsup l2 /\ between M rsup r2).
    { unfold ph2. destruct (qeq linf rinf) eqn:Q; [exists [], l1, r1|exists [M], (skip_eq M l1), (skip_eq M r1)].
      - split; [auto|split; [cbn; lra|auto]].
      - split; [auto|split; [cbn; split; lra|split; apply skip_eq_between; auto]]. }
    destruct E2 as (mid & l2 & r2 & -> & Q1 & Q2 & Q3).
    assert (I := interleave_spec _ l2 r2 M lsup rsup (Nat.le_refl _) Q2 Q3). destruct (interleave l2 r2) as [[il l3] r3].
    destruct I as ((T & I1 & I2 & I3) & I4 & _).
    assert (P4 := phase4 T l3 r3 I2 I3 (between_le _ _ _ I1) I4).
    destruct (span_lt rsup l3) as [a4 l4]. destruct (span_lt lsup r3) as [b4 r4]. cbn [fst snd] in P4.
    destruct (if negb (qeq lsup rsup) && negb (qeq m M) then _ else _) as [[top l5] r5].
    rewrite app_assoc. apply (between_app lo M hi); [auto|]. apply (between_app M M hi); [auto|]. apply (between_app M T hi); auto.
  Qed.
  (** The set of points. *)
  Theorem merge_points_in x : inQ x (merge_points linf lsup rinf rsup lp rp) <->
    inQ x lp \/ inQ x rp \/ (x == M /\ ~ linf == rinf) \/ (x == m /\ ~ lsup == rsup /\ ~ m == M).
  Proof.
    unfold merge_points. destruct phase1 as (_ & P2 & P3). assert (S1 := span_lt_app rinf lp). assert (S2 := span_lt_app linf rp).
    destruct (span_lt rinf lp) as [a1 l1]. destruct (span_lt linf rp) as [b1 r1]. cbn [fst snd] in *. fold M m.
    rewrite <- S1, <- S2, !inQ_app.
    assert (E2 : exists mid l2 r2, (if qeq linf rinf then ([], l1, r1) else ([M], skip_eq M l1, skip_eq M r1)) = (mid, l2, r2) /\
      between M lsup l2 /\ between M rsup r2 /\ (inQ x mid \/ inQ x l2 \/ inQ x r2 <-> inQ x l1 \/ inQ x r1 \/ (x == M /\ ~ linf == rinf))).
    { destruct (qeq linf rinf) eqn:Q; [exists [], l1, r1|exists [M], (skip_eq M l1), (skip_eq M r1)].
      - apply qeq_true in Q. split; [auto|split; [auto|split; [auto|]]]. rewrite inQ_nil. tauto.
      - apply qeq_false in Q. split; [auto|split; [apply skip_eq_between; auto|split; [apply skip_eq_between; auto|]]].
        rewrite inQ_cons, inQ_nil. assert (K1 := skip_eq_in M x l1). assert (K2 := skip_eq_in M x r1). assert (M == x <-> x == M) by (split; intros; symmetry; auto).
        tauto. }
    destruct E2 as (mid & l2 & r2 & -> & Q2 & Q3 & E2).
    assert (I := interleave_spec _ l2 r2 M lsup rsup (Nat.le_refl _) Q2 Q3). destruct (interleave l2 r2) as [[il l3] r3].
    destruct I as (_ & _ & I). specialize (I x).
    assert (S3 := span_lt_app rsup l3). assert (S4 := span_lt_app lsup r3).
    destruct (span_lt rsup l3) as [a4 l4]. destruct (span_lt lsup r3) as [b4 r4]. cbn [fst snd] in *.
    rewrite <- S3, <- S4, !inQ_app in I.
    assert (E4 : exists top l5 r5, (if negb (qeq lsup rsup) && negb (qeq m M) then ([m], skip_eq m l4, skip_eq m r4) else ([], l4, r4)) = (top, l5, r5) /\
      (inQ x top \/ inQ x l5 \/ inQ x r5 <-> inQ x l4 \/ inQ x r4 \/ (x == m /\ ~ lsup == rsup /\ ~ m == M))).
    { destruct (negb (qeq lsup rsup) && negb (qeq m M)) eqn:Q; [exists [m], (skip_eq m l4), (skip_eq m r4)|exists [], l4, r4]; (split; [reflexivity|]).
      - apply andb_prop in Q. destruct Q as [Qa Qb]. apply negb_true_iff in Qa. apply negb_true_iff in Qb. apply qeq_false in Qa. apply qeq_false in Qb.
        rewrite inQ_cons, inQ_nil. assert (K1 := skip_eq_in m x l4). assert (K2 := skip_eq_in m x r4). assert (m == x <-> x == m) by (split; intros; symmetry; auto).
        clear - Qa Qb K1 K2 H. tauto.
      - rewrite inQ_nil. apply andb_false_iff in Q.
        assert (~ (~ lsup == rsup /\ ~ m == M)) by (destruct Q as [Q|Q]; apply negb_false_iff in Q; apply qeq_true in Q; tauto). clear - H. tauto. }
    destruct E4 as (top & l5 & r5 & -> & E4). rewrite !inQ_app. rewrite E4. set (C2 := x == m /\ _) in *. set (C1 := x == M /\ _) in *.
    transitivity (inQ x a1 \/ inQ x b1 \/ inQ x mid \/ (inQ x il \/ (inQ x a4 \/ inQ x l4) \/ inQ x b4 \/ inQ x r4) \/ C2); [clear; tauto|].
    rewrite I. transitivity (inQ x a1 \/ inQ x b1 \/ (inQ x mid \/ inQ x l2 \/ inQ x r2) \/ C2); [clear; tauto|]. rewrite E2. clear; tauto.
  Qed.
End Merge.

(** Merge of partitions. *)
Definition apart (p o : partition) : Prop := p_sup p < p_inf o \/ p_sup o < p_inf p.
Lemma merge_base p o q : wf p -> wf o -> merge p o = Ok q ->
  p_type q = p_type p /\ p_inf q = qmin (p_inf p) (p_inf o) /\ p_sup q = qmax (p_sup p) (p_sup o).
Proof.
  intros Hp Ho E. assert (A := between_le _ _ _ Hp). assert (B := between_le _ _ _ Ho). unfold merge in E.
  destruct (negb (itype_eqb (p_type p) (p_type o))); [discriminate|].
  assert (K : ri_make (qmin (p_inf p) (p_inf o)) (qmax (p_sup p) (p_sup o)) (p_type p) = mkRI (qmin (p_inf p) (p_inf o)) (qmax (p_sup p) (p_sup o)) (p_type p)).
  { apply ri_make_ordered. unfold qmin, qmax; repeat qd; qb; lra. }
  rewrite K in E. destruct (qlt (p_sup p) (p_inf o)); [|destruct (qlt (p_sup o) (p_inf p))]; injection E as <-; auto.
Qed.
Lemma merge_ok p o : p_type p = p_type o -> exists q, merge p o = Ok q.
Proof. intros H. unfold merge. rewrite H. replace (itype_eqb (p_type o) (p_type o)) with true by (destruct (p_type o); auto). cbn [negb].
  destruct (qlt _ _); [|destruct (qlt _ _)]; eauto. Qed.
Lemma merge_throw p o : p_type p <> p_type o -> merge p o = Throw.
Proof. intros H. unfold merge. destruct (p_type p), (p_type o); try congruence; reflexivity. Qed.
Theorem merge_wf p o q : wf p -> wf o -> merge p o = Ok q -> wf q.
Proof.
  intros Hp Ho E. destruct (merge_base p o q Hp Ho E) as (_ & Ei & Es). unfold wf. rewrite Ei, Es. clear Ei Es.
  assert (A := between_le _ _ _ Hp). assert (B := between_le _ _ _ Ho). unfold merge in E.
  destruct (negb (itype_eqb (p_type p) (p_type o))); [discriminate|].
  destruct (qlt (p_sup p) (p_inf o)) eqn:Q1; [|destruct (qlt (p_sup o) (p_inf p)) eqn:Q2]; injection E as <-; cbn [p_pts].
  - qb. unfold qmin, qmax. destruct (qeq (p_sup p) (p_inf p)), (qeq (p_inf o) (p_sup o)); repeat qd; qb; cbn [app between]; repeat split; lra.
  - qb. unfold qmin, qmax. destruct (qeq (p_sup p) (p_inf p)), (qeq (p_inf o) (p_sup o)); repeat qd; qb; cbn [app between]; repeat split; lra.
  - qb. apply merge_points_between; auto.
Qed.
Theorem merge_points_set p o q x : wf p -> wf o -> merge p o = Ok q -> ~ apart p o ->
  (inQ x (p_pts q) <-> inQ x (p_pts p) \/ inQ x (p_pts o) \/
     (x == qmax (p_inf p) (p_inf o) /\ ~ p_inf p == p_inf o) \/
     (x == qmin (p_sup p) (p_sup o) /\ ~ p_sup p == p_sup o /\ ~ qmin (p_sup p) (p_sup o) == qmax (p_inf p) (p_inf o))).
Proof.
  intros Hp Ho E N. unfold apart in N. unfold merge in E.
  destruct (negb (itype_eqb (p_type p) (p_type o))); [discriminate|].
  destruct (qlt (p_sup p) (p_inf o)) eqn:Q1; [qb; tauto|]. destruct (qlt (p_sup o) (p_inf p)) eqn:Q2; [qb; tauto|]. injection E as <-. cbn [p_pts].
  qb. apply merge_points_in; auto.
Qed.
(** Merging partitions with a gap between them forgets all interior points. *)
Theorem merge_apart p o q : p_inf p < p_sup p -> p_inf o < p_sup o -> merge p o = Ok q -> p_sup p < p_inf o -> p_pts q = [p_sup p; p_inf o].
Proof.
  intros Hp Ho E H. unfold merge in E. destruct (negb (itype_eqb (p_type p) (p_type o))); [discriminate|].
  destruct (qlt (p_sup p) (p_inf o)) eqn:Q1; [|qb; lra]. injection E as <-. cbn [p_pts].
  destruct (qeq (p_sup p) (p_inf p)) eqn:Q2; [qb; lra|]. destruct (qeq (p_inf o) (p_sup o)) eqn:Q3; [qb; lra|]. reflexivity.
Qed.
Theorem merge_apart' p o q : p_inf p < p_sup p -> p_inf o < p_sup o -> merge p o = Ok q -> p_sup o < p_inf p -> p_pts q = [p_sup o; p_inf p].
Proof.
  intros Hp Ho E H. unfold merge in E. destruct (negb (itype_eqb (p_type p) (p_type o))); [discriminate|].
  destruct (qlt (p_sup p) (p_inf o)) eqn:Q1; [qb; lra|]. destruct (qlt (p_sup o) (p_inf p)) eqn:Q1'; [|qb; lra]. injection E as <-. cbn [p_pts].
  destruct (qeq (p_sup p) (p_inf p)) eqn:Q2; [qb; lra|]. destruct (qeq (p_inf o) (p_sup o)) eqn:Q3; [qb; lra|]. reflexivity.
Qed.

(** ** All edit histories *)
Inductive made : partition -> Prop :=
| made_base base : ri_inf base <= ri_sup base -> made (mkP base [])
| made_new base pts : ri_inf base <= ri_sup base -> made (partition_new base pts)
| made_insert p x p' : made p -> insert_intermediate p x = Ok p' -> made p'
| made_refine p : made p -> made (refine_midpoints p)
| made_merge p o q : made p -> made o -> merge p o = Ok q -> made q.
Theorem made_wf p : made p -> wf p.
Proof.
  induction 1 as [base H|base pts H|p x p' H IH E|p H IH|p o q H1 I1 H2 I2 E].
  - exact H.
  - apply partition_new_wf; auto.
  - destruct (insert_intermediate_wf p x p' IH E) as [K _]; exact K.
  - apply refine_wf; auto.
  - apply (merge_wf p o); auto.
Qed.
(** The pieces tile: index i gives [e_i, e_(i+1)] for one list of ends starting at inf
    and ending at sup. *)
Theorem made_tiles p : made p -> exists e : list Q,
  nth_error e 0 = Some (p_inf p) /\ nth_error e (p_size p) = Some (p_sup p) /\
  (forall i, (i < p_size p)%nat -> exists a b, nth_error e i = Some a /\ nth_error e (S i) = Some b /\ a <= b /\ piece p i = Ok (mkRI a b (p_type p))) /\
  (forall i, (p_size p <= i)%nat -> piece p i = Throw).
Proof.
  intros H. apply made_wf in H. exists (ends p). split; [apply ends_first|split; [apply ends_last|split]].
  - intros i Hi. apply (piece_spec p i H); auto.
  - intros i Hi. apply (piece_spec p i H); auto.
Qed.
Theorem made_refine_halves p : made p -> p_size (refine_midpoints p) = (2 * p_size p)%nat /\
  forall i, (i < p_size p)%nat -> exists a b, piece p i = Ok (mkRI a b (p_type p)) /\
    piece (refine_midpoints p) (2 * i) = Ok (mkRI a ((b + a) / 2) (p_type p)) /\
    piece (refine_midpoints p) (2 * i + 1) = Ok (mkRI ((b + a) / 2) b (p_type p)).
Proof.
  intros H. apply made_wf in H. split; [apply refine_size|]. intros i Hi.
  destruct (piece_spec p i H) as [_ K]. destruct (K Hi) as (a & b & Ea & Eb & _ & E). exists a, b. split; [auto|].
  destruct (refine_pieces p i a b Ea Eb) as (R0 & R1 & R2). assert (W := refine_wf p H).
  assert (S2 := refine_size p). split.
  - destruct (piece_spec _ (2 * i) W) as [_ K2]. destruct (K2 ltac:(lia)) as (a' & b' & E1 & E2 & _ & ->).
    rewrite R0 in E1. replace (S (2 * i)) with (2 * i + 1)%nat in E2 by lia. rewrite R1 in E2. injection E1 as <-. injection E2 as <-. reflexivity.
  - destruct (piece_spec _ (2 * i + 1) W) as [_ K2]. destruct (K2 ltac:(lia)) as (a' & b' & E1 & E2 & _ & ->).
    rewrite R1 in E1. replace (S (2 * i + 1)) with (2 * i + 2)%nat in E2 by lia. rewrite R2 in E2. injection E1 as <-. injection E2 as <-. reflexivity.
Qed.
Theorem made_mesh p : made p -> exists m, mesh p = Some m /\
  (forall i s, (i < p_size p)%nat -> piece p i = Ok s -> m <= ri_sup s - ri_inf s) /\
  (exists i s, (i < p_size p)%nat /\ piece p i = Ok s /\ m == ri_sup s - ri_inf s).
Proof.
  intros H. apply made_wf in H. destruct (mesh_spec p H) as (m & E & L & (i & a & b & Ha & Hb & Hm)). exists m. split; [auto|split].
  - intros j s Hj Es. destruct (piece_spec p j H) as [_ K]. destruct (K Hj) as (a' & b' & Ea & Eb & _ & E'). rewrite E' in Es. injection Es as <-.
    cbn [ri_sup ri_inf]. eauto.
  - assert (Hi : (i < p_size p)%nat).
    { assert (X : (S i < length (ends p))%nat) by (apply nth_error_Some; rewrite Hb; discriminate).
      unfold ends in X. cbn [length] in X. rewrite app_length in X. cbn [length] in X. unfold p_size. lia. }
    destruct (piece_spec p i H) as [_ K]. destruct (K Hi) as (a' & b' & Ea & Eb & _ & E'). rewrite Ha in Ea. rewrite Hb in Eb. injection Ea as <-. injection Eb as <-.
    exists i, (mkRI a b (p_type p)). auto.
Qed.

