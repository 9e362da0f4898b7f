(** Proofs about tensor-valued streams. *)
From Coq Require Import QArith Lqa Lia.
From Verif Require Import TvsSpec StreamProofs StreamProofs2 StreamProofs3 DyadicProofs StreamLemmas.
From Verif Require IntervalProofs PwProofs.
Open Scope Q_scope.

Section A.
  Context {G : Type}.
  Variables (eqv : G -> G -> Prop) (mul : G -> G -> G) (signature : ri -> outcome G) (lo hi : Q).
  Variable I : increments eqv mul signature lo hi.
  Notation "x === y" := (eqv x y) (at level 70).
  Definition inside (s : tvs G) := lo <= ri_inf (tv_domain s) /\ ri_inf (tv_domain s) <= ri_sup (tv_domain s) /\ ri_sup (tv_domain s) <= hi.

  Lemma make_id a b t : a <= b -> ri_make a b t = mkRI a b t.
  Proof. intros H. unfold ri_make. assert (E : qlt b a = false) by (apply qlt_niff; exact H). rewrite E. reflexivity. Qed.
  Lemma value_throws s t : value_at mul signature s t = Throw <-> ~ in_domain s t \/ (~ t == ri_inf (tv_domain s) /\ signature (ri_make (ri_inf (tv_domain s)) t Clopen) = Throw).
  Proof using.
    clear I. unfold value_at, in_domain. destruct (qlt t (ri_inf (tv_domain s))) eqn:E1; cbn [orb].
    { apply qlt_iff in E1. split; auto. intros _. left. intros [X _]. lra. }
    apply qlt_niff in E1. destruct (qlt (ri_sup (tv_domain s)) t) eqn:E2.
    { apply qlt_iff in E2. split; auto. intros _. left. intros [_ X]. lra. }
    apply qlt_niff in E2. destruct (qeq t (ri_inf (tv_domain s))) eqn:E3.
    - apply IntervalProofs.qeq_true in E3. split; [discriminate|]. intros [X|[X _]]; exfalso; [apply X; split; lra|tauto].
    - assert (N : ~ t == ri_inf (tv_domain s)) by (rewrite <- IntervalProofs.qeq_true; congruence). destruct signature; cbn [bind]; split; intros; try discriminate; auto.
      all: destruct H as [X|[_ X]]; try discriminate; exfalso; apply X; split; lra.
  Qed.
  Lemma value_ok s t : inside s -> in_domain s t -> exists v, value_at mul signature s t = Ok v /\
    ((t == ri_inf (tv_domain s) /\ v = tv_initial s) \/ (ri_inf (tv_domain s) < t /\ exists g, signature (mkRI (ri_inf (tv_domain s)) t Clopen) = Ok g /\ v = mul (tv_initial s) g)).
  Proof.
    intros (L1 & L2 & L3) [H1 H2]. unfold value_at.
    assert (E1 : qlt t (ri_inf (tv_domain s)) = false) by (apply qlt_niff; auto). assert (E2 : qlt (ri_sup (tv_domain s)) t = false) by (apply qlt_niff; auto). rewrite E1, E2. cbn [orb].
    destruct (qeq t (ri_inf (tv_domain s))) eqn:E3.
    - apply IntervalProofs.qeq_true in E3. eauto.
    - assert (N : ~ t == ri_inf (tv_domain s)) by (rewrite <- IntervalProofs.qeq_true; congruence). rewrite make_id by lra.
      destruct (in_some _ _ _ _ _ I (ri_inf (tv_domain s)) t Clopen) as [g Hg]; try lra. rewrite Hg. cbn [bind]. eexists. split; [reflexivity|]. right. split; [|eauto].
      destruct (Q_dec t (ri_inf (tv_domain s))) as [[?|?]|?]; [lra|auto|tauto].
  Qed.
  Lemma value_same s a b v v' : inside s -> in_domain s a -> a == b -> value_at mul signature s a = Ok v -> value_at mul signature s b = Ok v' -> v === v'.
  Proof.
    intros Hs Ha E V V'. assert (Hb : in_domain s b) by (destruct Ha; split; lra).
    destruct (value_ok s a Hs Ha) as (u & Eu & Cu), (value_ok s b Hs Hb) as (u' & Eu' & Cu'). rewrite V in Eu. rewrite V' in Eu'. injection Eu as <-. injection Eu' as <-.
    destruct Cu as [[A ->]|(A & g & Hg & ->)], Cu' as [[B ->]|(B & g' & Hg' & ->)]; try lra; [apply (in_refl _ _ _ _ _ I)|].
    apply (in_mul _ _ _ _ _ I); [apply (in_refl _ _ _ _ _ I)|]. destruct Hs as (?&?&?), Ha. eapply (in_ends _ _ _ _ _ I); [| | | | |exact Hg|exact Hg']; cbn; auto; try lra; reflexivity.
  Qed.
  Lemma value_step s a b v w t g : inside s -> ri_inf (tv_domain s) <= a -> a < b -> b <= ri_sup (tv_domain s) ->
    value_at mul signature s a = Ok v -> value_at mul signature s b = Ok w -> signature (mkRI a b t) = Ok g -> w === mul v g.
  Proof.
    intros Hs H1 H2 H3 V W Hg. destruct (value_ok s a Hs) as (u & Eu & Cu); [split; lra|]. destruct (value_ok s b Hs) as (u' & Eu' & Cu'); [split; lra|].
    rewrite V in Eu. rewrite W in Eu'. injection Eu as <-. injection Eu' as <-. destruct Hs as (L1 & L2 & L3).
    destruct Cu' as [[B ->]|(B & g2 & Hg2 & ->)]; [lra|]. destruct Cu as [[A ->]|(A & g1 & Hg1 & ->)].
    - apply (in_mul _ _ _ _ _ I); [apply (in_refl _ _ _ _ _ I)|]. eapply (in_ends _ _ _ _ _ I); [| | | | |exact Hg2|exact Hg]; cbn; lra.
    - eapply (in_trans _ _ _ _ _ I); [|apply (in_sym _ _ _ _ _ I), (in_assoc _ _ _ _ _ I)]. apply (in_mul _ _ _ _ _ I); [apply (in_refl _ _ _ _ _ I)|].
      eapply (in_chen _ _ _ _ _ I (ri_inf (tv_domain s)) a b); eauto; lra.
  Qed.
  Lemma terminal_ok s v w : inside s -> ri_inf (tv_domain s) < ri_sup (tv_domain s) ->
    terminal_value mul signature s = Ok v -> value_at mul signature s (ri_sup (tv_domain s)) = Ok w -> v === w.
  Proof.
    intros Hs H V W. destruct (value_ok s (ri_sup (tv_domain s)) Hs) as (u & Eu & Cu); [split; lra|]. rewrite W in Eu. injection Eu as <-.
    destruct Cu as [[B ->]|(B & g2 & Hg2 & ->)]; [lra|]. unfold terminal_value in V. destruct (signature (tv_domain s)) eqn:E; try discriminate. cbn in V. injection V as <-.
    apply (in_mul _ _ _ _ _ I); [apply (in_refl _ _ _ _ _ I)|]. eapply (in_ends _ _ _ _ _ I); [| | | | |exact E|exact Hg2]; destruct Hs as (?&?&?); cbn; auto; reflexivity.
  Qed.
  Lemma terminal_some s : inside s -> exists v, terminal_value mul signature s = Ok v.
  Proof. intros (L1 & L2 & L3). unfold terminal_value. destruct (tv_domain s) as [a b t] eqn:E. cbn in *. destruct (in_some _ _ _ _ _ I a b t L1 L2 L3) as [g ->]. cbn. eauto. Qed.

  (** Queries. *)
  Lemma meets i j : ri_inf i < ri_sup i -> ri_inf j < ri_sup j -> ri_t i = Clopen -> ri_t j = Clopen ->
    intersects_with i j = true <-> ri_inf i < ri_sup j /\ ri_inf j < ri_sup i.
  Proof using.
    clear I. intros H1 H2 T1 T2. unfold intersects_with. rewrite T1, T2. cbn [itype_eqb andb].
    destruct ((qle (ri_inf i) (ri_inf j) && qlt (ri_inf j) (ri_sup i)) || (qle (ri_inf j) (ri_inf i) && qlt (ri_inf i) (ri_sup j)))%bool eqn:E.
    - split; auto. intros _. apply Bool.orb_true_iff in E. rewrite !Bool.andb_true_iff, !qlt_iff, !qle_iff in E. lra.
    - assert (X : ~ ((ri_inf i <= ri_inf j /\ ri_inf j < ri_sup i) \/ (ri_inf j <= ri_inf i /\ ri_inf i < ri_sup j))).
      { intros C. rewrite <- !qlt_iff, <- !qle_iff, <- !Bool.andb_true_iff, <- Bool.orb_true_iff in C. congruence. }
      destruct (qeq (ri_inf j) (ri_sup i)); [|destruct (qeq (ri_inf i) (ri_sup j))]; split; try discriminate; intros [A B]; exfalso; apply X; destruct (Qlt_le_dec (ri_inf j) (ri_inf i)); [right|left|right|left|right|left]; split; lra.
  Qed.
  Lemma inter_dom i j : ri_inf i < ri_sup j -> ri_inf j < ri_sup i -> ri_inf i < ri_sup i -> ri_inf j < ri_sup j ->
    intersection i j = mkRI (qmax (ri_inf i) (ri_inf j)) (qmin (ri_sup i) (ri_sup j)) Clopen.
  Proof using.
    clear I. intros H1 H2 H3 H4. unfold intersection. assert (E1 : qle (ri_sup j) (ri_inf i) = false) by (apply qle_niff; auto). assert (E2 : qle (ri_sup i) (ri_inf j) = false) by (apply qle_niff; auto).
    rewrite E1, E2. cbn [orb]. apply make_id. destruct (IntervalProofs.qmax_spec (ri_inf i) (ri_inf j)) as (_ & _ & [-> | ->]), (IntervalProofs.qmin_spec (ri_sup i) (ri_sup j)) as (_ & _ & [-> | ->]); lra.
  Qed.
  Lemma qmax_lt i j x : qmax i j <= x <-> i <= x /\ j <= x.
  Proof using. clear I. destruct (IntervalProofs.qmax_spec i j) as (A & B & [E|E]); rewrite E in *; lra. Qed.
  Lemma qmin_gt i j x : x <= qmin i j <-> x <= i /\ x <= j.
  Proof using. clear I. destruct (IntervalProofs.qmin_spec i j) as (A & B & [E|E]); rewrite E in *; lra. Qed.

  Lemma query_ok s q : inside s -> ri_inf (tv_domain s) < ri_sup (tv_domain s) -> ri_inf q < ri_sup q ->
    ri_inf (tv_domain s) < ri_sup q -> ri_inf q < ri_sup (tv_domain s) ->
    exists s', tvs_query mul signature s q = Ok s' /\ inside s' /\ ri_t (tv_domain s') = Clopen /\ ri_inf (tv_domain s') < ri_sup (tv_domain s') /\
      (forall t, in_domain s' t <-> in_domain s t /\ in_range q t) /\
      (forall t v w, in_domain s' t -> value_at mul signature s' t = Ok v -> value_at mul signature s t = Ok w -> v === w).
  Proof.
    intros Hs Hd Hq H1 H2. unfold tvs_query.
    assert (E : intersects_with (tv_domain s) q = true).
    { unfold intersects_with. destruct (Qlt_le_dec (ri_inf q) (ri_inf (tv_domain s))) as [X|X].
      - assert (A : qle (ri_inf q) (ri_inf (tv_domain s)) = true) by (apply qle_iff; lra). assert (B : qlt (ri_inf (tv_domain s)) (ri_sup q) = true) by (apply qlt_iff; lra). rewrite A, B. rewrite Bool.orb_true_r. reflexivity.
      - assert (A : qle (ri_inf (tv_domain s)) (ri_inf q) = true) by (apply qle_iff; lra). assert (B : qlt (ri_inf q) (ri_sup (tv_domain s)) = true) by (apply qlt_iff; lra). rewrite A, B. reflexivity. }
    rewrite E. cbn [negb]. rewrite inter_dom by assumption. cbn [ri_inf].
    set (a := qmax (ri_inf (tv_domain s)) (ri_inf q)). set (b := qmin (ri_sup (tv_domain s)) (ri_sup q)).
    assert (Ha : ri_inf (tv_domain s) <= a /\ ri_inf q <= a) by (apply qmax_lt, Qle_refl). assert (Hb : b <= ri_sup (tv_domain s) /\ b <= ri_sup q) by (apply qmin_gt, Qle_refl).
    assert (Hab : a < b). { unfold a, b. destruct (IntervalProofs.qmax_spec (ri_inf (tv_domain s)) (ri_inf q)) as (_ & _ & [-> | ->]), (IntervalProofs.qmin_spec (ri_sup (tv_domain s)) (ri_sup q)) as (_ & _ & [-> | ->]); lra. }
    assert (Da : in_domain s a) by (split; lra). destruct (value_ok s a Hs Da) as (va & Ea & _). rewrite Ea. cbn [bind]. eexists. split; [reflexivity|]. cbn [tv_domain tv_initial ri_inf ri_sup ri_t].
    assert (Hs' : inside (mkTvs (mkRI a b Clopen) va)) by (destruct Hs as (?&?&?); unfold inside; cbn; lra).
    split; [exact Hs'|]. split; [reflexivity|]. split; [exact Hab|]. split.
    { intros t. unfold in_domain, in_range. cbn [tv_domain ri_inf ri_sup]. unfold a, b. rewrite qmax_lt, qmin_gt. tauto. }
    intros t v w Ht V W. assert (Ht2 := Ht). destruct Ht as [T1 T2]. cbn in T1, T2. assert (Dt : in_domain s t) by (split; lra).
    destruct (value_ok _ t Hs' Ht2) as (u & Eu & Cu). rewrite V in Eu. injection Eu as <-. cbn [tv_domain ri_inf tv_initial] in Cu. destruct Cu as [[A ->]|(A & g & Hg & ->)].
    - eapply (value_same s a t); eauto. symmetry. exact A.
    - apply (in_sym _ _ _ _ _ I). eapply (value_step s a t); eauto; lra.
  Qed.
  Lemma query_clopen s q : inside s -> ri_t (tv_domain s) = Clopen -> ri_t q = Clopen -> ri_inf (tv_domain s) < ri_sup (tv_domain s) -> ri_inf q < ri_sup q ->
    tvs_query mul signature s q = Throw <-> ri_sup q <= ri_inf (tv_domain s) \/ ri_sup (tv_domain s) <= ri_inf q.
  Proof.
    intros Hs T1 T2 Hd Hq. split.
    - intros H. destruct (Qlt_le_dec (ri_inf (tv_domain s)) (ri_sup q)) as [A|A]; [|auto]. destruct (Qlt_le_dec (ri_inf q) (ri_sup (tv_domain s))) as [B|B]; [|auto].
      destruct (query_ok s q) as (s' & E & _); auto. congruence.
    - intros H. unfold tvs_query. destruct (intersects_with (tv_domain s) q) eqn:E; [|reflexivity]. apply meets in E; auto. lra.
  Qed.
  Lemma history s qs s' : inside s -> ri_t (tv_domain s) = Clopen -> ri_inf (tv_domain s) < ri_sup (tv_domain s) ->
    Forall (fun q => ri_t q = Clopen /\ ri_inf q < ri_sup q) qs -> queries mul signature s qs = Ok s' ->
    inside s' /\ ri_t (tv_domain s') = Clopen /\ ri_inf (tv_domain s') < ri_sup (tv_domain s') /\
    (forall t, in_domain s' t <-> in_domain s t /\ Forall (fun q => in_range q t) qs) /\
    (forall t v w, in_domain s' t -> value_at mul signature s' t = Ok v -> value_at mul signature s t = Ok w -> v === w).
  Proof.
    revert s. induction qs as [|q qs IH]; cbn [queries]; intros s Hs T D HQ E.
    - injection E as <-. split; auto. split; auto. split; auto. split; [intros; split; [auto|tauto]|]. intros t v w Ht V W. rewrite V in W. injection W as <-. apply (in_refl _ _ _ _ _ I).
    - apply Forall_cons_iff in HQ as [[Q1 Q2] HQ]. destruct (tvs_query mul signature s q) as [s1| | |] eqn:E1; try discriminate. cbn [bind] in E.
      assert (M : ri_inf (tv_domain s) < ri_sup q /\ ri_inf q < ri_sup (tv_domain s)).
      { assert (X := query_clopen s q Hs T Q1 D Q2). rewrite E1 in X. destruct X as [_ X].
        destruct (Qlt_le_dec (ri_inf (tv_domain s)) (ri_sup q)) as [A|A]; [|exfalso; specialize (X (or_introl A)); discriminate].
        destruct (Qlt_le_dec (ri_inf q) (ri_sup (tv_domain s))) as [B|B]; [auto|exfalso; specialize (X (or_intror B)); discriminate]. }
      destruct (query_ok s q Hs D Q2 (proj1 M) (proj2 M)) as (s1' & E1' & I1 & T1 & D1 & F1 & V1). rewrite E1 in E1'. injection E1' as <-.
      destruct (IH s1 I1 T1 D1 HQ E) as (I2 & T2 & D2 & F2 & V2). split; auto. split; auto. split; auto. split.
      + intros t. rewrite F2, F1, Forall_cons_iff. tauto.
      + intros t v w Ht V W. assert (Ht1 : in_domain s1 t) by (apply F2, Ht). destruct (value_ok s1 t I1 Ht1) as (u & Eu & _).
        eapply (in_trans _ _ _ _ _ I); [eapply V2; eauto|eapply V1; eauto].
  Qed.
  (** Domain and query that only touch: the intersection falls back to [0, 1). *)
  Lemma touching s q : ri_t (tv_domain s) = Opencl -> ri_t q = Clopen -> ri_inf q == ri_sup (tv_domain s) ->
    tvs_query mul signature s q = let! v := value_at mul signature s 0 in Ok (mkTvs (mkRI 0 1 Clopen) v).
  Proof using.
    clear I. intros T1 T2 H. unfold tvs_query. assert (E : intersects_with (tv_domain s) q = true).
    { unfold intersects_with. destruct (_ || _)%bool; [reflexivity|]. assert (X : qeq (ri_inf q) (ri_sup (tv_domain s)) = true) by (apply IntervalProofs.qeq_true; auto). rewrite X, T1, T2. reflexivity. }
    rewrite E. cbn [negb]. assert (E2 : intersection (tv_domain s) q = ri_default).
    { unfold intersection. assert (X : qle (ri_sup (tv_domain s)) (ri_inf q) = true) by (apply qle_iff; lra). rewrite X, Bool.orb_true_r. reflexivity. }
    rewrite E2. reflexivity.
  Qed.
  (** The statements with explicit bounds. *)
  Lemma value_domain s t : lo <= ri_inf (tv_domain s) -> ri_inf (tv_domain s) <= ri_sup (tv_domain s) -> ri_sup (tv_domain s) <= hi ->
    (~ in_domain s t -> value_at mul signature s t = Throw) /\
    (in_domain s t -> exists v, value_at mul signature s t = Ok v /\ (t == ri_inf (tv_domain s) -> v = initial_value s)).
  Proof.
    intros H1 H2 H3. split.
    - intros H. apply value_throws. left. exact H.
    - intros H. destruct (value_ok s t) as (v & E & C); [repeat split; auto|auto|]. exists v. split; auto. intros T. destruct C as [[_ ->]|[C _]]; [reflexivity|lra].
  Qed.
  Lemma value_between s a b v w t g : lo <= ri_inf (tv_domain s) -> ri_sup (tv_domain s) <= hi -> ri_inf (tv_domain s) <= a -> a < b -> b <= ri_sup (tv_domain s) ->
    value_at mul signature s a = Ok v -> value_at mul signature s b = Ok w -> signature (mkRI a b t) = Ok g -> w === mul v g.
  Proof. intros H1 H2 H3 H4 H5. apply value_step; auto. repeat split; auto. lra. Qed.
  Lemma terminal_is s : lo <= ri_inf (tv_domain s) -> ri_inf (tv_domain s) < ri_sup (tv_domain s) -> ri_sup (tv_domain s) <= hi ->
    exists v w, terminal_value mul signature s = Ok v /\ value_at mul signature s (ri_sup (tv_domain s)) = Ok w /\ v === w.
  Proof.
    intros H1 H2 H3. assert (Hs : inside s) by (repeat split; auto; lra). destruct (terminal_some s Hs) as [v V]. destruct (value_ok s (ri_sup (tv_domain s)) Hs) as (w & W & _); [split; lra|].
    exists v, w. split; auto. split; auto. eapply terminal_ok; eauto.
  Qed.
  Lemma query_once s q : lo <= ri_inf (tv_domain s) -> ri_sup (tv_domain s) <= hi -> ri_inf (tv_domain s) < ri_sup (tv_domain s) -> ri_inf q < ri_sup q ->
    ri_inf (tv_domain s) < ri_sup q -> ri_inf q < ri_sup (tv_domain s) ->
    exists s', tvs_query mul signature s q = Ok s' /\
      (forall t, in_domain s' t <-> in_domain s t /\ in_range q t) /\
      (forall t, in_domain s' t -> exists v w, value_at mul signature s' t = Ok v /\ value_at mul signature s t = Ok w /\ v === w).
  Proof.
    intros H1 H2 H3 H4 H5 H6. assert (Hs : inside s) by (repeat split; auto; lra). destruct (query_ok s q Hs H3 H4 H5 H6) as (s' & E & I' & _ & _ & D & V). exists s'. split; auto. split; auto.
    intros t Ht. destruct (value_ok s' t I' Ht) as (v & Ev & _). destruct (value_ok s t Hs) as (w & Ew & _); [apply D; auto|]. exists v, w. split; auto. split; auto. eapply V; eauto.
  Qed.
  Lemma query_throws s q : lo <= ri_inf (tv_domain s) -> ri_sup (tv_domain s) <= hi -> ri_t (tv_domain s) = Clopen -> ri_t q = Clopen ->
    ri_inf (tv_domain s) < ri_sup (tv_domain s) -> ri_inf q < ri_sup q ->
    tvs_query mul signature s q = Throw <-> ri_sup q <= ri_inf (tv_domain s) \/ ri_sup (tv_domain s) <= ri_inf q.
  Proof. intros H1 H2 H3 H4 H5 H6. apply query_clopen; auto. repeat split; auto. lra. Qed.
  Lemma query_history s qs s' : lo <= ri_inf (tv_domain s) -> ri_sup (tv_domain s) <= hi -> ri_t (tv_domain s) = Clopen -> ri_inf (tv_domain s) < ri_sup (tv_domain s) ->
    Forall (fun q => ri_t q = Clopen /\ ri_inf q < ri_sup q) qs -> queries mul signature s qs = Ok s' ->
    (forall t, in_domain s' t <-> in_domain s t /\ Forall (fun q => in_range q t) qs) /\
    (forall t, in_domain s' t -> exists v w, value_at mul signature s' t = Ok v /\ value_at mul signature s t = Ok w /\ v === w) /\
    (exists v w, terminal_value mul signature s' = Ok v /\ value_at mul signature s (ri_sup (tv_domain s')) = Ok w /\ v === w).
  Proof.
    intros H1 H2 H3 H4 H5 E. assert (Hs : inside s) by (repeat split; auto; lra). destruct (history s qs s' Hs H3 H4 H5 E) as (I' & _ & L & D & V).
    assert (W : forall t, in_domain s' t -> exists v w, value_at mul signature s' t = Ok v /\ value_at mul signature s t = Ok w /\ v === w).
    { intros t Ht. destruct (value_ok s' t I' Ht) as (v & Ev & _). destruct (value_ok s t Hs) as (w & Ew & _); [apply D; auto|]. exists v, w. split; auto. split; auto. eapply V; eauto. }
    split; auto. split; auto. destruct (terminal_some s' I') as [v Ev]. destruct (W (ri_sup (tv_domain s'))) as (u & w & Eu & Ew & X); [split; lra|].
    exists v, w. split; auto. split; auto. eapply (in_trans _ _ _ _ _ I); [|exact X]. eapply terminal_ok; eauto.
  Qed.
  Lemma touching_domain s q : ri_t (tv_domain s) = Opencl -> ri_t q = Clopen -> ri_inf q == ri_sup (tv_domain s) ->
    forall s', tvs_query mul signature s q = Ok s' -> tv_domain s' = mkRI 0 1 Clopen.
  Proof using.
    clear I. intros T1 T2 H. rewrite (touching s q T1 T2 H). destruct (value_at mul signature s 0); cbn [bind]; intros s' E; try discriminate. injection E as <-. reflexivity.
  Qed.
End A.

(** Caching streams provide such increments. *)
Section B.
  Context {lie : Type}.
  Variables (is_zero : lie -> bool) (none : lie).
  Hypothesis Hn : is_zero none = true.
  Variables (S : sigs lie) (ok : lie -> Prop) (ctx : actx lie).
  Hypothesis HS : sound is_zero S ok ctx.
  Variable s : stream lie.
  Hypothesis Hs : stream_ok ok s.
  Lemma fits_sub lo hi a b n : fits_query lo hi n n -> lo <= a -> a <= b -> b <= hi -> fits_query a b n n.
  Proof using.
    clear. intros (A & B & C & D) H1 H2 H3. split; auto. split; auto. split; auto. intros x Hx.
    assert (X : Qfloor (grid_floor lo n * Qpower 2 (Z.max n n)) = Qfloor (lo * Qpower 2 n)) by (rewrite floor_grid by lia; rewrite Z.max_id, Z.sub_diag; lia).
    assert (Y : Qfloor (grid_floor hi n * Qpower 2 (Z.max n n)) = Qfloor (hi * Qpower 2 n)) by (rewrite floor_grid by lia; rewrite Z.max_id, Z.sub_diag; lia).
    assert (W : Qfloor (grid_floor x n * Qpower 2 (Z.max n n)) = Qfloor (x * Qpower 2 n)) by (rewrite floor_grid by lia; rewrite Z.max_id, Z.sub_diag; lia).
    assert (D1 := D lo (or_introl eq_refl)). assert (D2 := D hi (or_intror eq_refl)). rewrite X in D1. rewrite Y in D2. rewrite W.
    assert (P := Qpow2_pos n).
    assert (Qfloor (lo * Qpower 2 n) <= Qfloor (x * Qpower 2 n))%Z by (apply Qfloor_resp_le, Qmult_le_compat_r; [destruct Hx; subst; lra|lra]).
    assert (Qfloor (x * Qpower 2 n) <= Qfloor (hi * Qpower 2 n))%Z by (apply Qfloor_resp_le, Qmult_le_compat_r; [destruct Hx; subst; lra|lra]). lia.
  Qed.
  Lemma signature_gives lo hi h i : fits_query lo hi (st_res s) (st_res s) -> cx_width ctx = cx_width (st_ctx s) -> Forall (fits_call s ctx) h ->
    lo <= ri_inf i -> ri_inf i <= ri_sup i -> ri_sup i <= hi ->
    exists g, signature_after is_zero none S s ctx h i = Ok g /\ sg_eq S g (sg_prod S (within (grid_floor (ri_inf i) (st_res s)) (grid_floor (ri_sup i) (st_res s)) (st_data s))).
  Proof.
    intros Hf Hw Hh H1 H2 H3.
    destruct (layer_direct lie is_zero none Hn S ok ctx HS s i (st_res s) Hs) as (x & _ & P & R); [|right; lia|].
    { split; [exact H2|]. split; [|exact Hw]. eapply fits_sub; eauto. }
    destruct (R h Hh 31%nat (le_n _)) as (xs & c & c' & E1 & E2). unfold signature_after. rewrite E1. cbn [bind]. rewrite E2. cbn [bind]. eauto.
  Qed.
  Lemma stream_increments lo hi h : fits_query lo hi (st_res s) (st_res s) -> cx_width ctx = cx_width (st_ctx s) -> Forall (fits_call s ctx) h ->
    increments (sg_eq S) (sg_mul S) (signature_after is_zero none S s ctx h) lo hi.
  Proof.
    intros Hf Hw Hh. assert (X := signature_gives lo hi h). constructor.
    - apply (sd_refl _ _ _ _ HS). - apply (sd_sym _ _ _ _ HS). - apply (sd_trans _ _ _ _ HS). - apply (sd_mul _ _ _ _ HS). - apply (sd_assoc _ _ _ _ HS).
    - intros a b t H1 H2 H3. destruct (X (mkRI a b t) Hf Hw Hh H1 H2 H3) as (g & E & _). eauto.
    - intros i j g g' H1 H2 H3 E1 E2 G1 G2. destruct (X i Hf Hw Hh H1 H2 H3) as (u & Eu & Pu). destruct (X j Hf Hw Hh) as (u' & Eu' & Pu'); try lra.
      rewrite G1 in Eu. rewrite G2 in Eu'. injection Eu as <-. injection Eu' as <-. eapply (sd_trans _ _ _ _ HS); [exact Pu|]. apply (sd_sym _ _ _ _ HS).
      rewrite (grid_eq _ _ (st_res s) E1), (grid_eq _ _ (st_res s) E2). exact Pu'.
    - intros a m b t t' t'' g g1 g2 H1 H2 H3 H4 G G1 G2.
      destruct (X (mkRI a b t) Hf Hw Hh) as (u & Eu & Pu); cbn; try lra. destruct (X (mkRI a m t') Hf Hw Hh) as (u1 & Eu1 & Pu1); cbn; try lra. destruct (X (mkRI m b t'') Hf Hw Hh) as (u2 & Eu2 & Pu2); cbn; try lra.
      rewrite G in Eu. rewrite G1 in Eu1. rewrite G2 in Eu2. injection Eu as <-. injection Eu1 as <-. injection Eu2 as <-. cbn [ri_inf ri_sup] in *.
      eapply (sd_trans _ _ _ _ HS); [exact Pu|]. rewrite (between_app _ _ (grid_floor m (st_res s))); [|apply Hs|apply grid_mono; auto|apply grid_mono; auto].
      eapply (sd_trans _ _ _ _ HS); [apply (PwProofs.prod_app is_zero S ok ctx HS)|]. apply (sd_sym _ _ _ _ HS). apply (sd_mul _ _ _ _ HS); auto.
  Qed.
End B.
