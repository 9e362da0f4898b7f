(** Proofs about dynamically constructed streams: the map of nodes. *)
From Coq Require Import ZifyBool Lqa.
From Verif Require Export DynModel TickProofs.
From Verif Require Import DyadicLemmas DyadicProofs DyadicProofs2.
Open Scope Z_scope.

Section Map.
  Variable lie : Type.
  Variable res : Z.
  Hypothesis Hres : - 2 ^ 27 <= res <= 2 ^ 27.
  Notation nd := (nd res).
  Notation kfit := (kfit res).
  Notation mfit := (mfit (dnode lie) res).
  Notation tree := (tree lie).
  Notation look := (look (dnode lie)).
  Implicit Types t : tree.

  Definition ord (a b : dint) : Prop := di_lt a b = Ok true.
  Definition keys t : list dint := map fst t.
  Definition sorted t : Prop := StronglySorted ord (keys t).

  Lemma kfit_t a : kfit a -> di_t a = Clopen.
  Proof. intros (k & m & -> & _). reflexivity. Qed.
  Lemma ord_dec a b : kfit a -> kfit b -> di_lt a b = Ok true \/ di_lt a b = Ok false.
  Proof. intros Ha Hb. destruct (di_lt_total res a b Ha Hb) as ([] & E); auto. Qed.
  Lemma ord_irrefl a : ~ ord a a.
  Proof. intros H. destruct (key_order a a a eq_refl eq_refl) as (K & _). auto. Qed.
  Lemma ord_trans a b c : kfit a -> kfit b -> kfit c -> ord a b -> ord b c -> ord a c.
  Proof.
    intros Ha Hb Hc H1 H2. destruct (key_order a b c) as (_ & K & _); [rewrite !kfit_t; auto..|]. destruct (di_lt_total res a c Ha Hc) as (x & E). unfold ord. rewrite E. f_equal. eapply K; eauto.
  Qed.
  Lemma ord_anti a b : kfit a -> kfit b -> ord a b -> di_lt b a = Ok false.
  Proof. intros Ha Hb H. destruct (ord_dec b a Hb Ha) as [E|E]; auto. exfalso. apply (ord_irrefl a). eapply ord_trans; eauto. Qed.
  Lemma ord_eq a b : kfit a -> kfit b -> di_lt a b = Ok false -> di_lt b a = Ok false -> a = b.
  Proof. intros Ha Hb H1 H2. destruct (key_order a b a) as (_ & _ & K); [rewrite !kfit_t; auto..|]. auto. Qed.
  Lemma ord_neq a b : ord a b -> a <> b.
  Proof. intros H ->. apply (ord_irrefl b H). Qed.

  Lemma key_eqb_fit a b : kfit a -> kfit b -> key_eqb a b = di_eqb a b.
  Proof. intros Ha Hb. unfold key_eqb, di_eqb. rewrite !kfit_t by auto. cbn. rewrite andb_true_r. reflexivity. Qed.
  Lemma eqb_refl a : kfit a -> di_eqb a a = true.
  Proof. intros H. apply (di_eqb_iff res); auto. Qed.
  Lemma eqb_neq a b : kfit a -> kfit b -> a <> b -> di_eqb a b = false.
  Proof. intros Ha Hb N. destruct (di_eqb a b) eqn:E; auto. apply (di_eqb_iff res) in E; auto. congruence. Qed.

  Lemma at_look t i : mfit t -> kfit i -> dn_at t i = match look t i with Some v => Ok v | None => UB end.
  Proof.
    intros Ht Hi. induction Ht as [|[j v] t Hj Ht IH]; auto. cbn [dn_at TickProofs.look]. cbn [fst] in Hj. rewrite key_eqb_fit by auto. destruct (di_eqb j i); auto.
  Qed.
  Lemma look_key t i v : mfit t -> kfit i -> look t i = Some v -> In i (keys t).
  Proof.
    intros Ht Hi. induction Ht as [|[j w] t Hj Ht IH]; [discriminate|]. cbn [TickProofs.look keys map fst]. cbn [fst] in Hj. destruct (di_eqb j i) eqn:E; intros H.
    - left. apply (di_eqb_iff res) in E; auto.
    - right. apply IH; auto.
  Qed.
  Lemma key_look t i : mfit t -> In i (keys t) -> exists v, look t i = Some v.
  Proof.
    intros Ht. induction Ht as [|[j w] t Hj Ht IH]; [intros []|]. cbn [keys map fst]. cbn [fst] in Hj. intros Hi. cbn [TickProofs.look]. destruct (di_eqb j i) eqn:E; eauto. destruct Hi as [-> | Hi]; [rewrite eqb_refl in E by auto; discriminate|]. apply IH. exact Hi.
  Qed.
  Lemma key_fit t i : mfit t -> In i (keys t) -> kfit i.
  Proof. intros Ht Hi. apply in_map_iff in Hi. destruct Hi as (e & <- & He). unfold TickProofs.mfit in Ht. rewrite Forall_forall in Ht. apply Ht. auto. Qed.

  Lemma set_look t i w v : mfit t -> kfit i -> look t i = Some w ->
    exists t', dn_set t i v = Ok t' /\ mfit t' /\ keys t' = keys t /\ look t' i = Some v /\ forall j, kfit j -> j <> i -> look t' j = look t j.
  Proof.
    intros Ht Hi. induction Ht as [|[j u] t Hj Ht IH]; [discriminate|]. cbn [TickProofs.look dn_set]. cbn [fst] in Hj. rewrite key_eqb_fit by auto. destruct (di_eqb j i) eqn:E; intros H.
    - apply (di_eqb_iff res) in E; auto. subst j. exists ((i, v) :: t). split; auto. split; [constructor; auto|]. split; auto. cbn [TickProofs.look]. rewrite eqb_refl by auto. split; auto. intros j Hj' N. rewrite eqb_neq by auto. reflexivity.
    - destruct (IH H) as (t' & E1 & F & K & L1 & L2). rewrite E1. cbn [bind]. exists ((j, u) :: t'). split; auto. split; [constructor; auto|]. split; [cbn; f_equal; exact K|]. cbn [TickProofs.look]. rewrite E. split; auto.
      intros j' Hj' N. rewrite L2 by auto. reflexivity.
  Qed.

  Lemma insert_look t i v : mfit t -> sorted t -> kfit i -> look t i = None ->
    exists t', dn_insert t i v = Ok t' /\ mfit t' /\ sorted t' /\ look t' i = Some v /\ (forall j, kfit j -> j <> i -> look t' j = look t j) /\
      (forall j, In j (keys t') <-> j = i \/ In j (keys t)) /\
      (forall r, dn_begin t = Some r -> ord r i -> dn_begin t' = Some r) /\ (forall r, dn_begin t = Some r -> ord i r -> dn_begin t' = Some i).
  Proof.
    intros Ht Hs Hi. unfold sorted in Hs. induction Ht as [|[j u] t Hj Ht IH]; cbn [dn_insert].
    - intros _. exists [(i, v)]. split; auto. split; [repeat constructor; auto|]. split; [repeat constructor|]. cbn [TickProofs.look]. rewrite eqb_refl by auto. split; auto. split; [intros j Hj N; rewrite eqb_neq by auto; reflexivity|].
      split; [cbn; intuition congruence|]. cbn [dn_begin]. split; intros; discriminate.
    - cbn [TickProofs.look]. cbn [fst] in Hj. intros HL. inversion Hs as [|? ? Hs1 Hs2]; subst. fold (keys t) in *. destruct (di_eqb j i) eqn:E; [discriminate|]. destruct (ord_dec i j Hi Hj) as [L|L]; rewrite L; cbn [bind].
      + exists ((i, v) :: (j, u) :: t). split; auto. split; [constructor; [auto|constructor; auto]|]. split.
        { unfold sorted. cbn [keys map fst]. constructor; [constructor; auto|]. constructor; [exact L|]. rewrite Forall_forall in Hs2 |- *. intros x Hx. apply (ord_trans i j x); auto. apply (key_fit t); [exact Ht|exact Hx]. }
        cbn [TickProofs.look]. rewrite eqb_refl by auto. split; auto. split; [intros j' Hj' N; rewrite (eqb_neq i) by auto; reflexivity|]. split; [cbn; intuition congruence|]. cbn [dn_begin]. split; auto. intros r [= <-] H. exfalso. apply (ord_irrefl i). apply (ord_trans i j i); auto.
      + destruct (ord_dec j i Hj Hi) as [G|G]; rewrite G; cbn [bind]; [|assert (j = i) by (apply ord_eq; auto); subst j; rewrite eqb_refl in E by auto; discriminate].
        destruct (IH Hs1 HL) as (t' & E1 & F & Srt & L1 & L2 & K & _ & _). rewrite E1. cbn [bind]. exists ((j, u) :: t'). split; auto. split; [constructor; auto|]. split.
        { unfold sorted. cbn [keys map fst]. constructor; auto. rewrite Forall_forall in Hs2 |- *. intros x Hx. apply K in Hx. destruct Hx as [-> | Hx]; auto. }
        cbn [TickProofs.look]. rewrite E. split; auto. split; [intros j' Hj' N; rewrite L2 by auto; reflexivity|]. split; [cbn; intros x; unfold keys in *; rewrite K; intuition congruence|]. cbn [dn_begin]. split; [auto|]. intros r [= <-] H. exfalso. apply (ord_irrefl i). apply (ord_trans i j i); auto.
  Qed.

  Lemma next_look t i : mfit t -> sorted t -> kfit i -> In i (keys t) ->
    exists o, dn_next t i = Ok o /\ (forall j, o = Some j -> In j (keys t) /\ ord i j) /\ forall x, In x (keys t) -> ord i x -> exists j, o = Some j /\ (j = x \/ ord j x).
  Proof.
    intros Ht Hs Hi. unfold sorted in Hs. induction Ht as [|[j u] t Hj Ht IH]; [intros []|]. cbn [keys map fst dn_next]. cbn [fst] in Hj. rewrite key_eqb_fit by auto. inversion Hs as [|? ? Hs1 Hs2]; subst. fold (keys t) in *. rewrite Forall_forall in Hs2.
    intros H. destruct (di_eqb j i) eqn:E.
    - apply (di_eqb_iff res) in E; auto. subst j. exists (dn_begin t). split; auto. split.
      + intros j Ej. assert (In j (keys t)) as Hin by (destruct t as [|[x w] t]; [discriminate|]; injection Ej as ->; left; auto). split; [right; auto|apply Hs2; auto].
      + intros x [<- | Hx] O; [exfalso; apply (ord_irrefl _ O)|]. destruct t as [|[y w] t]; [destruct Hx|]. cbn [dn_begin]. exists y. split; auto. destruct Hx as [<- | Hx]; auto. right. inversion Hs1 as [|? ? A1 A2]; subst. rewrite Forall_forall in A2. apply A2. exact Hx.
    - destruct H as [-> | H]; [rewrite eqb_refl in E by auto; discriminate|]. destruct (IH Hs1 H) as (o & E1 & H1 & H2). exists o. split; auto. split; [intros y Hy; destruct (H1 y Hy); split; auto; right; auto|].
      intros x [<- | Hx] O; [|apply H2; auto]. exfalso. apply (ord_irrefl i). apply (ord_trans i j i); auto.
  Qed.
  Lemma next_is t i j : mfit t -> sorted t -> In i (keys t) -> In j (keys t) -> ord i j -> (forall x, In x (keys t) -> ord i x -> ord x j -> False) -> dn_next t i = Ok (Some j).
  Proof.
    intros Ht Hs Hi Hj O Hn. destruct (next_look t i Ht Hs (key_fit t i Ht Hi) Hi) as (o & -> & H1 & H2). destruct (H2 j Hj O) as (x & -> & [-> | H]); auto. exfalso. destruct (H1 x eq_refl). apply (Hn x); auto.
  Qed.

  (** *** Nodes *)
  Definition flip (k : Z) : Z := 4 * (k / 2) + 1 - k.
  Definition under (k m k' m' : Z) : Prop := m <= m' /\ k / 2 ^ (m' - m) = k'.
  Definition start (k m : Z) : Z := k * 2 ^ m.
  Lemma ord_nd k m k' m' : nfit k m -> nfit k' m' -> (ord (nd k m) (nd k' m') <-> k * 2 ^ m < k' * 2 ^ m' \/ (k * 2 ^ m = k' * 2 ^ m' /\ m' < m)).
  Proof.
    intros F G. assert (A := nfit_k _ _ F). assert (B := nfit_k _ _ G). destruct F as (F1 & F2 & F3), G as (G1 & G2 & G3).
    unfold ord, di_lt, TickProofs.nd. cbn [di_t di_n di_k itype_eqb negb]. unfold unit. cbn [di_t unit_t].
    assert (Pm := pow2_pos m ltac:(lia)). assert (Pm' := pow2_pos m' ltac:(lia)).
    destruct (res - m =? res - m') eqn:E; [|destruct (res - m >? res - m') eqn:E2].
    - assert (m' = m) as -> by lia. rewrite !i32_ok by (unfold INT_MIN, INT_MAX; rewrite ?i32_ok; lia). cbn [bind]. rewrite i32_ok by (unfold INT_MIN, INT_MAX; lia). cbn [bind]. split; [intros [= X]; left; nia|]. intros [H|H]; [|lia]. f_equal. nia.
    - rewrite (i32_ok (res - m - (res - m'))) by (unfold INT_MIN, INT_MAX; lia). cbn [bind]. replace (res - m - (res - m')) with (m' - m) by lia.
      assert (X : 2 ^ m' = 2 ^ (m' - m) * 2 ^ m) by (rewrite <- Z.pow_add_r by lia; f_equal; lia). assert (P := pow2_pos (m' - m) ltac:(lia)).
      assert (Hs : - 2 ^ 28 <= k' * 2 ^ (m' - m) <= 2 ^ 28) by (destruct (Z_le_gt_dec 0 k'); nia).
      rewrite shift_ok by (unfold INT_MIN, INT_MAX; lia). cbn [bind]. rewrite !i32_ok by (unfold INT_MIN, INT_MAX; lia). cbn [bind]. rewrite i32_ok by (unfold INT_MIN, INT_MAX; lia). cbn [bind]. rewrite X.
      split; [intros [= Y]; left; nia|]. intros [H|H]; [|lia]. f_equal. nia.
    - rewrite (i32_ok (res - m' - (res - m))) by (unfold INT_MIN, INT_MAX; lia). cbn [bind]. replace (res - m' - (res - m)) with (m - m') by lia.
      assert (X : 2 ^ m = 2 ^ (m - m') * 2 ^ m') by (rewrite <- Z.pow_add_r by lia; f_equal; lia). assert (P := pow2_pos (m - m') ltac:(lia)).
      assert (Hs : - 2 ^ 28 <= k * 2 ^ (m - m') <= 2 ^ 28) by (destruct (Z_le_gt_dec 0 k); nia).
      rewrite shift_ok by (unfold INT_MIN, INT_MAX; lia). cbn [bind]. rewrite !i32_ok by (unfold INT_MIN, INT_MAX; lia). cbn [bind]. rewrite i32_ok by (unfold INT_MIN, INT_MAX; lia). cbn [bind]. rewrite X.
      split; [intros [= Y]; assert (k * 2 ^ (m - m') <= k') by lia; destruct (Z.eq_dec (k * 2 ^ (m - m')) k'); [right|left]; nia|]. intros H. f_equal. assert (k * 2 ^ (m - m') <= k') by nia. lia.
  Qed.
  Lemma contains_nd k m k' m' : nfit k m -> nfit k' m' -> contains_dyadic (nd k' m') (nd k m) = Ok ((m <=? m') && (k / 2 ^ (m' - m) =? k')).
  Proof.
    intros F G. assert (A := nfit_k _ _ F). assert (B := nfit_k _ _ G). destruct F as (F1 & F2 & F3), G as (G1 & G2 & G3).
    destruct (m <=? m') eqn:E; cbn [andb].
    - assert (P := pow2_pos (m' - m) ltac:(lia)). assert (Pm := pow2_pos m ltac:(lia)). assert (X : 2 ^ m' = 2 ^ (m' - m) * 2 ^ m) by (rewrite <- Z.pow_add_r by lia; f_equal; lia).
      rewrite contains_dyadic_eval; cbn [di_t di_n di_k TickProofs.nd]; replace (res - m - (res - m')) with (m' - m) by lia; auto; [|lia|unfold small; lia|].
      + unfold unit. cbn [di_t unit_t]. rewrite !Z.mul_1_l. f_equal. lia.
      + unfold INT_MIN, INT_MAX. destruct (Z_le_gt_dec 0 k'); nia.
    - unfold contains_dyadic, TickProofs.nd. cbn [di_t di_n itype_eqb negb]. replace (res - m >=? res - m') with false by lia. reflexivity.
  Qed.
End Map.
