(** Scalars: what operations do to memory, and to values. *)
From Verif Require Export SclSpec.
Open Scope Z_scope.

Section Mem.
  Context {V : Type}.
  Notation mem := (mem V).
  Notation scalar := (scalar V).
  Lemma put_len p c (m : mem) : length (put p c m) = length m.
  Proof. revert m. induction p as [|p IH]; intros [|x m]; cbn [put length]; auto. Qed.
  Lemma put_same p c : forall (m : mem), (p < length m)%nat -> nth_error (put p c m) p = Some c.
  Proof. induction p as [|p IH]; intros [|x m] H; cbn [length] in H; try lia; cbn [put nth_error]; auto. apply IH. lia. Qed.
  Lemma put_other p q c : forall (m : mem), q <> p -> nth_error (put p c m) q = nth_error m q.
  Proof. revert q. induction p as [|p IH]; intros [|q] [|x m] H; cbn [put nth_error]; auto; try congruence. Qed.
  Lemma load_ok (m : mem) t p v : load m t p = Ok v <-> nth_error m p = Some (Some (t, v)).
  Proof.
    unfold load. destruct (nth_error m p) as [[[t' v']|]|]; [destruct (sty_eq_dec t t') as [->|]|..]; split; intros H; try discriminate; injection H as; subst; auto; congruence.
  Qed.
  Lemma live_lt (m : mem) p c : nth_error m p = Some c -> (p < length m)%nat.
  Proof. intros H. apply nth_error_Some. congruence. Qed.
  Lemma live_app (m : mem) p c x : nth_error m p = Some c -> nth_error (m ++ x) p = Some c.
  Proof. intros H. rewrite nth_error_app1; auto. apply live_lt in H. auto. Qed.
  Lemma last_app (m : mem) c : nth_error (m ++ [c]) (length m) = Some c.
  Proof. rewrite nth_error_app2, Nat.sub_diag by lia. reflexivity. Qed.
  Lemma app_last (m : mem) c p x : (length m <= p)%nat -> nth_error (m ++ [c]) p = Some x -> p = length m.
  Proof. intros H E. apply live_lt in E. rewrite app_length in E. cbn [length] in E. lia. Qed.

  Lemma good_holds n (m : mem) s : good n m s -> s <> Null -> exists t v, holds m s t v.
  Proof.
    destruct s as [|o t [v|v|[p|]|[p|]|[p|]]]; cbn [good holds]; intros H N; try congruence; try contradiction; [eauto|..];
      destruct H as (_ & _ & v & E); eauto.
  Qed.
  Lemma holds_ti (m : mem) s t v : holds m s t v -> type_info s = Ok t.
  Proof. destruct s as [|o t' [w|w|[p|]|[p|]|[p|]]]; cbn [holds type_info]; intros H; try contradiction; destruct H; congruence. Qed.
  Lemma holds_value (m : mem) s t v : holds m s t v -> value m t s = Ok v.
  Proof.
    destruct s as [|o t' [w|w|[p|]|[p|]|[p|]]]; cbn [holds value]; intros H; try contradiction; destruct H as [-> H].
    1,2: subst; destruct (sty_eq_dec t t); congruence. all: apply load_ok; auto.
  Qed.
  Lemma holds_fun (m : mem) s t v t' v' : holds m s t v -> holds m s t' v' -> t = t' /\ v = v'.
  Proof.
    destruct s as [|o t1 [w|w|[p|]|[p|]|[p|]]]; cbn [holds]; intros H H'; try contradiction; destruct H as [? H], H' as [? H']; subst; try (split; congruence).
  Qed.
  Definition reads (s : scalar) (p : nat) : Prop := owned s = Some p \/ target s = Some p.
  Lemma holds_frame (m m' : mem) s t v : holds m s t v -> (forall p, reads s p -> (p < length m)%nat -> nth_error m' p = nth_error m p) -> holds m' s t v.
  Proof.
    destruct s as [|o t1 [w|w|[p|]|[p|]|[p|]]]; cbn [holds]; intros H F; try contradiction; auto; destruct H as [? H]; split; auto;
      (rewrite F; [auto|red; cbn; auto|eapply live_lt; eauto]).
  Qed.
  Definition cell_types (n : nat) (m m' : mem) : Prop := forall p t v, (p < n)%nat -> nth_error m p = Some (Some (t, v)) -> exists v', nth_error m' p = Some (Some (t, v')).

  Record effect (n : nat) (m : mem) (s : scalar) (m' : mem) (s' : scalar) : Prop := {
    ef_len : (length m <= length m')%nat;
    ef_frame : forall p, (p < length m)%nat -> owned s <> Some p -> target s <> Some p -> nth_error m' p = nth_error m p;
    ef_new : forall p c, (length m <= p)%nat -> nth_error m' p = Some (Some c) -> owned s' = Some p;
    ef_old : forall p c, owned s = Some p -> nth_error m' p = Some (Some c) -> owned s' = Some p;
    ef_own : forall p, owned s' = Some p -> owned s = Some p \/ (length m <= p)%nat;
    ef_types : cell_types n m m';
    ef_good : good n m' s' }.

  Lemma good_frame n (m m' : mem) s : good n m s -> cell_types n m m' -> (forall p, owned s = Some p -> nth_error m' p = nth_error m p) -> good n m' s.
  Proof.
    destruct s as [|o t [v|v|[p|]|[p|]|[p|]]]; cbn [good owned]; auto; intros (H1 & H2 & v & E) T F; (split; [|split]); auto.
    1,2: destruct (T _ _ _ H2 E) as [v' E']; exists v'; auto.
    exists v. rewrite F; auto.
  Qed.
  Lemma good_owned n (m : mem) s p : good n m s -> owned s = Some p -> (n <= p < length m)%nat.
  Proof.
    destruct s as [|o t [v|v|[q|]|[q|]|[q|]]]; cbn [good owned]; intros G E; try discriminate; try contradiction. injection E as ->. destruct G as (_ & ? & v & E). apply live_lt in E. lia.
  Qed.
  Lemma good_target n (m : mem) s p : good n m s -> target s = Some p -> (p < n /\ p < length m)%nat.
  Proof.
    destruct s as [|o t [v|v|[q|]|[q|]|[q|]]]; cbn [good target]; intros G E; try discriminate; try contradiction; injection E as ->; destruct G as (_ & ? & v & E); apply live_lt in E; lia.
  Qed.
  Lemma sound_len n (m : mem) env : sound_memory n m env -> (n <= length m)%nat.
  Proof.
    intros S. destruct n as [|n]; [lia|]. destruct (sm_elements _ _ _ _ S n) as (t & v & E); [lia|]. apply live_lt in E. lia.
  Qed.
  Lemma set_at_len {A} i (x : A) : forall l, length (set_at i x l) = length l.
  Proof. induction i as [|i IH]; intros [|y l]; cbn [set_at length]; auto. Qed.
  Lemma set_at_same {A} i (x d : A) : forall l, (i < length l)%nat -> nth i (set_at i x l) d = x.
  Proof. induction i as [|i IH]; intros [|y l] H; cbn [length] in H; try lia; cbn [set_at nth]; auto. apply IH. lia. Qed.
  Lemma set_at_other {A} i j (x d : A) : forall l, j <> i -> nth j (set_at i x l) d = nth j l d.
  Proof. revert j. induction i as [|i IH]; intros [|j] [|y l] H; cbn [set_at nth]; auto; try congruence. Qed.
  Lemma set_at_push {A} (x y : A) l : set_at (length l) x (l ++ [y]) = l ++ [x].
  Proof. induction l as [|z l IH]; cbn [length set_at app]; f_equal; auto. Qed.
  Lemma good_nth n (m : mem) env j : Forall (good n m) env -> good n m (nth j env Null).
  Proof. intros F. destruct (nth_in_or_default j env Null) as [H| ->]; [|exact I]. rewrite Forall_forall in F. auto. Qed.

  Lemma effect_env n (m : mem) env i m' s' : sound_memory n m env -> (i < length env)%nat -> effect n m (nth i env Null) m' s' -> sound_memory n m' (set_at i s' env).
  Proof.
    intros S Hi E. pose proof (sound_len _ _ _ S) as Hn. set (s := nth i env Null) in *.
    assert (Gi : good n m s) by (apply good_nth; apply S).
    assert (OT : forall j p, j <> i -> owned (nth j env Null) = Some p -> nth_error m' p = nth_error m p).
    { intros j p Hj Hp. pose proof (good_owned _ _ _ _ (good_nth n m env j (sm_good _ _ _ _ S)) Hp) as Hr. apply (ef_frame _ _ _ _ _ E); [lia| |].
      - intros Hs. apply Hj. symmetry. eapply (sm_unique _ _ _ _ S); eauto.
      - intros Ht. apply (good_target _ _ _ _ Gi) in Ht. lia. }
    constructor.
    - rewrite Forall_forall. intros x Hx. apply In_nth with (d := Null) in Hx as (j & Hj & <-). rewrite set_at_len in Hj.
      destruct (Nat.eq_dec j i) as [->|Ne]; [rewrite set_at_same by auto; apply E|]. rewrite set_at_other by auto.
      eapply good_frame; [apply good_nth; apply S|apply E|]. intros p Hp. eapply OT; eauto.
    - intros j k p. destruct (Nat.eq_dec j i) as [->|Nj], (Nat.eq_dec k i) as [->|Nk]; rewrite ?set_at_same, ?set_at_other by auto; auto; intros H1 H2.
      + exfalso. destruct (ef_own _ _ _ _ _ E _ H1) as [H|H].
        * apply Nk. eapply (sm_unique _ _ _ _ S); eauto.
        * apply (good_owned _ _ _ _ (good_nth n m env k (sm_good _ _ _ _ S))) in H2. lia.
      + exfalso. destruct (ef_own _ _ _ _ _ E _ H2) as [H|H].
        * apply Nj. eapply (sm_unique _ _ _ _ S); eauto.
        * apply (good_owned _ _ _ _ (good_nth n m env j (sm_good _ _ _ _ S))) in H1. lia.
      + eapply (sm_unique _ _ _ _ S); eauto.
    - intros p c Hp Hc. destruct (Nat.le_gt_cases (length m) p) as [Hl|Hl].
      + exists i. rewrite set_at_same by auto. eapply (ef_new _ _ _ _ _ E); eauto.
      + assert (D : owned s = Some p \/ owned s <> Some p) by (destruct (owned s) as [q|]; [destruct (Nat.eq_dec q p); [left|right]; congruence|right; congruence]).
        destruct D as [D|D]; [exists i; rewrite set_at_same by auto; eapply (ef_old _ _ _ _ _ E); eauto|].
        rewrite (ef_frame _ _ _ _ _ E) in Hc; auto; [|intros Ht; apply (good_target _ _ _ _ Gi) in Ht; lia].
        destruct (sm_no_leak _ _ _ _ S _ _ Hp Hc) as (j & Hj). exists j. rewrite set_at_other; auto. intros ->. auto.
    - intros p Hp. destruct (sm_elements _ _ _ _ S p Hp) as (t & v & Ev). destruct (ef_types _ _ _ _ _ E _ _ _ Hp Ev) as (v' & Ev'). exists t, v'. auto.
  Qed.
  Lemma null_nth (env : list scalar) i : nth i (env ++ [Null]) Null = nth i env Null.
  Proof.
    destruct (Nat.lt_ge_cases i (length env)); [rewrite app_nth1; auto|]. rewrite (nth_overflow env) by auto.
    destruct (Nat.eq_dec i (length env)) as [->|]; [rewrite app_nth2, Nat.sub_diag by lia; auto|rewrite nth_overflow; auto; rewrite app_length; cbn; lia].
  Qed.
  Lemma push_env n (m : mem) env m' s' : sound_memory n m env -> effect n m Null m' s' -> sound_memory n m' (env ++ [s']).
  Proof.
    intros S E. rewrite <- (set_at_push s' Null env). apply effect_env with (m := m).
    - constructor.
      + apply Forall_app. split; [apply S|repeat constructor].
      + intros i j p. rewrite !null_nth. apply S.
      + intros p c H1 H2. destruct (sm_no_leak _ _ _ _ S p c H1 H2) as (j & Hj). exists j. rewrite null_nth. auto.
      + apply S.
    - rewrite app_length. cbn. lia.
    - rewrite null_nth, nth_overflow by auto. auto.
  Qed.
  Lemma effect_refl n (m : mem) s : good n m s -> effect n m s m s.
  Proof.
    intros G. constructor; auto.
    - intros p c H E. apply live_lt in E. lia.
    - intros p t v _ E. eauto.
  Qed.
  Lemma cell_types_trans n (a b c : mem) : cell_types n a b -> cell_types n b c -> cell_types n a c.
  Proof. intros H1 H2 p t v Hp E. destruct (H1 _ _ _ Hp E) as (v' & E'). eauto. Qed.
  Lemma effect_trans n (m : mem) s m1 s1 m2 s2 : (n <= length m)%nat -> good n m s -> effect n m s m1 s1 -> target s1 = target s \/ target s1 = None -> effect n m1 s1 m2 s2 -> effect n m s m2 s2.
  Proof.
    intros Hn G E1 T E2. pose proof (ef_len _ _ _ _ _ E1) as L1. pose proof (ef_len _ _ _ _ _ E2) as L2.
    assert (D : forall p, owned s1 = Some p \/ owned s1 <> Some p) by (intros p; destruct (owned s1) as [q|]; [destruct (Nat.eq_dec q p); [left|right]; congruence|right; congruence]).
    assert (T1 : forall p, target s1 = Some p -> (p < n)%nat) by (intros p Hp; destruct T as [T|T]; [rewrite T in Hp; apply (good_target _ _ _ _ G) in Hp; lia|congruence]).
    constructor.
    - lia.
    - intros p Hp Ho Ht. rewrite (ef_frame _ _ _ _ _ E2); [apply (ef_frame _ _ _ _ _ E1); auto|lia| |].
      + intros H. destruct (ef_own _ _ _ _ _ E1 _ H); [auto|lia].
      + destruct T as [T|T]; rewrite T; auto. congruence.
    - intros p c Hp Hc. destruct (Nat.le_gt_cases (length m1) p) as [Hl|Hl]; [eapply (ef_new _ _ _ _ _ E2); eauto|].
      destruct (D p) as [H|H]; [eapply (ef_old _ _ _ _ _ E2); eauto|]. exfalso. apply H.
      rewrite (ef_frame _ _ _ _ _ E2) in Hc; auto; [|intros Ht; apply T1 in Ht; lia]. eapply (ef_new _ _ _ _ _ E1); eauto.
    - intros p c Ho Hc. pose proof (good_owned _ _ _ _ G Ho) as Hr. destruct (D p) as [H|H]; [eapply (ef_old _ _ _ _ _ E2); eauto|]. exfalso. apply H.
      rewrite (ef_frame _ _ _ _ _ E2) in Hc; auto; [|lia|intros Ht; apply T1 in Ht; lia]. eapply (ef_old _ _ _ _ _ E1); eauto.
    - intros p H. destruct (ef_own _ _ _ _ _ E2 _ H) as [H'|H']; [apply (ef_own _ _ _ _ _ E1); auto|right; lia].
    - eapply cell_types_trans; [apply E1|apply E2].
    - apply E2.
  Qed.

  (** Writing. *)
  Lemma write_ok n (m : mem) s t v w : (n <= length m)%nat -> good n m s -> holds m s t v -> ~ constant s ->
    exists m' s', write m t s w = Ok (m', s') /\ effect n m s m' s' /\ holds m' s' t w /\ owned s' = owned s /\ target s' = target s /\ ~ constant s' /\ length m' = length m.
  Proof.
    intros Hn G H C. destruct s as [|o t' [x|x|[p|]|[p|]|[p|]]]; cbn [good holds constant write] in *; try contradiction.
    - destruct H as [-> ->]. destruct (sty_eq_dec t t); [|congruence]. exists m, (Scl o t (CTrivial w)). split; [reflexivity|]. split; [|cbn; tauto].
      destruct (effect_refl n m (Scl o t (CTrivial v)) G) as [A1 A2 A3 A4 A5 A6 A7]. constructor; auto.
    - destruct H as [-> H]. destruct G as (G1 & G2 & G3). unfold store. rewrite (proj2 (load_ok m t p v)) by auto. cbn [bind]. eexists; eexists. split; [reflexivity|].
      pose proof (live_lt _ _ _ H) as L. assert (S1 : nth_error (put p (Some (t, w)) m) p = Some (Some (t, w))) by (apply put_same; auto).
      split; [|cbn; rewrite put_len; tauto]. constructor; cbn [owned target].
      + rewrite put_len. lia.
      + intros q _ _ Hq. apply put_other. congruence.
      + intros q c Hq Hc. apply live_lt in Hc. rewrite put_len in Hc. lia.
      + discriminate.
      + discriminate.
      + intros q u x Hq E. destruct (Nat.eq_dec q p) as [->|Ne]; [rewrite S1; replace u with t by congruence; eauto|rewrite put_other by auto; eauto].
      + cbn [good]. repeat split; auto. exists w. auto.
    - destruct H as [-> H]. destruct G as (G1 & G2 & G3). unfold store. rewrite (proj2 (load_ok m t p v)) by auto. cbn [bind]. eexists; eexists. split; [reflexivity|].
      pose proof (live_lt _ _ _ H) as L. assert (S1 : nth_error (put p (Some (t, w)) m) p = Some (Some (t, w))) by (apply put_same; auto).
      split; [|cbn; rewrite put_len; tauto]. constructor; cbn [owned target].
      + rewrite put_len. lia.
      + intros q _ Hq _. apply put_other. congruence.
      + intros q c Hq Hc. apply live_lt in Hc. rewrite put_len in Hc. lia.
      + auto.
      + auto.
      + intros q u x Hq E. rewrite put_other by lia. eauto.
      + cbn [good]. repeat split; auto. exists w. auto.
  Qed.
  Lemma new_cell n (m : mem) t v : (n <= length m)%nat -> let s' := Scl true t (COwned (Some (length m))) in
    effect n m Null (m ++ [Some (t, v)]) s' /\ holds (m ++ [Some (t, v)]) s' t v /\ target s' = None /\ ~ constant s'.
  Proof.
    intros Hn. cbn. split; [|rewrite last_app; tauto]. constructor; cbn [owned target good].
    - rewrite app_length. lia.
    - intros p Hp _ _. apply nth_error_app1. auto.
    - intros p c Hp Hc. apply app_last in Hc; subst; auto.
    - discriminate.
    - intros p H. injection H as <-. auto.
    - intros p u x Hp E. exists x. apply live_app. auto.
    - repeat split; auto. exists v. apply last_app.
  Qed.
  Lemma inline_new n (m : mem) o t v : inline t = true -> let s' := Scl o t (CTrivial v) in effect n m Null m s' /\ holds m s' t v /\ target s' = None /\ ~ constant s'.
  Proof.
    intros Hi. cbn. split; [|tauto]. destruct (effect_refl n m Null I) as [A1 A2 A3 A4 A5 A6 A7]. constructor; auto.
  Qed.
  Lemma make_ok n (m : mem) t v : (n <= length m)%nat ->
    exists m' s', make m t v = Ok (m', s') /\ effect n m Null m' s' /\ holds m' s' t v /\ target s' = None /\ ~ constant s'.
  Proof.
    intros Hn. unfold make, allocate. destruct (inline t) eqn:Hi; eexists; eexists; (split; [reflexivity|]); [apply inline_new; auto|apply new_cell; auto].
  Qed.
  Lemma destroy_ok n (m : mem) s : (n <= length m)%nat -> good n m s -> exists m', destroy m s = Ok m' /\ effect n m s m' Null /\ length m' = length m.
  Proof.
    intros Hn G. destruct s as [|o t [x|x|[p|]|[p|]|[p|]]]; cbn [good destroy] in *; try contradiction;
      try (exists m; split; [reflexivity|]; split; [|reflexivity]; destruct (effect_refl n m Null I) as [A1 A2 A3 A4 A5 A6 A7]; constructor; auto; discriminate).
    destruct G as (-> & G2 & v & E). rewrite (proj2 (load_ok m t p v)) by auto. cbn [bind]. exists (put p None m). split; [reflexivity|]. split; [|apply put_len].
    pose proof (live_lt _ _ _ E) as L. constructor; cbn [owned target].
    - rewrite put_len. lia.
    - intros q _ Hq _. apply put_other. congruence.
    - intros q c Hq Hc. apply live_lt in Hc. rewrite put_len in Hc. lia.
    - intros q c Hq. injection Hq as <-. rewrite put_same by auto. discriminate.
    - discriminate.
    - intros q u x Hq Eq. rewrite put_other by lia. eauto.
    - exact I.
  Qed.
  (** A new scalar takes the place of an old one. *)
  Lemma replace_ok n (m m1 : mem) s r t v : (n <= length m)%nat -> good n m s -> effect n m Null m1 r -> holds m1 r t v -> target r = None ->
    exists m', destroy m1 s = Ok m' /\ effect n m s m' r /\ holds m' r t v /\ (forall p, (p < length m)%nat -> owned s <> Some p -> nth_error m' p = nth_error m p).
  Proof.
    intros Hn G E H T. pose proof (ef_len _ _ _ _ _ E) as L.
    assert (F : forall p, (p < length m)%nat -> nth_error m1 p = nth_error m p) by (intros p Hp; apply (ef_frame _ _ _ _ _ E); auto; discriminate).
    assert (G1 : good n m1 s) by (eapply good_frame; [exact G|apply E|intros p Hp; apply F; eapply good_owned; eauto]).
    destruct (destroy_ok n m1 s ltac:(lia) G1) as (m' & Ed & D & Ld). exists m'. split; [exact Ed|].
    assert (R : forall p, owned r = Some p -> (length m <= p)%nat) by (intros p Hp; destruct (ef_own _ _ _ _ _ E _ Hp); [discriminate|auto]).
    assert (K : forall p, owned s = Some p -> (p < length m)%nat) by (intros p Hp; eapply good_owned; eauto).
    assert (Fr : forall p, owned r = Some p -> nth_error m' p = nth_error m1 p).
    { intros p Hp. apply (ef_frame _ _ _ _ _ D); [eapply good_owned; [apply E|auto]| |].
      - intros Hs. apply K in Hs. apply R in Hp. lia.
      - intros Ht. apply (good_target _ _ _ _ G) in Ht. apply R in Hp. lia. }
    assert (Fm : forall p, (p < length m)%nat -> owned s <> Some p -> nth_error m' p = nth_error m p).
    { intros p Hp Ho. rewrite <- F by auto. destruct s as [|o u [x|x|[q|]|[q|]|[q|]]]; cbn [destroy] in Ed; try (injection Ed as <-; reflexivity). cbn [good] in G1. destruct G1 as (-> & _ & y & Ey).
      rewrite (proj2 (load_ok m1 u q y)) in Ed by auto. cbn [bind] in Ed. injection Ed as <-. apply put_other. cbn [owned] in Ho. congruence. }
    split; [|split; [eapply holds_frame; [exact H|]; intros p [Hp|Hp] _; [auto|congruence]|exact Fm]].
    constructor.
    - lia.
    - intros p Hp Ho _. apply Fm; auto.
    - intros p c Hp Hc. destruct (Nat.le_gt_cases (length m1) p) as [Hl|Hl]; [apply live_lt in Hc; lia|].
      rewrite (ef_frame _ _ _ _ _ D) in Hc; [eapply (ef_new _ _ _ _ _ E); eauto|auto| |]; [intros Hs; apply K in Hs; lia|intros Ht; apply (good_target _ _ _ _ G) in Ht; lia].
    - intros p c Hp Hc. pose proof (ef_old _ _ _ _ _ D p c Hp Hc). discriminate.
    - intros p Hp. right. apply R. auto.
    - eapply cell_types_trans; [apply E|apply D].
    - eapply good_frame; [apply E|apply D|auto].
  Qed.
End Mem.
