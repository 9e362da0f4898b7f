(** Proofs about ticks given from Python: order and times. *)
From Coq Require Import ZArith QArith List Bool Ascii String Sorted Permutation Lia Lqa.
Import ListNotations.
From Verif Require Import Outcome Alg SchemaModel SchemaProofs PsModel PtModel PtSpec.
Open Scope nat_scope.
Open Scope list_scope.

Section Order.
  Variable data : Type.
  Variable to_label : data -> outcome string.
  Notation tick := (tick data).
  Notation before := (before_tick data).
  Notation T := (tk_time data).
  Notation P := (tk_prec data).

  Lemma before_spec a b : before a b = true <-> (T a < T b)%Q \/ ((T a == T b)%Q /\ P a < P b).
  Proof.
    unfold before_tick. rewrite orb_true_iff, !andb_true_iff, negb_true_iff, Qle_bool_iff, Qeq_bool_iff, Nat.ltb_lt. split.
    - intros [[H1 H2]|H]; auto. left. apply Qeq_bool_neq in H2. destruct (Q_dec (T a) (T b)) as [[H|H]|H]; auto; [lra|contradiction].
    - intros [H|H]; auto. left. split; [lra|]. destruct (Qeq_bool (T a) (T b)) eqn:E; auto. apply Qeq_bool_iff in E. lra.
  Qed.
  (** earlier ticks of one time have smaller numbers *)
  Definition numbered (l : list tick) : Prop := ForallOrdPairs (fun a b => (T a == T b)%Q -> P a < P b) l.
  Definition sorted (l : list tick) : Prop := StronglySorted (fun a b => before a b = true) l.
  Lemma put_split t : forall l, exists a b, l = a ++ b /\ put_tick data t l = a ++ t :: b /\ Forall (fun u => before u t = true) a /\ (match b with [] => True | u :: _ => before u t = false end).
  Proof.
    induction l as [|u l (a & b & -> & E & Ha & Hb)]; cbn [put_tick]; [exists [], []; repeat split; auto|]. destruct (before u t) eqn:B.
    - exists (u :: a), b. rewrite E. repeat split; auto.
    - exists [], (u :: a ++ b). repeat split; auto.
  Qed.
  Lemma put_perm t l : Permutation (put_tick data t l) (t :: l).
  Proof. destruct (put_split t l) as (a & b & -> & -> & _). symmetry. apply Permutation_middle. Qed.
  Lemma sort_perm l : Permutation (sort_ticks data l) l.
  Proof. unfold sort_ticks. induction l as [|t l IH]; cbn [fold_right]; auto. rewrite put_perm. now constructor. Qed.
  Lemma put_sorted t l : sorted l -> Forall (fun u => (T u == T t)%Q -> P t < P u) l -> sorted (put_tick data t l).
  Proof.
    unfold sorted. induction l as [|u l IH]; intros Hs Hp; cbn [put_tick]; [repeat constructor|]. inversion Hs as [|x y Hs' Hu]; subst. inversion Hp as [|x y Hp1 Hp2]; subst.
    destruct (before u t) eqn:B.
    - constructor; auto. apply Forall_forall. intros v Hv. apply (Permutation_in v (put_perm t l)) in Hv as [<-|Hv]; auto. rewrite Forall_forall in Hu. auto.
    - assert (Q : before t u = true).
      { apply before_spec. destruct (Q_dec (T t) (T u)) as [[H|H]|H]; [now left| |right; split; [exact H|apply Hp1; lra]].
        assert (before u t = true) by (apply before_spec; now left). congruence. }
      constructor; [constructor; auto|]. constructor; auto. rewrite Forall_forall in *. intros v Hv. specialize (Hu v Hv). apply before_spec in Q. apply before_spec in Hu. apply before_spec.
      destruct Q as [Q|[Q Q']], Hu as [Hu|[Hu Hu']]; [left; lra|left; lra|left; lra|right; split; [lra|lia]].
  Qed.
  Lemma sort_sorted l : numbered l -> sorted (sort_ticks data l).
  Proof.
    unfold sort_ticks. induction 1 as [|t l Ht _ IH]; cbn [fold_right]; [constructor|]. apply put_sorted; auto.
    apply Forall_forall. intros u Hu. apply (Permutation_in u (sort_perm l)) in Hu. rewrite Forall_forall in Ht. intros E. apply Ht; auto. lra.
  Qed.
  Lemma sort_stable q l : numbered l -> filter (fun t => Qeq_bool (T t) q) (sort_ticks data l) = filter (fun t => Qeq_bool (T t) q) l.
  Proof.
    unfold sort_ticks. induction 1 as [|t l Ht Hl IH]; cbn [fold_right]; auto. fold (sort_ticks data l) in *.
    destruct (put_split t (sort_ticks data l)) as (a & b & E1 & E2 & Ha & _). rewrite E2. rewrite E1 in IH. rewrite filter_app in *. cbn [filter].
    rewrite <- IH. destruct (Qeq_bool (T t) q) eqn:Q; auto.
    assert (N : filter (fun t => Qeq_bool (T t) q) a = []); [|now rewrite N].
    assert (Hin : forall u, In u a -> In u l) by (intros u Hu; apply (Permutation_in u (sort_perm l)); rewrite E1; apply in_app_iff; now left).
    clear - Ha Q Ht Hin. induction a as [|u a IHa]; cbn [filter]; auto. inversion Ha as [|x y Hu Ha']; subst.
    destruct (Qeq_bool (T u) q) eqn:E; [|apply IHa; auto; intros; apply Hin; now right].
    exfalso. apply Qeq_bool_iff in E, Q. rewrite Forall_forall in Ht. specialize (Ht u (Hin u (or_introl eq_refl))). apply before_spec in Hu. destruct Hu as [Hu|[Hu Hp]]; [lra|].
    assert (P t < P u) by (apply Ht; lra). lia.
  Qed.
  Lemma sort_in_order l : numbered l -> in_order data l (sort_ticks data l).
  Proof.
    intros H. split; [apply sort_perm|]. split; [|intros q; now apply sort_stable]. pose proof (sort_sorted l H) as S. unfold sorted in S.
    induction S as [|t r _ IH Ht]; constructor; auto. eapply Forall_impl; [|exact Ht]. intros u Hu. apply before_spec in Hu. destruct Hu as [Hu|[Hu _]]; lra.
  Qed.
  (** any sort with this comparison gives the same list *)
  Lemma sorted_unique : forall l m, Permutation l m -> sorted l -> sorted m -> l = m.
  Proof.
    assert (Irr : forall a b, before a b = true -> before b a = true -> False).
    { intros a b H1 H2. apply before_spec in H1, H2. destruct H1 as [H1|[H1 H1']], H2 as [H2|[H2 H2']]; try lra. lia. }
    unfold sorted. induction l as [|a l IH]; intros m Hp Hl Hm; [apply Permutation_nil in Hp; now subst|].
    destruct m as [|b m]; [apply Permutation_sym, Permutation_nil in Hp; discriminate|]. inversion Hl as [|x y Hl' Ha]; subst. inversion Hm as [|x y Hm' Hb]; subst.
    rewrite Forall_forall in Ha, Hb. assert (a = b).
    { assert (Ia : In a (b :: m)) by (apply (Permutation_in a Hp); now left). assert (Ib : In b (a :: l)) by (apply (Permutation_in b (Permutation_sym Hp)); now left).
      destruct Ia as [Ia|Ia]; [auto|]. destruct Ib as [Ib|Ib]; [auto|]. exfalso. eapply Irr; eauto. }
    subst b. f_equal. apply IH; auto. now apply Permutation_cons_inv in Hp.
  Qed.

  (** ** The helper *)
  Fixpoint count (m : list (Q * nat)) (t : Q) : nat := match m with [] => 0 | (u, n) :: m => if Qeq_bool u t then n else count m t end.
  Lemma qeqb_sym a b : Qeq_bool a b = Qeq_bool b a.
  Proof. destruct (Qeq_bool a b) eqn:E, (Qeq_bool b a) eqn:F; auto. - apply Qeq_bool_iff in E. symmetry in E. apply Qeq_bool_iff in E. congruence. - apply Qeq_bool_iff in F. symmetry in F. apply Qeq_bool_iff in F. congruence. Qed.
  Lemma qeqb_trans a b c : (a == b)%Q -> Qeq_bool a c = Qeq_bool b c.
  Proof. intros H. destruct (Qeq_bool a c) eqn:E, (Qeq_bool b c) eqn:F; auto. - apply Qeq_bool_iff in E. assert (b == c)%Q as X by lra. apply Qeq_bool_iff in X. congruence. - apply Qeq_bool_iff in F. assert (a == c)%Q as X by lra. apply Qeq_bool_iff in X. congruence. Qed.
  Lemma bump_spec t : forall m p m', bump m t = (p, m') -> p = count m t /\ forall u, count m' u = if Qeq_bool t u then S p else count m u.
  Proof.
    induction m as [|[v n] m IH]; intros p m'; cbn [bump count].
    - intros [= <- <-]. split; auto.
    - destruct (Qeq_bool v t) eqn:E.
      + intros [= <- <-]. split; auto. intros u. cbn [count]. apply Qeq_bool_iff in E. rewrite (qeqb_trans v t u) by auto. now destruct (Qeq_bool t u).
      + destruct (bump m t) as [k m1] eqn:B. intros [= <- <-]. destruct (IH k m1 eq_refl) as [H1 H2]. split; auto. intros u. cbn [count]. rewrite H2.
        destruct (Qeq_bool v u) eqn:V; auto. destruct (Qeq_bool t u) eqn:F; auto. apply Qeq_bool_iff in V, F. assert (v == t)%Q as X by lra. apply Qeq_bool_iff in X. congruence.
  Qed.
  Lemma count_ext a b m : (a == b)%Q -> count m a = count m b.
  Proof. intros Q. induction m as [|[v n] m IHm]; cbn [count]; auto. rewrite (qeqb_sym v a), (qeqb_trans _ _ v Q), (qeqb_sym b v), IHm. reflexivity. Qed.
  Definition hinv (h : helper data) : Prop := numbered (hp_ticks _ h) /\ forall u, In u (hp_ticks _ h) -> P u < count (hp_prec _ h) (T u).
  Lemma fop_snoc {A} (R : A -> A -> Prop) l x : ForallOrdPairs R l -> Forall (fun a => R a x) l -> ForallOrdPairs R (l ++ [x]).
  Proof. induction 1 as [|a l Ha _ IH]; intros H; cbn [app]; [repeat constructor|]. inversion H; subst. constructor; auto. apply Forall_app. split; auto. Qed.
  Lemma delta_after a b t : delta a b = Ok t -> seconds_after a b t.
  Proof. destruct a, b; cbn [delta seconds_after]; try discriminate; intros [= <-]; [lra|]. unfold Qdiv. reflexivity. Qed.
  Lemma add_tick_inv h c h' : hp_only _ h = false -> hinv h -> add_tick data h c = Ok h' -> hinv h' /\ hp_schema _ h' = hp_schema _ h /\ hp_only _ h' = false /\
    exists t, hp_ticks _ h' = hp_ticks _ h ++ [t] /\ hp_ref _ h' = Some (or_else (hp_ref _ h) (c_stamp _ c)) /\ made_by data (or_else (hp_ref _ h) (c_stamp _ c)) c t.
  Proof.
    intros Ho [H1 H2] E. unfold add_tick in E. rewrite Ho in E. destruct (c_stamp data c) eqn:St; try discriminate; destruct (c_data data c) as [d|] eqn:D; try discriminate;
    (match type of E with context[delta ?a ?b] => destruct (delta a b) as [t| | |] eqn:Dt end; cbn [bind] in E; try discriminate);
    destruct (bump (hp_prec data h) t) as [p m] eqn:B; injection E as <-; apply bump_spec in B as [-> B]; cbn [hp_ticks hp_schema hp_only hp_ref hp_prec];
    (split; [split|]; [apply fop_snoc; auto; apply Forall_forall; intros u Hu; cbn [tk_time tk_prec]; intros Q; specialize (H2 u Hu); now rewrite <- (count_ext _ _ _ Q)
      |intros u Hu; rewrite B; apply in_app_iff in Hu as [Hu|[<-|[]]];
        [specialize (H2 u Hu); destruct (Qeq_bool t (T u)) eqn:Q; auto; apply Qeq_bool_iff in Q; rewrite (count_ext _ _ _ Q); lia
        |cbn [tk_time tk_prec]; replace (Qeq_bool t t) with true by (symmetry; apply Qeq_bool_iff; lra); lia]
      |]);
    repeat split; auto; eexists; (split; [reflexivity|]; split; [reflexivity|]); unfold made_by; cbn [tk_label tk_type tk_data tk_time]; rewrite St, D; repeat split; auto; now apply delta_after.
  Qed.
  Lemma add_calls_inv : forall l h h', hp_only _ h = false -> hinv h -> add_calls data to_label h l = Ok h' -> hinv h' /\
    exists ts, hp_ticks _ h' = hp_ticks _ h ++ ts /\ Forall2 (made_by data (or_else (hp_ref _ h) (first_stamp data l))) l ts.
  Proof.
    induction l as [|c l IH]; intros h h' Ho Hi; cbn [add_calls].
    - intros [= <-]. split; auto. exists []. split; [now rewrite app_nil_r|constructor].
    - unfold add_call. destruct extend_schema as [s| | |]; cbn [bind]; try discriminate.
      destruct (add_tick data (mkHp data (hp_ticks data h) s (hp_only data h) (hp_ref data h) (hp_prec data h)) c) as [h1| | |] eqn:E; cbn [bind]; try discriminate. intros H.
      apply add_tick_inv in E as (Hi1 & _ & Ho1 & t & E1 & E2 & Ht); auto. cbn [hp_ticks hp_ref] in *. apply IH in H as (Hi2 & ts & E3 & Hts); auto.
      split; auto. exists (t :: ts). split; [rewrite E3, E1; now rewrite <- app_assoc|]. cbn [first_stamp]. constructor; auto. rewrite E2 in Hts. cbn [or_else] in Hts. exact Hts.
  Qed.
  Theorem calls_in_order s calls h : add_calls data to_label (mkHp data [] s false None []) calls = Ok h ->
    exists ts, Forall2 (made_by data (first_stamp data calls)) calls ts /\ hp_ticks _ h = ts /\ in_order data ts (sort_ticks data ts) /\
      (forall out, Permutation out ts -> sorted out -> out = sort_ticks data ts).
  Proof.
    intros H. apply add_calls_inv in H as ([Hn _] & ts & E & Hts); auto; [|split; [constructor|intros u []]]. cbn [hp_ticks app] in E. exists ts. rewrite E in Hn.
    split; [exact Hts|]. split; [auto|]. split; [now apply sort_in_order|]. intros out Hp Hs. apply sorted_unique; auto; [|now apply sort_sorted].
    rewrite Hp. symmetry. apply sort_perm.
  Qed.
End Order.
