(** Proofs about constructors of external data streams. *)
From Coq Require Import List Bool Arith Lia Permutation.
Import ListNotations.
From Verif Require Import Outcome SchemaModel SchemaProofs2 EdModel.
Open Scope nat_scope.
Open Scope list_scope.

(** specification: the payloads that constructors hold *)
Definition holds (o : option ctor) : list nat := match o with Some c => match c_factory c, c_payload c with Some _, Some p => [p] | _, _ => [] end | None => [] end.
Definition held (l : list (option ctor)) : list nat := flat_map holds l.
(** an operation that may be done: on constructors that are not destroyed, and for setters and construct on one that holds a payload *)
Definition allowed {uri} (s : state) (o : op uri) : Prop :=
  match o with
  | Register _ _ | Get _ _ => True
  | MoveNew _ i | Destroy _ i => exists c, nth_error (ctors s) i = Some (Some c)
  | Assign _ i j => (exists c, nth_error (ctors s) i = Some (Some c)) /\ (exists c, nth_error (ctors s) j = Some (Some c))
  | Set_ _ i | Construct _ i => exists f p, nth_error (ctors s) i = Some (Some (mkCtor (Some f) (Some p)))
  end.
Record inv (s : state) : Prop := mkInv {
  i_all : Permutation (live s ++ freed s) (seq 0 (made s));
  i_held : Permutation (live s) (held (ctors s) ++ thrown s) }.

Lemma held_upd : forall l i o o', nth_error l i = Some o -> Permutation (holds o' ++ held l) (holds o ++ held (upd l i o')).
Proof.
  induction l as [|x l IH]; intros [|i] o o' H; try discriminate; cbn [nth_error] in H; cbn [upd held flat_map].
  - injection H as ->. fold (held l). rewrite !app_assoc. apply Permutation_app_tail, Permutation_app_comm.
  - fold (held l) (held (upd l i o')). rewrite !app_assoc. rewrite (Permutation_app_comm (holds o') (holds x)), (Permutation_app_comm (holds o) (holds x)), <- !app_assoc. apply Permutation_app_head. now apply IH.
Qed.
Lemma held_app a b : held (a ++ b) = held a ++ held b.
Proof. apply flat_map_app. Qed.
Lemma live_nodup s : inv s -> NoDup (live s).
Proof. intros [H _]. assert (N : NoDup (live s ++ freed s)) by (eapply Permutation_NoDup; [apply Permutation_sym; exact H|apply seq_NoDup]). revert N. clear. induction (live s) as [|x l IH]; intros N; [constructor|]. cbn [app] in N. inversion N; subst. constructor; [intros I; apply H1, in_or_app; now left|auto]. Qed.
Lemma remove_perm p : forall l, NoDup l -> In p l -> Permutation l (p :: remove Nat.eq_dec p l).
Proof.
  induction l as [|x l IH]; intros N I0; [destruct I0|]. destruct I0 as [->|I]; inversion N; subst; cbn [remove].
  - destruct (Nat.eq_dec p p); [|contradiction]. now rewrite notin_remove.
  - destruct (Nat.eq_dec p x) as [->|Ne]; [contradiction|]. rewrite perm_swap. constructor. now apply IH.
Qed.
(** deleting what a constructor holds *)
Lemma destruct_ok s c X : inv s -> Permutation (held (ctors s) ++ thrown s) (holds (Some c) ++ X) -> exists s', destruct_ctor s c = Ok s' /\ ctors s' = ctors s /\ thrown s' = thrown s /\ made s' = made s /\ factories s' = factories s /\
  Permutation (live s') X /\ Permutation (live s' ++ freed s') (seq 0 (made s)).
Proof.
  intros I P. pose proof (live_nodup s I) as N. destruct I as [A H]. unfold destruct_ctor. cbn [holds] in P. destruct (c_factory c) as [f|]; [destruct (c_payload c) as [p|]|].
  - assert (In p (live s)) as Hp by (eapply Permutation_in; [apply Permutation_sym; exact H|eapply Permutation_in; [apply Permutation_sym; exact P|now left]]).
    unfold release. destruct (in_dec Nat.eq_dec p (live s)) as [_|Q]; [|contradiction]. eexists. split; [reflexivity|]. cbn [ctors thrown made factories live freed]. repeat split; auto.
    + apply (Permutation_cons_inv (a := p)). rewrite <- (remove_perm p (live s) N Hp), H. exact P.
    + rewrite <- Permutation_middle. rewrite <- A. rewrite app_comm_cons. apply Permutation_app_tail. symmetry. now apply remove_perm.
  - exists s. repeat split; auto. now rewrite H.
  - exists s. repeat split; auto. now rewrite H.
Qed.
Section External.
  Variable uri : Type.
  Variable accepts : nat -> uri -> bool.
  Variable makes : nat -> bool.
  Notation step := (step uri accepts makes).
  Notation run := (run uri accepts makes).
  Lemma alive_is s i c : nth_error (ctors s) i = Some (Some c) -> alive s i = Ok c.
  Proof. intros H. unfold alive. now rewrite H. Qed.
  Lemma alive_inv s i c : alive s i = Ok c -> nth_error (ctors s) i = Some (Some c).
  Proof. unfold alive. destruct nth_error as [[x|]|]; try discriminate. now intros [= ->]. Qed.
  (** an allowed operation is defined and keeps the invariant *)
  Lemma step_ok s o : inv s -> allowed s o -> exists s', step s o = Ok s' /\ inv s'.
  Proof.
    intros I Al. pose proof I as [A H]. destruct o as [f|u|i|i j|i|i|i]; cbn [allowed] in Al; cbn [EdModel.step].
    - eexists. split; [reflexivity|]. split; [exact A|exact H].
    - destruct ask as [f|]; (eexists; split; [reflexivity|split]); cbn [live freed made ctors thrown].
      + cbn [app]. rewrite seq_S, <- Permutation_cons_append. now constructor.
      + rewrite held_app. cbn [held flat_map holds c_factory c_payload app]. rewrite <- app_assoc. cbn [app]. rewrite <- Permutation_middle. now constructor.
      + exact A.
      + rewrite held_app. cbn [held flat_map holds c_factory c_payload app]. now rewrite app_nil_r.
    - destruct Al as [c Hc]. rewrite (alive_is _ _ _ Hc). cbn [bind]. eexists. split; [reflexivity|]. split; [exact A|]. cbn [set_ctors live ctors thrown].
      rewrite held_app. cbn [held flat_map]. rewrite app_nil_r, H. apply Permutation_app_tail. pose proof (held_upd _ _ _ (Some empty_ctor) Hc) as P. cbn [holds empty_ctor c_factory c_payload app] in P. rewrite P. apply Permutation_app_comm.
    - destruct Al as [[a Ha] [b Hb]]. rewrite (alive_is _ _ _ Ha), (alive_is _ _ _ Hb). cbn [bind]. destruct (Nat.eqb_spec i j) as [->|Ne]; [exists s; auto|].
      assert (P : Permutation (held (ctors s)) (holds (Some a) ++ held (upd (upd (ctors s) i (Some b)) j (Some empty_ctor)))).
      { pose proof (held_upd _ _ _ (Some b) Ha) as P1. assert (Hb' : nth_error (upd (ctors s) i (Some b)) j = Some (Some b)) by (rewrite upd_other by exact Ne; exact Hb).
        pose proof (held_upd _ _ _ (Some empty_ctor) Hb') as P2. cbn [holds empty_ctor c_factory c_payload app] in P2. apply (Permutation_app_inv_l (holds (Some b))). rewrite P1.
        change (held (upd (ctors s) i (Some b))) with (held (upd (ctors s) i (Some b))). rewrite P2 at 1. rewrite !app_assoc. apply Permutation_app_tail, Permutation_app_comm. }
      destruct (destruct_ok s a (held (upd (upd (ctors s) i (Some b)) j (Some empty_ctor)) ++ thrown s) I) as (s' & E & C & T & M & F & L & Al).
      { rewrite app_assoc. now apply Permutation_app_tail. }
      rewrite E. cbn [bind]. eexists. split; [reflexivity|]. split; cbn [set_ctors live freed made ctors thrown]; [now rewrite M|]. rewrite C, T. exact L.
    - destruct Al as [c Hc]. rewrite (alive_is _ _ _ Hc). cbn [bind]. pose proof (held_upd _ _ _ None Hc) as P. cbn [holds app] in P.
      destruct (destruct_ok s c (held (upd (ctors s) i None) ++ thrown s) I) as (s' & E & C & T & M & F & L & Al).
      { rewrite app_assoc. now apply Permutation_app_tail. }
      rewrite E. cbn [bind]. eexists. split; [reflexivity|]. split; cbn [set_ctors live freed made ctors thrown]; [now rewrite M|]. rewrite C, T. exact L.
    - destruct Al as (f & p & Hc). rewrite (alive_is _ _ _ Hc). cbn [bind c_factory c_payload]. assert (In p (live s)) as Hp.
      { eapply Permutation_in; [apply Permutation_sym; exact H|]. apply in_or_app. left. apply in_flat_map. exists (Some (mkCtor (Some f) (Some p))). split; [eapply nth_error_In; eauto|now left]. }
      destruct (in_dec Nat.eq_dec p (live s)); [|contradiction]. exists s. auto.
    - destruct Al as (f & p & Hc). rewrite (alive_is _ _ _ Hc). cbn [bind c_factory c_payload]. assert (In p (live s)) as Hp.
      { eapply Permutation_in; [apply Permutation_sym; exact H|]. apply in_or_app. left. apply in_flat_map. exists (Some (mkCtor (Some f) (Some p))). split; [eapply nth_error_In; eauto|now left]. }
      pose proof (held_upd _ _ _ (Some (mkCtor (Some f) None)) Hc) as P. cbn [holds c_factory c_payload app] in P. pose proof (live_nodup s I) as N.
      cbn [set_ctors live]. destruct (in_dec Nat.eq_dec p (live s)) as [_|Q]; [|contradiction]. destruct (makes p).
      + unfold release. cbn [set_ctors live]. destruct (in_dec Nat.eq_dec p (live s)) as [_|Q]; [|contradiction]. eexists. split; [reflexivity|]. split; cbn [ctors live freed made thrown].
        * rewrite <- Permutation_middle, <- A, app_comm_cons. apply Permutation_app_tail. symmetry. now apply remove_perm.
        * apply (Permutation_cons_inv (a := p)). rewrite <- (remove_perm p (live s) N Hp), H, app_comm_cons. now apply Permutation_app_tail.
      + eexists. split; [reflexivity|]. split; cbn [ctors live freed made thrown]; [exact A|]. rewrite H, <- Permutation_middle, app_comm_cons. now apply Permutation_app_tail.
  Qed.
  (** operations that are not allowed are the only ones without a defined outcome *)
  Lemma step_allowed s o s' : step s o = Ok s' -> allowed s o.
  Proof.
    destruct o as [f|u|i|i j|i|i|i]; cbn [EdModel.step allowed]; auto; unfold alive.
    - destruct nth_error as [[c|]|]; try discriminate. eauto.
    - destruct (nth_error (ctors s) i) as [[a|]|]; try discriminate. cbn [bind]. destruct (nth_error (ctors s) j) as [[b|]|]; try discriminate. eauto.
    - destruct nth_error as [[c|]|]; try discriminate. eauto.
    - destruct nth_error as [[[[f|] [p|]]|]|]; cbn; try discriminate. eauto.
    - destruct nth_error as [[[[f|] [p|]]|]|]; cbn; try discriminate. eauto.
  Qed.
  Lemma start_inv : inv start.
  Proof. split; constructor. Qed.
  Lemma run_inv : forall l s s', inv s -> run s l = Ok s' -> inv s'.
  Proof.
    induction l as [|o l IH]; intros s s' I; cbn [EdModel.run]; [now intros [= <-]|]. destruct (step s o) as [s1| | |] eqn:E; cbn [bind]; try discriminate.
    destruct (step_ok s o I (step_allowed _ _ _ E)) as (s2 & E2 & I2). rewrite E in E2. injection E2 as <-. eauto.
  Qed.
  (** specification: every operation of a history is allowed when it is done *)
  Fixpoint all_allowed (s : state) (l : list (op uri)) : Prop :=
    match l with [] => True | o :: l => allowed s o /\ forall s', step s o = Ok s' -> all_allowed s' l end.
  Theorem defined_iff l : (exists s, run start l = Ok s) <-> all_allowed start l.
  Proof.
    generalize start_inv. generalize start. induction l as [|o l IH]; intros s I; cbn [EdModel.run all_allowed]; [split; eauto|]. split.
    - intros [s' E]. destruct (step s o) as [s1| | |] eqn:S; cbn [bind] in E; try discriminate. pose proof (step_allowed _ _ _ S) as Al. split; [exact Al|]. intros s2 Es2. injection Es2 as <-.
      destruct (step_ok s o I Al) as (s2 & E2 & I2). rewrite S in E2. injection E2 as <-. apply IH; eauto.
    - intros [Al Hr]. destruct (step_ok s o I Al) as (s1 & E1 & I1). rewrite E1. cbn [bind]. apply IH; auto.
  Qed.
  (** each payload made is allocated still or was deleted, once; those allocated are held by one constructor each, or their construction threw *)
  Theorem released_once l s : run start l = Ok s -> Permutation (live s ++ freed s) (seq 0 (made s)) /\ NoDup (live s ++ freed s) /\ Permutation (live s) (held (ctors s) ++ thrown s).
  Proof.
    intros H. pose proof (run_inv l start s start_inv H) as [A B]. split; [exact A|]. split; [|exact B]. eapply Permutation_NoDup; [apply Permutation_sym; exact A|apply seq_NoDup].
  Qed.
  Theorem nothing_left l s : run start l = Ok s -> (forall c, ~ In (Some c) (ctors s)) -> thrown s = [] -> live s = [] /\ Permutation (freed s) (seq 0 (made s)).
  Proof.
    intros H Hc Ht. destruct (released_once l s H) as (A & _ & B). assert (E : held (ctors s) = []).
    { clear - Hc. induction (ctors s) as [|[c|] r IH]; [reflexivity|destruct (Hc c); now left|]. cbn [held flat_map holds app]. apply IH. intros c I. apply (Hc c). now right. }
    rewrite E, Ht in B. apply Permutation_sym, Permutation_nil in B. rewrite B in A. auto.
  Qed.
  (** ** What each operation does *)
  Lemma destruct_freed s c s' : destruct_ctor s c = Ok s' -> ctors s' = ctors s /\ freed s' = holds (Some c) ++ freed s /\ thrown s' = thrown s /\ factories s' = factories s /\ made s' = made s.
  Proof.
    unfold destruct_ctor. cbn [holds]. destruct (c_factory c); [destruct (c_payload c)|]; [|intros E; injection E as <-; auto..]. unfold release. destruct in_dec; [|discriminate]. intros E; injection E as <-; auto 10.
  Qed.
  Theorem move_new s i s' : step s (MoveNew uri i) = Ok s' -> exists c, nth_error (ctors s) i = Some (Some c) /\ List.length (ctors s') = S (List.length (ctors s)) /\
    nth_error (ctors s') (List.length (ctors s)) = Some (Some c) /\ nth_error (ctors s') i = Some (Some empty_ctor) /\
    (forall k, k <> i -> k < List.length (ctors s) -> nth_error (ctors s') k = nth_error (ctors s) k) /\ freed s' = freed s.
  Proof.
    cbn [EdModel.step]. destruct (alive s i) as [c| | |] eqn:A; cbn [bind]; try discriminate. intros E; injection E as <-. apply alive_inv in A. exists c. cbn [set_ctors ctors freed].
    assert (L : i < List.length (ctors s)) by (apply nth_error_Some; congruence). split; [exact A|]. rewrite app_length, upd_len. cbn [List.length]. split; [lia|].
    split; [rewrite nth_error_app2 by (rewrite upd_len; lia); now rewrite upd_len, Nat.sub_diag|]. split; [rewrite nth_error_app1 by (rewrite upd_len; lia); now apply upd_same|].
    split; [|reflexivity]. intros k Nk Hk. rewrite nth_error_app1 by (rewrite upd_len; lia). apply upd_other. congruence.
  Qed.
  Theorem assign_moves s i j s' : step s (Assign uri i j) = Ok s' -> exists a b, nth_error (ctors s) i = Some (Some a) /\ nth_error (ctors s) j = Some (Some b) /\
    (i = j -> s' = s) /\ (i <> j -> nth_error (ctors s') i = Some (Some b) /\ nth_error (ctors s') j = Some (Some empty_ctor) /\
      (forall k, k <> i -> k <> j -> nth_error (ctors s') k = nth_error (ctors s) k) /\ freed s' = holds (Some a) ++ freed s).
  Proof.
    cbn [EdModel.step]. destruct (alive s i) as [a| | |] eqn:A; cbn [bind]; try discriminate. destruct (alive s j) as [b| | |] eqn:B; cbn [bind]; try discriminate. apply alive_inv in A, B. intros E. exists a, b. split; [exact A|]. split; [exact B|].
    assert (Li : i < List.length (ctors s)) by (apply nth_error_Some; congruence). assert (Lj : j < List.length (ctors s)) by (apply nth_error_Some; congruence).
    destruct (Nat.eqb_spec i j) as [->|Ne]; [split; [congruence|contradiction]|]. split; [contradiction|]. intros _. destruct (destruct_ctor s a) as [s1| | |] eqn:D; cbn [bind] in E; try discriminate.
    injection E as <-. apply destruct_freed in D as (C & F & _). cbn [set_ctors ctors freed]. rewrite C. split; [rewrite upd_other by congruence; now apply upd_same|]. split; [apply upd_same; rewrite upd_len; lia|].
    split; [|exact F]. intros k N1 N2. now rewrite !upd_other by congruence.
  Qed.
  Theorem destroy_frees s i s' : step s (Destroy uri i) = Ok s' -> exists c, nth_error (ctors s) i = Some (Some c) /\ nth_error (ctors s') i = Some None /\
    (forall k, k <> i -> nth_error (ctors s') k = nth_error (ctors s) k) /\ freed s' = holds (Some c) ++ freed s.
  Proof.
    cbn [EdModel.step]. destruct (alive s i) as [c| | |] eqn:A; cbn [bind]; try discriminate. apply alive_inv in A. destruct (destruct_ctor s c) as [s1| | |] eqn:D; cbn [bind]; try discriminate.
    intros E. injection E as <-. apply destruct_freed in D as (C & F & _). exists c. cbn [set_ctors ctors freed]. rewrite C. split; [exact A|]. split; [apply upd_same, nth_error_Some; congruence|]. split; [|exact F].
    intros k N. apply upd_other. congruence.
  Qed.
  Theorem construct_does s i s' : step s (Construct uri i) = Ok s' -> exists f p, nth_error (ctors s) i = Some (Some (mkCtor (Some f) (Some p))) /\ nth_error (ctors s') i = Some (Some (mkCtor (Some f) None)) /\
    (forall k, k <> i -> nth_error (ctors s') k = nth_error (ctors s) k) /\ (if makes p then freed s' = p :: freed s /\ thrown s' = thrown s else freed s' = freed s /\ thrown s' = p :: thrown s).
  Proof.
    cbn [EdModel.step]. destruct (alive s i) as [[[f|] [p|]]| | |] eqn:A; cbn [bind c_factory c_payload]; try discriminate. apply alive_inv in A. assert (L : i < List.length (ctors s)) by (apply nth_error_Some; congruence).
    cbn [set_ctors live]. destruct in_dec as [I|]; [|discriminate]. intros E. exists f, p. split; [exact A|]. destruct (makes p).
    - unfold release in E. cbn [set_ctors live ctors freed thrown made factories] in E. destruct in_dec; [|contradiction]. injection E as <-. cbn [ctors freed thrown]. split; [now apply upd_same|]. split; [|auto]. intros k N. apply upd_other. congruence.
    - injection E as <-. cbn [ctors freed thrown set_ctors]. split; [now apply upd_same|]. split; [|auto]. intros k N. apply upd_other. congruence.
  Qed.
  (** ** Factories *)
  Lemma ask_some u : forall l f, ask uri accepts l u = Some f <-> exists a b, l = a ++ f :: b /\ accepts f u = true /\ forall g, In g a -> accepts g u = false.
  Proof.
    induction l as [|x l IH]; intros f; cbn [ask].
    - split; [discriminate|]. intros (a & b & E & _). destruct a; discriminate.
    - destruct (accepts x u) eqn:Ax.
      + split; [intros E; injection E as <-; exists [], l; split; [reflexivity|split; [exact Ax|intros g []]]|]. intros X. destruct X as (a & b & E & Af & Ag). destruct a as [|y a]; [cbn in E; congruence|]. cbn [app] in E. injection E as -> ->. rewrite (Ag y (or_introl eq_refl)) in Ax. discriminate.
      + rewrite IH. split; intros (a & b & E & Af & Ag).
        * exists (x :: a), b. subst l. cbn [app]. split; [reflexivity|]. split; [exact Af|]. intros g [<-|G]; auto.
        * destruct a as [|y a]; [cbn in E; injection E as -> ->; congruence|]. injection E as -> ->. exists a, b. split; [reflexivity|]. split; [exact Af|]. intros g G. apply Ag. now right.
  Qed.
  Lemma ask_none u : forall l, ask uri accepts l u = None <-> forall g, In g l -> accepts g u = false.
  Proof.
    induction l as [|x l IH]; cbn [ask In]; [split; [intros _ g []|auto]|]. destruct (accepts x u) eqn:Ax.
    - split; [discriminate|]. intros H. rewrite (H x (or_introl eq_refl)) in Ax. discriminate.
    - rewrite IH. split; [intros H g [<-|G]; auto|auto].
  Qed.
  (** the constructor got is that of the factory registered last among those that accept; the default one counts only if
      nothing was registered before the first call *)
  Theorem factory_last s u s' : step s (Get uri u) = Ok s' -> exists c, ctors s' = ctors s ++ [Some c] /\ factories s' = registered s /\
    match c_factory c with
    | Some f => exists a b, registered s = a ++ f :: b /\ accepts f u = true /\ forall g, In g b -> accepts g u = false
    | None => c_payload c = None /\ forall g, In g (registered s) -> accepts g u = false
    end.
  Proof.
    cbn [EdModel.step]. destruct (ask uri accepts (rev (registered s)) u) as [f|] eqn:E; intros [= <-]; (eexists; split; [reflexivity|split; [reflexivity|]]); cbn [c_factory c_payload empty_ctor].
    - apply ask_some in E as (a & b & E & Af & Ag). exists (rev b), (rev a). split; [|split; [exact Af|intros g G; apply Ag; apply in_rev; exact G]].
      rewrite <- (rev_involutive (registered s)), E, rev_app_distr. cbn [rev]. now rewrite <- app_assoc.
    - split; [reflexivity|]. intros g G. apply (proj1 (ask_none u _) E). apply -> in_rev. exact G.
  Qed.
End External.
(** a factory registered comes after those registered before, which keep their order and are otherwise left alone *)
Theorem register_last uri accepts makes s f s' : step uri accepts makes s (Register uri f) = Ok s' -> factories s' = factories s ++ [f] /\ ctors s' = ctors s /\ live s' = live s /\ freed s' = freed s.
Proof. cbn [step]. intros E. injection E as <-. cbn. auto. Qed.
