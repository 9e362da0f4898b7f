(** Dynamically constructed streams: saving and loading the tree. *)
From Coq Require Import ZifyBool Lqa.
From Verif Require Export DynProofs2.
From Verif Require Import DyadicLemmas DyadicProofs DyadicProofs2.
Open Scope Z_scope.

Section Save.
  Variable lie : Type.
  Variable res : Z.
  Hypothesis Hres : - 2 ^ 27 <= res <= 2 ^ 27.
  Notation kfit := (TickProofs.kfit res).
  Notation mfit := (TickProofs.mfit (dnode lie) res).
  Notation tree := (tree lie).
  Notation keys := (DynProofs.keys lie).
  Notation sorted := (DynProofs.sorted lie).
  Implicit Types t : tree.
  Definition linkable t (o : option dint) : Prop := match o with None => True | Some j => In j (keys t) end.
  Definition closed t : Prop := forall e, In e t -> linkable t (dn_par (snd e)) /\ linkable t (dn_sib (snd e)).
  (** What the file says about a link. *)
  Definition means t (o : option dint) (p : Z) : Prop := match o with None => p = -1 | Some j => 0 <= p /\ nth_error (keys t) (Z.to_nat p) = Some j end.

  Lemma sorted_nodup t : mfit t -> sorted t -> NoDup (keys t).
  Proof.
    intros _. unfold DynProofs.sorted. generalize (keys t). intros l H. induction H as [|i l H IH F]; constructor; auto. intros Hi. rewrite Forall_forall in F. apply (ord_irrefl i). apply F. auto.
  Qed.
  Lemma index_ok t i p : mfit t -> kfit i -> In i (keys t) -> exists q : nat, dn_index t i p = Ok (Some (p + Z.of_nat q)) /\ nth_error (keys t) q = Some i.
  Proof.
    intros Ht Hi. revert p. induction Ht as [|[j v] t Hj Ht IH]; intros p H; [destruct H|]. cbn [dn_index]. cbn [fst] in Hj. rewrite (same_key_fit res) by auto. cbn [bind]. destruct (di_eqb j i) eqn:E.
    - apply (di_eqb_iff res) in E; auto. subst j. exists 0%nat. split; [do 2 f_equal; lia|reflexivity].
    - destruct H as [H|H]; [cbn in H; subst j; rewrite (eqb_refl res) in E by auto; discriminate|]. destruct (IH (p + 1) H) as (q & E1 & E2). exists (Datatypes.S q). split; [rewrite E1; do 2 f_equal; lia|exact E2].
  Qed.
  Lemma index_of_ok t o : mfit t -> linkable t o -> exists p, dn_index_of t o = Ok p /\ means t o p.
  Proof.
    intros Ht H. destruct o as [i|]; cbn [dn_index_of]; [|exists (-1); split; auto; reflexivity]. cbn in H. destruct (index_ok t i 0 Ht (key_fit _ _ _ _ Ht H) H) as (q & E & N). rewrite E. cbn [bind]. exists (0 + Z.of_nat q). split; auto. split; [lia|]. replace (Z.to_nat (0 + Z.of_nat q)) with q by lia. exact N.
  Qed.
  Definition written t (e : dint * dnode lie) (s : safe lie) : Prop :=
    sf_interval s = fst e /\ sf_resolution s = dn_acc (snd e) /\ sf_content s = dn_lie (snd e) /\ means t (dn_par (snd e)) (sf_par s) /\ means t (dn_sib (snd e)) (sf_sib s).
  Lemma store_from t todo : mfit t -> (forall e, In e todo -> linkable t (dn_par (snd e)) /\ linkable t (dn_sib (snd e))) -> exists l, dn_store_from t todo = Ok l /\ Forall2 (written t) todo l.
  Proof.
    intros Ht. induction todo as [|[i v] todo IH]; intros H; [exists []; split; auto; constructor|]. cbn [dn_store_from]. destruct (H _ (or_introl eq_refl)) as [Hp Hs]. cbn [snd] in Hp, Hs.
    destruct (index_of_ok t _ Ht Hp) as (p & Ep & Mp). destruct (index_of_ok t _ Ht Hs) as (s & Es & Ms). rewrite Ep, Es. cbn [bind]. destruct (IH (fun e He => H e (or_intror He))) as (l & El & Fl). rewrite El. cbn [bind]. eexists. split; [reflexivity|]. constructor; auto. repeat (split; auto).
  Qed.
  Lemma insert_last t i v : mfit t -> kfit i -> Forall (fun j => ord j i) (keys t) -> dn_insert t i v = Ok (t ++ [(i, v)]).
  Proof.
    intros Ht Hi. induction Ht as [|[j w] t Hj Ht IH]; intros H; [reflexivity|]. cbn [dn_insert app]. cbn [fst] in Hj. inversion H as [|? ? H1 H2]; subst. rewrite (ord_anti res j i) by auto. cbn [bind]. rewrite H1. cbn [bind]. rewrite IH by auto. reflexivity.
  Qed.
  Definition blank (s : safe lie) : dint * dnode lie := (sf_interval s, mkNode (sf_resolution s) (sf_content s) None None).
  Lemma load_nodes l : forall t, mfit (t ++ map blank l) -> sorted (t ++ map blank l) -> dn_load_nodes l t = Ok (t ++ map blank l).
  Proof.
    induction l as [|s l IH]; intros t Ht Hs; cbn [dn_load_nodes map]; [rewrite app_nil_r; reflexivity|]. cbn [map] in Ht, Hs.
    assert (X : mfit (t ++ [blank s]) /\ Forall (fun j => ord j (sf_interval s)) (keys t)).
    { split; [unfold TickProofs.mfit in *; rewrite Forall_app in *; destruct Ht as [A B]; split; auto; constructor; [apply (Forall_inv B)|constructor]|].
      unfold DynProofs.sorted, DynProofs.keys in *. rewrite map_app in Hs. cbn [map] in Hs. clear -Hs. induction t as [|e t IH]; constructor; inversion Hs as [|? ? H1 H2]; subst; auto. rewrite Forall_app in H2. destruct H2 as [_ H2]. apply (Forall_inv H2). }
    destruct X as [X1 X2]. unfold TickProofs.mfit in X1. rewrite Forall_app in X1. destruct X1 as [X1 X3]. rewrite insert_last; auto; [|apply (Forall_inv X3)]. cbn [bind]. rewrite IH; rewrite <- app_assoc; auto.
  Qed.
  Lemma nodup_head (t : tree) i v r : NoDup (keys (t ++ (i, v) :: r)) -> ~ In i (keys t).
  Proof. unfold DynProofs.keys. rewrite map_app. cbn [map fst]. intros H Hi. apply NoDup_remove_2 in H. apply H. apply in_app_iff. auto. Qed.
  Lemma at_mid t i v r : mfit t -> kfit i -> ~ In i (keys t) -> dn_at (t ++ (i, v) :: r) i = Ok v /\ forall w, dn_set (t ++ (i, v) :: r) i w = Ok (t ++ (i, w) :: r).
  Proof.
    intros Ht Hi. induction Ht as [|[j u] t Hj Ht IH]; intros N; cbn [app dn_at dn_set].
    - rewrite (key_eqb_fit res), (eqb_refl res) by auto. auto.
    - cbn [fst] in Hj. cbn in N. rewrite (key_eqb_fit res), (eqb_neq res) by auto. destruct IH as [A B]; [tauto|]. split; auto. intros w. rewrite B. reflexivity.
  Qed.
  Lemma link_ok t0 l t o p : mfit t0 -> Forall2 (written t0) t0 l -> mfit t -> keys t = keys t0 -> means t0 o p -> dn_load_link l t p = Ok o.
  Proof.
    intros H0 W Ht K M. unfold dn_load_link. destruct o as [j|]; cbn in M; [|subst p; reflexivity]. destruct M as [P N]. replace (p =? -1) with false by lia.
    assert (X : exists s, nth_error l (Z.to_nat p) = Some s /\ sf_interval s = j).
    { assert (G : forall tt t l, Forall2 (written tt) t l -> forall n, nth_error (keys t) n = Some j -> exists s, nth_error l n = Some s /\ sf_interval s = j); [|eapply G; eauto].
      clear. intros tt t l W. induction W as [|e s t l H W IH]; intros [|n] N; cbn in N; try discriminate; [|apply IH; exact N]. injection N as <-. exists s. split; [reflexivity|apply H]. }
    destruct X as (s & -> & ->). assert (J : In j (keys t)) by (rewrite K; eapply nth_error_In; eauto). rewrite (find_look _ res) by (auto; apply (key_fit _ _ _ _ Ht J)). cbn [bind]. destruct (key_look lie res t j Ht J) as (v & ->). reflexivity.
  Qed.
  Lemma load_links t0 l : mfit t0 -> NoDup (keys t0) -> Forall2 (written t0) t0 l -> forall todo pre rest, t0 = pre ++ rest -> Forall2 (written t0) rest todo -> dn_load_links l todo (pre ++ map blank todo) = Ok t0.
  Proof.
    intros H0 D W. induction todo as [|s todo IH]; intros pre rest E F; inversion F as [|[i v] s' rest' todo' Hv Hr]; subst rest; cbn [dn_load_links map].
    - rewrite app_nil_r in *. congruence.
    - subst s' todo'. destruct Hv as (V1 & V2 & V3 & V4 & V5). cbn [fst snd] in *. replace (blank s) with (i, mkNode (sf_resolution s) (sf_content s) None None) by (unfold blank; rewrite V1; reflexivity). rewrite V1.
      assert (Fi : mfit pre /\ kfit i /\ mfit rest'). { rewrite E in H0. unfold TickProofs.mfit in *. rewrite Forall_app in H0. destruct H0 as [A B]. split; auto. split; [apply (Forall_inv B)|apply (Forall_inv_tail B)]. }
      destruct Fi as (Fp & Fi & Fr). assert (N : ~ In i (keys pre)) by (rewrite E in D; eapply nodup_head; eauto). destruct (at_mid pre i (mkNode (sf_resolution s) (sf_content s) None None) (map blank todo) Fp Fi N) as [A1 A2]. rewrite A1. cbn [bind].
      assert (B : forall x : list (safe lie), forall y : tree, Forall2 (written t0) y x -> map fst (map blank x) = map fst y) by (intros x y Hxy; induction Hxy as [|e z y x Hz Hxy IH']; cbn [map]; auto; f_equal; auto; apply Hz).
      assert (Fb : forall x y, Forall2 (written t0) y x -> mfit y -> mfit (map blank x)) by (intros x y Hxy; unfold TickProofs.mfit; induction Hxy as [|e z y x Hz Hxy IH']; cbn [map]; intros Hy; constructor; [cbn; destruct Hz as [-> _]; apply (Forall_inv Hy)|apply IH'; apply (Forall_inv_tail Hy)]).
      set (t1 := pre ++ (i, mkNode (sf_resolution s) (sf_content s) None None) :: map blank todo) in *.
      assert (F1 : mfit t1) by (unfold t1, TickProofs.mfit; apply Forall_app; split; auto; constructor; auto; apply (Fb todo rest'); auto).
      assert (K1 : keys t1 = keys t0) by (rewrite E; unfold t1, DynProofs.keys; rewrite !map_app; cbn [map fst]; rewrite (B todo rest') by auto; reflexivity).
      rewrite (link_ok t0 l t1 _ _ H0 W F1 K1 V4). cbn [bind]. rewrite (link_ok t0 l t1 _ _ H0 W F1 K1 V5). cbn [bind dn_acc dn_lie]. unfold t1. rewrite A2. cbn [bind]. rewrite V2, V3. destruct v as [a x sb pr]. cbn [dn_acc dn_lie dn_sib dn_par] in *.
      replace (pre ++ (i, mkNode a x sb pr) :: map blank todo) with ((pre ++ [(i, mkNode a x sb pr)]) ++ map blank todo) by (rewrite <- app_assoc; reflexivity). apply (IH _ rest'); auto. rewrite <- app_assoc. exact E.
  Qed.
  Lemma store_load t : mfit t -> sorted t -> closed t -> exists l, dn_store t = Ok l /\ dn_load l = Ok t.
  Proof.
    intros Ht Hs Hc. destruct (store_from t t Ht Hc) as (l & E & W). exists l. split; auto. unfold dn_load.
    assert (K : keys (map blank l) = keys t). { unfold DynProofs.keys. clear -W. revert W. generalize t at 1. intros t0 W. induction W as [|e z y x Hz Hxy IH']; cbn [map]; auto. f_equal; auto. apply Hz. }
    assert (M : mfit ([] ++ map blank l)). { cbn [app]. unfold TickProofs.mfit in *. rewrite Forall_forall in *. intros e He. assert (In (fst e) (keys t)) as Hk by (rewrite <- K; apply in_map; auto). apply (key_fit _ _ t); auto. unfold TickProofs.mfit. rewrite Forall_forall. auto. }
    rewrite load_nodes; [|exact M|unfold DynProofs.sorted; cbn [app]; rewrite K; exact Hs]. cbn [bind app]. apply (load_links t l Ht (sorted_nodup t Ht Hs) W l [] t eq_refl W).
  Qed.

  Variable S : sigs lie.
  Variable ok : lie -> Prop.
  Variable h : Z.
  Variable Qv : Z -> Z -> lie -> Prop.
  Lemma tinv_saved t rk rm : tinv lie S ok res h Qv t rk rm -> exists l, dn_store t = Ok l /\ dn_load l = Ok t.
  Proof.
    intros I. assert (Ht := ti_fit _ _ _ _ _ _ _ _ _ I). assert (Hs := ti_sort _ _ _ _ _ _ _ _ _ I). apply store_load; auto. intros [i v] He. cbn [snd].
    assert (Ki : In i (keys t)) by (apply in_map_iff; exists (i, v); auto). destruct (key_fit _ _ _ _ Ht Ki) as (k & m & -> & Fk).
    assert (H : has lie res t k m v).
    { split; auto. assert (D := sorted_nodup t Ht Hs). clear -He Ht Fk D Hres. induction Ht as [|[j w] t Hj Ht IH]; [destruct He|]. cbn [TickProofs.look]. cbn [fst] in Hj. cbn in D. apply NoDup_cons_iff in D. destruct D as [D1 D2]. destruct He as [[= -> ->]|He].
      - rewrite (eqb_refl res) by auto. reflexivity.
      - rewrite (eqb_neq res); auto using nd_kfit. intros ->. apply D1. apply in_map_iff. eexists. split; [|exact He]. reflexivity. }
    destruct (Z_lt_le_dec m rm) as [L|L].
    - destruct (ti_link _ _ _ _ _ _ _ _ _ I _ _ _ H L) as (-> & -> & (p & Hp) & (s & Hs')). split; cbn; [apply (look_key lie res _ _ p)|apply (look_key lie res _ _ s)]; auto; try (apply nd_kfit, Hp); try (apply nd_kfit, Hs'); [apply Hp|apply Hs'].
    - destruct (root_top lie S ok res h Qv t rk rm k m v I H L) as [-> ->]. destruct (ti_root _ _ _ _ _ _ _ _ _ I) as (r & Hr & Pr & Sr). rewrite (has_fun _ _ _ _ _ _ _ H Hr), Pr, Sr. split; exact Logic.I.
  Qed.
End Save.
