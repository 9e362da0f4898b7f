(** Sparse vectors of the vendored library implement finitely supported functions on the basis. *)
From Verif Require Export LalBasis.
From Coq Require Import Sorted Permutation.
Arguments k_degree : simpl never. Arguments mk_key : simpl never. Arguments k_index : simpl never.

Section Maps.
  Variable R : cring.
  Notation svec := (svec R).
  Definition klt (a b : Z * R) : Prop := fst a < fst b.
  Notation sorted := (StronglySorted klt).
  Definition s_get (k : Z) (m : svec) : R := match s_find R k m with Some x => x | None => r0 end.
  Lemma s_find_in k m x : s_find R k m = Some x -> In (k, x) m.
  Proof.
    induction m as [|[q y] m IH]; cbn [s_find]; [discriminate|]. destruct (Z.eqb_spec q k) as [->|].
    - intros [= ->]. left; auto.
    - intros H. right; auto.
  Qed.
  Lemma s_in_find k m x : sorted m -> In (k, x) m -> s_find R k m = Some x.
  Proof.
    induction m as [|[q y] m IH]; intros S H; [destruct H|]. cbn [s_find].
    apply StronglySorted_inv in S. destruct S as [S F]. destruct H as [H|H].
    - injection H as -> ->. rewrite Z.eqb_refl. reflexivity.
    - rewrite Forall_forall in F. specialize (F _ H). cbn in F. destruct (Z.eqb_spec q k); [unfold klt in F; cbn in F; lia|]. auto.
  Qed.
  Lemma s_find_lt k m : Forall (fun e => k < fst e) m -> s_find R k m = None.
  Proof.
    induction m as [|[q y] m IH]; intros F; [reflexivity|]. inversion F; subst. cbn [s_find]. cbn in H1.
    destruct (Z.eqb_spec q k); [lia|]. auto.
  Qed.
  Lemma s_set_in k x m e : In e (s_set R k x m) -> e = (k, x) \/ In e m.
  Proof.
    induction m as [|[q y] m IH]; cbn [s_set]; [intros [<-|[]]; auto|].
    destruct (k <? q); [intros [<-|H]; auto|]. destruct (Z.eqb_spec q k) as [->|]; cbn [In].
    - intros [<-|H]; auto.
    - intros [<-|H]; auto. destruct (IH H); auto.
  Qed.
  Lemma s_erase_in k m e : In e (s_erase R k m) -> In e m.
  Proof.
    induction m as [|[q y] m IH]; cbn [s_erase]; auto. destruct (q =? k); cbn [In]; tauto.
  Qed.
  Lemma s_set_sorted k x m : sorted m -> sorted (s_set R k x m).
  Proof.
    induction m as [|[q y] m IH]; intros S; cbn [s_set]; [repeat constructor|].
    pose proof (StronglySorted_inv S) as [S' F].
    destruct (Z.ltb_spec k q).
    - constructor; auto. constructor; [exact H|]. rewrite Forall_forall in *. intros e He. specialize (F e He). unfold klt in *. cbn in *. lia.
    - destruct (Z.eqb_spec q k) as [->|].
      + constructor; auto.
      + constructor; auto. rewrite Forall_forall in *. intros e He. apply s_set_in in He. destruct He as [->|He]; [unfold klt; cbn; lia|]. apply F; auto.
  Qed.
  Lemma s_erase_sorted k m : sorted m -> sorted (s_erase R k m).
  Proof.
    induction m as [|[q y] m IH]; intros S; cbn [s_erase]; [auto|].
    pose proof (StronglySorted_inv S) as [S' F]. destruct (q =? k); auto. constructor; auto.
    rewrite Forall_forall in *. intros e He. apply F. eapply s_erase_in; eauto.
  Qed.
  Lemma s_find_set k x m j : sorted m -> s_find R j (s_set R k x m) = if j =? k then Some x else s_find R j m.
  Proof.
    induction m as [|[q y] m IH]; intros S; cbn [s_set s_find].
    - rewrite (Z.eqb_sym k j). destruct (j =? k); reflexivity.
    - pose proof (StronglySorted_inv S) as [S' F]. destruct (Z.ltb_spec k q).
      + cbn [s_find]. rewrite (Z.eqb_sym k j). destruct (j =? k); reflexivity.
      + destruct (Z.eqb_spec q k) as [->|]; cbn [s_find].
        * rewrite (Z.eqb_sym k j). destruct (j =? k); reflexivity.
        * rewrite IH by auto. destruct (Z.eqb_spec q j) as [->|]; [|reflexivity]. destruct (Z.eqb_spec j k); [congruence|reflexivity].
  Qed.
  Lemma s_find_erase k m j : sorted m -> s_find R j (s_erase R k m) = if j =? k then None else s_find R j m.
  Proof.
    induction m as [|[q y] m IH]; intros S; cbn [s_erase s_find]; [destruct (j =? k); reflexivity|].
    pose proof (StronglySorted_inv S) as [S' F]. destruct (Z.eqb_spec q k) as [->|].
    - destruct (Z.eqb_spec j k) as [E|E]; [rewrite E|destruct (Z.eqb_spec k j); [congruence|reflexivity]].
      apply s_find_lt. eapply Forall_impl; [|exact F]. intros e. unfold klt. cbn. auto.
    - cbn [s_find]. rewrite IH by auto. destruct (Z.eqb_spec q j) as [->|]; [|reflexivity]. destruct (Z.eqb_spec j k); [congruence|reflexivity].
  Qed.
  Lemma s_get_set k x m j : sorted m -> s_get j (s_set R k x m) = if j =? k then x else s_get j m.
  Proof. intros S. unfold s_get. rewrite s_find_set by auto. destruct (j =? k); reflexivity. Qed.
  Lemma s_get_erase k m j : sorted m -> s_get j (s_erase R k m) = if j =? k then r0 else s_get j m.
  Proof. intros S. unfold s_get. rewrite s_find_erase by auto. destruct (j =? k); reflexivity. Qed.
  Lemma s_get_sum m k : sorted m -> s_get k m = sum m (fun e => if fst e =? k then snd e else r0).
  Proof.
    induction m as [|[q y] m IH]; intros S; [reflexivity|]. pose proof (StronglySorted_inv S) as [S' F].
    unfold s_get. cbn [s_find sum fst snd]. destruct (Z.eqb_spec q k) as [->|].
    - rewrite sum_zero; [symmetry; rewrite (Radd_comm (rth R)); apply (Radd_0_l (rth R))|].
      intros e He. rewrite Forall_forall in F. specialize (F e He). unfold klt in F. cbn in F. destruct (Z.eqb_spec (fst e) k); [lia|reflexivity].
    - rewrite (Radd_0_l (rth R)). apply IH. auto.
  Qed.
  (** Two sorted maps with the same lookups are equal. *)
  Lemma s_ext a b : sorted a -> sorted b -> (forall k, s_find R k a = s_find R k b) -> a = b.
  Proof.
    revert b. induction a as [|[q y] a IH]; intros [|[q' y'] b] Sa Sb H.
    - reflexivity.
    - specialize (H q'). cbn in H. rewrite Z.eqb_refl in H. discriminate.
    - specialize (H q). cbn in H. rewrite Z.eqb_refl in H. discriminate.
    - pose proof (StronglySorted_inv Sa) as [Sa' Fa]. pose proof (StronglySorted_inv Sb) as [Sb' Fb].
      assert (q = q').
      { assert (H1 := H q). assert (H2 := H q'). cbn in H1, H2. rewrite Z.eqb_refl in H1, H2.
        destruct (Z.eqb_spec q q'); auto. destruct (Z.eqb_spec q' q); [congruence|].
        symmetry in H1. apply s_find_in in H1. apply s_find_in in H2. rewrite Forall_forall in Fa, Fb.
        specialize (Fa _ H2). specialize (Fb _ H1). unfold klt in *. cbn in *. lia. }
      subst q'. assert (y = y') by (specialize (H q); cbn in H; rewrite Z.eqb_refl in H; congruence). subst y'.
      f_equal. apply IH; auto. intros k. specialize (H k). cbn in H. destruct (Z.eqb_spec q k) as [->|]; auto.
      rewrite !s_find_lt; auto; (eapply Forall_impl; [|eassumption]); intros e; unfold klt; cbn; auto.
  Qed.
End Maps.

Section Sparse.
  Variable R : cring.
  Variable req : R -> R -> bool.
  Hypothesis Hreq : forall x y, req x y = true <-> x = y.
  Variables (V : vbasis) (dim : Z) (key cnt : Z -> Z).
  Hypothesis HB : basis_ok V dim key cnt.
  Notation deg i := (k_degree (key i)).
  Notation depth := (vb_depth V).
  Notation sorted := (StronglySorted (klt R)).
  Notation valid k := (exists i, 0 <= i < dim /\ k = key i).

  Definition s_ok (m : svec R) : Prop := sorted m /\ forall e, In e m -> valid (fst e) /\ snd e <> r0.
  Definition s_cf (m : svec R) (i : Z) : R := s_get R (key i) m.
  Definition s_bnd (m : svec R) (d : Z) : Prop := forall e, In e m -> k_degree (fst e) <= d.

  Lemma req_false x y : req x y = false <-> x <> y.
  Proof.
    destruct (req x y) eqn:E; split; intros H; auto; try discriminate.
    - apply Hreq in E. congruence.
    - intros H'. apply Hreq in H'. congruence.
  Qed.
  Lemma s_set_ok m i x : s_ok m -> 0 <= i < dim -> x <> r0 -> s_ok (s_set R (key i) x m).
  Proof.
    intros [S H] Hi Hx. split; [apply s_set_sorted; auto|]. intros e He. apply s_set_in in He.
    destruct He as [->|He]; [|auto]. cbn. split; eauto.
  Qed.
  Lemma s_erase_ok m k : s_ok m -> s_ok (s_erase R k m).
  Proof. intros [S H]. split; [apply s_erase_sorted; auto|]. intros e He. apply H. eapply s_erase_in; eauto. Qed.
  Lemma s_cf_set m i x j : s_ok m -> 0 <= i < dim -> 0 <= j < dim -> s_cf (s_set R (key i) x m) j = if j =? i then x else s_cf m j.
  Proof. intros [S _] Hi Hj. unfold s_cf. rewrite s_get_set by auto. rewrite (key_eqb _ _ _ _ HB) by auto. reflexivity. Qed.
  Lemma s_cf_erase m i j : s_ok m -> 0 <= i < dim -> 0 <= j < dim -> s_cf (s_erase R (key i) m) j = if j =? i then r0 else s_cf m j.
  Proof. intros [S _] Hi Hj. unfold s_cf. rewrite s_get_erase by auto. rewrite (key_eqb _ _ _ _ HB) by auto. reflexivity. Qed.
  Lemma s_degree_bound m : (forall e, In e m -> 0 <= k_degree (fst e) <= depth) ->
    0 <= sv_degree R m <= depth /\ forall e, In e m -> k_degree (fst e) <= sv_degree R m.
  Proof.
    intros H. unfold sv_degree. assert (D0 := bo_depth _ _ _ _ HB).
    assert (G : forall m r, (forall e, In e m -> 0 <= k_degree (fst e) <= depth) -> 0 <= r <= depth ->
      let x := fold_left (fun r (e : Z * R) => if k_degree (fst e) >? r then k_degree (fst e) else r) m r in
      r <= x <= depth /\ forall e, In e m -> k_degree (fst e) <= x).
    { clear m H. induction m as [|e m IH]; intros r H Hr; cbn [fold_left]; [split; [lia|intros e []]|].
      assert (He := H e (or_introl eq_refl)). rewrite Z.gtb_ltb.
      destruct (Z.ltb_spec r (k_degree (fst e))) as [L|L].
      - destruct (IH (k_degree (fst e))) as [A B]; [intros; apply H; right; auto|lia|]. split; [lia|]. intros x [<-|Hx]; [lia|auto].
      - destruct (IH r) as [A B]; [intros; apply H; right; auto|lia|]. split; [lia|]. intros x [<-|Hx]; [lia|auto]. }
    apply (G m 0); auto. lia.
  Qed.
  Lemma s_ok_deg m : s_ok m -> forall e, In e m -> 0 <= k_degree (fst e) <= depth.
  Proof. intros [_ H] e He. destruct (H e He) as [(i & Hi & ->) _]. apply (bo_deg _ _ _ _ HB); auto. Qed.
  Lemma sv_upd_ok m i f : s_ok m -> 0 <= i < dim -> exists m', sv_upd R req m (key i) f = Ok m' /\ s_ok m' /\
    (forall j, 0 <= j < dim -> s_cf m' j = if j =? i then f (s_cf m i) else s_cf m j) /\
    (forall d, s_bnd m d -> deg i <= d <= depth -> s_bnd m' d).
  Proof.
    intros Hm Hi. unfold sv_upd. fold (s_get R (key i) m). fold (s_cf m i). eexists; split; [reflexivity|].
    destruct (req (f (s_cf m i)) r0) eqn:E.
    - apply Hreq in E. split; [apply s_erase_ok; auto|]. split.
      + intros j Hj. rewrite s_cf_erase by auto. destruct (j =? i); congruence.
      + intros d Hd _ e He. apply Hd. eapply s_erase_in; eauto.
    - apply req_false in E. split; [apply s_set_ok; auto|]. split.
      + intros j Hj. rewrite s_cf_set by auto. reflexivity.
      + intros d Hd Hd2 e He. apply s_set_in in He. destruct He as [->|He]; [cbn; lia|auto].
  Qed.
  Lemma sv_ibinary_ok a b op : s_ok a -> s_ok b -> (forall x, op x r0 = x) -> (forall y, op r0 y = r0 -> y = r0) ->
    s_ok (sv_ibinary R req op a b) /\ (forall i, 0 <= i < dim -> s_cf (sv_ibinary R req op a b) i = op (s_cf a i) (s_cf b i)) /\
    (forall d, s_bnd a d -> s_bnd b d -> s_bnd (sv_ibinary R req op a b) d).
  Proof.
    intros Ha Hb Hop Hnz. unfold sv_ibinary. revert a Ha. induction b as [|[q y] b IH]; intros a Ha; cbn [fold_left].
    - split; [auto|]. split; [|auto]. intros i Hi. cbn. symmetry. apply Hop.
    - destruct Hb as [Sb Vb]. destruct (Vb _ (or_introl eq_refl)) as [(i & Hi & Eq) Ny]. cbn [fst snd] in *. subst q.
      pose proof (StronglySorted_inv Sb) as [Sb' Fb].
      set (a' := match s_find R (key i) a with Some x => let y0 := op x y in if req y0 r0 then s_erase R (key i) a else s_set R (key i) y0 a
                 | None => s_set R (key i) (op r0 y) a end).
      assert (A' : s_ok a' /\ (forall j, 0 <= j < dim -> s_cf a' j = if j =? i then op (s_cf a i) y else s_cf a j) /\
        (forall d, s_bnd a d -> deg i <= d -> s_bnd a' d)).
      { unfold a'. unfold s_cf at 2, s_get at 1. destruct (s_find R (key i) a) as [x|] eqn:E.
        - cbn zeta. destruct (req (op x y) r0) eqn:Ez.
          + apply Hreq in Ez. split; [apply s_erase_ok; auto|]. split.
            * intros j Hj. rewrite s_cf_erase by auto. destruct (j =? i); congruence.
            * intros d Hd _ e He. apply Hd. eapply s_erase_in; eauto.
          + apply req_false in Ez. split; [apply s_set_ok; auto|]. split.
            * intros j Hj. apply s_cf_set; auto.
            * intros d Hd Hd2 e He. apply s_set_in in He. destruct He as [->|He]; [cbn; lia|auto].
        - split; [apply s_set_ok; auto; intros C; apply Hnz in C; auto|]. split.
          + intros j Hj. apply s_cf_set; auto.
          + intros d Hd Hd2 e He. apply s_set_in in He. destruct He as [->|He]; [cbn; lia|auto]. }
      destruct A' as (Ok' & Cf' & Bd'). clearbody a'.
      destruct (IH (conj Sb' (fun e He => Vb e (or_intror He))) a' Ok') as (A & B & C).
      split; [exact A|]. split.
      + intros j Hj. rewrite B, Cf' by auto.
        assert (Ec : s_cf ((key i, y) :: b) j = if j =? i then y else s_cf b j).
        { unfold s_cf, s_get. cbn [s_find]. rewrite (key_eqb _ _ _ _ HB) by auto. rewrite (Z.eqb_sym i j). destruct (j =? i); reflexivity. }
        rewrite Ec. destruct (Z.eqb_spec j i) as [->|].
        * replace (s_cf b i) with (@r0 R); [apply Hop|]. unfold s_cf, s_get. rewrite s_find_lt; auto.
        * reflexivity.
      + intros d Xa Xb. apply C; [apply Bd'; auto; apply (Xb (key i, y)); left; auto|]. intros e He. apply Xb. right; auto.
  Qed.

  Lemma sparse_good : vgood R (svec R) (sparse_ops R req) depth dim key s_ok s_cf s_bnd.
  Proof.
    assert (Dp := bo_depth _ _ _ _ HB).
    constructor; cbn [sparse_ops vo_new vo_empty vo_clear vo_degree vo_update_degree vo_single vo_upd vo_items vo_unary vo_binary vo_ibinary vo_eqb].
    - split; [split; [constructor|intros e []]|]. split; [reflexivity|]. split; [intros d _ e []|reflexivity].
    - intros [|] _ H; [reflexivity|discriminate].
    - intros v _. split; [split; [constructor|intros e []]|]. split; [reflexivity|intros d _ e []].
    - intros v Hv. apply s_degree_bound. apply s_ok_deg; auto.
    - intros v d i Hv Hd _ Hi Hlt. unfold s_cf, s_get. destruct (s_find R (key i) v) as [x|] eqn:E; [|reflexivity].
      apply s_find_in in E. specialize (Hd _ E). cbn in Hd. lia.
    - intros v d Hv Hd _. auto.
    - intros i s Hi. unfold sv_single. eexists; split; [reflexivity|]. destruct (req s r0) eqn:E.
      + apply Hreq in E. subst s. split; [split; [constructor|intros e []]|]. split; [|intros d _ e []].
        intros j _. cbn. destruct (j =? i); reflexivity.
      + apply req_false in E. split; [split; [repeat constructor|intros e [<-|[]]; cbn; eauto]|]. split.
        * intros j Hj. unfold s_cf, s_get. cbn [s_find]. rewrite (key_eqb _ _ _ _ HB) by auto. rewrite (Z.eqb_sym i j). destruct (j =? i); reflexivity.
        * intros d Hd e [<-|[]]. cbn [fst]. lia.
    - intros v i f Hv Hi. apply sv_upd_ok; auto.
    - intros v Hv. destruct Hv as [S H].
      assert (G : exists l : list (Z * R), v = map (fun e => (key (fst e), snd e)) l /\ (forall e, In e l -> 0 <= fst e < dim)).
      { clear S. induction v as [|[k x] v IH]; [exists []; split; [reflexivity|intros e []]|].
        destruct IH as (l & -> & Hl); [intros e He; apply H; right; auto|].
        destruct (H _ (or_introl eq_refl)) as [(i & Hi & Ek) _]. cbn in Ek. exists ((i, x) :: l). split; [cbn; congruence|].
        intros e [<-|He]; auto. }
      destruct G as (l & -> & Hl). exists l. split; [reflexivity|]. split; [auto|]. split; [|split].
      + intros a b l1 l2 -> Hb. rewrite map_app in S. cbn [map] in S.
        assert (S2 : sorted ((key (fst a), snd a) :: map (fun e => (key (fst e), snd e)) l2)).
        { revert S. generalize (map (fun e : Z * R => (key (fst e), snd e)) l1). intros m. induction m; cbn; auto.
          intros Q. apply StronglySorted_inv in Q. tauto. }
        apply StronglySorted_inv in S2. destruct S2 as [_ F]. rewrite Forall_forall in F.
        specialize (F (key (fst b), snd b)). unfold klt in F. cbn [fst] in F.
        assert (X : key (fst a) < key (fst b)). { apply F. apply in_map_iff. exists b. auto. }
        assert (Ra : 0 <= fst a < dim) by (apply Hl; apply in_or_app; right; left; auto).
        assert (Rb : 0 <= fst b < dim) by (apply Hl; apply in_or_app; right; right; auto).
        destruct (Z.lt_trichotomy (fst a) (fst b)) as [|[E|E]]; auto; [rewrite E in X; lia|].
        assert (Y := bo_lt _ _ _ _ HB (fst b) (fst a)). lia.
      + intros d Hd _ e He. apply (Hd (key (fst e), snd e)). apply in_map_iff. eauto.
      + intros i Hi. unfold s_cf. rewrite s_get_sum by auto. rewrite sum_map. cbn [fst snd]. apply sum_ext.
        intros e He. rewrite (key_eqb _ _ _ _ HB) by auto. reflexivity.
    - intros v f [S H] Hf. unfold sv_unary.
      assert (P : forall e, In e (filter (fun e => negb (req (snd e) r0)) (map (fun e : Z * R => (fst e, f (snd e))) v)) ->
         snd e <> r0 /\ exists x, In (fst e, x) v /\ snd e = f x).
      { intros e He. apply filter_In in He. destruct He as [He N]. apply in_map_iff in He. destruct He as (x & <- & Hx).
        cbn [fst snd] in *. split; [|exists (snd x); split; [destruct x; auto|reflexivity]].
        apply negb_true_iff in N. apply req_false in N. auto. }
      split; [split|split].
      + clear P H. induction v as [|[q y] v IH]; [constructor|]. apply StronglySorted_inv in S. destruct S as [S F].
        cbn [map filter fst snd]. destruct (negb (req (f y) r0)); [|apply IH; auto]. constructor; [apply IH; auto|].
        rewrite Forall_forall in *. intros e He. apply filter_In in He. destruct He as [He _]. apply in_map_iff in He. destruct He as (x & <- & Hx).
        unfold klt. cbn. apply (F x Hx).
      + intros e He. destruct (P e He) as [N (x & Hx & _)]. split; [|auto]. apply (H _ Hx).
      + intros i Hi. unfold s_cf. clear P H. unfold s_get. induction v as [|[q y] v IH]; [cbn; auto|].
        apply StronglySorted_inv in S. destruct S as [S F]. cbn [map filter fst snd s_find].
        destruct (req (f y) r0) eqn:E; cbn [negb s_find].
        * destruct (Z.eqb_spec q (key i)) as [->|]; [|apply IH; auto]. apply Hreq in E. rewrite E.
          rewrite s_find_lt; [reflexivity|]. apply Forall_forall. intros e He. apply filter_In in He. destruct He as [He _].
          apply in_map_iff in He. destruct He as (x & <- & Hx). rewrite Forall_forall in F. apply (F x Hx).
        * destruct (Z.eqb_spec q (key i)) as [->|]; [reflexivity|apply IH; auto].
      + intros d Hd e He. destruct (P e He) as [N (x & Hx & _)]. apply (Hd _ Hx).
    - intros a b op Ha Hb Hop Hnz. apply sv_ibinary_ok; auto.
    - intros a b op Ha Hb Hop Hnz. apply sv_ibinary_ok; auto.
    - intros a b Ha Hb. unfold sv_eqb. rewrite andb_true_iff, Nat.eqb_eq, forallb_forall. split.
      + intros [L H] i Hi. destruct Ha as [Sa Va], Hb as [Sb Vb].
        assert (I : incl b a).
        { intros [k x] He. specialize (H _ He). cbn [fst snd] in H. destruct (s_find R k a) as [y|] eqn:E; [|discriminate].
          apply Hreq in H. subst y. apply s_find_in in E. auto. }
        assert (ND : NoDup b).
        { clear - Sb. induction b as [|e b IH]; constructor.
          - intros C. apply StronglySorted_inv in Sb. destruct Sb as [_ F]. rewrite Forall_forall in F. specialize (F e C). unfold klt in F. lia.
          - apply StronglySorted_inv in Sb. tauto. }
        assert (I' : incl a b) by (apply NoDup_length_incl; auto; rewrite L; reflexivity).
        unfold s_cf, s_get. destruct (s_find R (key i) a) as [x|] eqn:Ea.
        * apply s_find_in in Ea. apply I' in Ea. apply (s_in_find _ _ _ _ Sb) in Ea. rewrite Ea. reflexivity.
        * destruct (s_find R (key i) b) as [x|] eqn:Eb; [|reflexivity]. apply s_find_in in Eb. apply I in Eb.
          apply (s_in_find _ _ _ _ Sa) in Eb. congruence.
      + intros H. assert (E : a = b); [|subst; split; [reflexivity|]].
        { destruct Ha as [Sa Va], Hb as [Sb Vb]. apply (s_ext R); auto. intros k.
          assert (Q : forall k x m, (forall e, In e m -> valid (fst e) /\ snd e <> r0) -> s_find R k m = Some x -> valid k /\ x <> r0).
          { intros k' x m Hm E. apply s_find_in in E. apply (Hm _ E). }
          destruct (s_find R k a) as [x|] eqn:Ea; destruct (s_find R k b) as [y|] eqn:Eb; auto.
          - destruct (Q _ _ _ Va Ea) as [(i & Hi & ->) _]. specialize (H i Hi). unfold s_cf, s_get in H. rewrite Ea, Eb in H. congruence.
          - destruct (Q _ _ _ Va Ea) as [(i & Hi & ->) N]. specialize (H i Hi). unfold s_cf, s_get in H. rewrite Ea, Eb in H. congruence.
          - destruct (Q _ _ _ Vb Eb) as [(i & Hi & ->) N]. specialize (H i Hi). unfold s_cf, s_get in H. rewrite Ea, Eb in H. congruence. }
        intros [k x] He. cbn [fst snd]. rewrite (s_in_find _ _ _ _ (proj1 Hb) He). apply Hreq. reflexivity.
  Qed.
End Sparse.
