(** Programs over free tensor objects compute in the truncated tensor algebra. *)
From Verif Require Export LhSpec AntiProofs.
Open Scope Z_scope.

Lemma firstn_S_nth {A} (l : list A) k d : (k < length l)%nat -> firstn (S k) l = firstn k l ++ [nth k l d].
Proof.
  revert k. induction l as [|a l IH]; intros k H; cbn [length] in H; [lia|]. destruct k as [|k]; [reflexivity|].
  cbn [firstn nth app]. f_equal. apply IH. lia.
Qed.
Lemma nth_map_zseq {A} (f : Z -> A) m : forall s k d, nth k (map f (zseq s m)) d = if (k <? m)%nat then f (s + Z.of_nat k) else d.
Proof.
  induction m as [|m IH]; intros s k d; cbn [zseq map]; [destruct k; reflexivity|]. destruct k as [|k]; cbn [nth].
  - change (0 <? S m)%nat with true. cbv iota. f_equal. lia.
  - rewrite IH. change (S k <? S m)%nat with (k <? m)%nat. destruct (k <? m)%nat; [f_equal; lia|reflexivity].
Qed.
Section Folds.
  Context {R : Type}.
  Definition put (i : Z) (acc : R) (e : Z * R) : R := if fst e =? i then snd e else acc.
  Lemma fold_put_none l i (a : R) : (forall e, In e l -> fst e <> i) -> fold_left (put i) l a = a.
  Proof.
    revert a. induction l as [|e l IH]; intros a H; cbn [fold_left]; [reflexivity|]. rewrite IH by (intros; apply H; right; auto).
    unfold put. specialize (H e (or_introl eq_refl)). destruct (Z.eqb_spec (fst e) i); [congruence|reflexivity].
  Qed.
End Folds.
Lemma fold_put_sum (R : cring) (l : list (Z * R)) i : (forall a b l1 l2, l = l1 ++ a :: l2 -> In b l2 -> fst a < fst b) ->
  fold_left (put i) l r0 = sum l (fun e => if fst e =? i then snd e else r0).
Proof.
  destruct (rth R) as [A1 A2 _ _ _ _ _ _ _].
  induction l as [|e l IH]; intros Hs; cbn [fold_left sum]; [reflexivity|].
  assert (Hs' : forall a b l1 l2, l = l1 ++ a :: l2 -> In b l2 -> fst a < fst b) by (intros a b l1 l2 E Hb; apply (Hs a b (e :: l1) l2); [rewrite E; reflexivity|auto]).
  destruct (Z.eqb_spec (fst e) i) as [E|E].
  - assert (Hn : forall e', In e' l -> fst e' <> i) by (intros e' He'; specialize (Hs e e' [] l eq_refl He'); lia).
    rewrite fold_put_none by auto. unfold put. rewrite E, Z.eqb_refl. rewrite (sum_zero R l).
    + rewrite A2, A1. reflexivity.
    + intros e' He'. specialize (Hn e' He'). destruct (Z.eqb_spec (fst e') i); [congruence|reflexivity].
  - rewrite A1, <- IH by auto. unfold put at 2. destruct (Z.eqb_spec (fst e) i); [congruence|reflexivity].
Qed.
Lemma sorted_length (l : list Z) m : (forall a b l1 l2, l = l1 ++ a :: l2 -> In b l2 -> a < b) -> (forall i, In i l -> 0 <= i < m) -> Z.of_nat (length l) <= Z.max 0 m.
Proof.
  intros Hs Hi. assert (Nd : NoDup l).
  { clear Hi. induction l as [|a l IH]; constructor.
    - intros Ha. specialize (Hs a a [] l eq_refl Ha). lia.
    - apply IH. intros x b l1 l2 E Hb. apply (Hs x b (a :: l1) l2); [rewrite E; reflexivity|auto]. }
  assert (L := NoDup_incl_length Nd (l' := zrange m) ltac:(intros i H; apply zrange_In, Hi; auto)).
  unfold zrange in L. assert (Ls : length (zseq 0 (Z.to_nat m)) = Z.to_nat m) by (clear; generalize 0; induction (Z.to_nat m); intros; cbn [zseq length]; auto).
  lia.
Qed.

Section Objects.
  Variable R : qalg.
  Add Ring Rr9 : (rth (qr R)).
  Variable req : R -> R -> bool.
  Hypothesis Hreq : forall x y, req x y = true <-> x = y.
  Hypothesis R10 : @r1 R <> r0.
  Variables (w N : Z) (B : tbasis).
  Hypothesis HP : packs w N.
  Hypothesis HS : sized w N.
  Hypothesis HT : tb_ok w N B.
  Hypothesis HN1 : 1 <= N.
  Variable ctxs : Z -> tbasis.
  Variable c0 : Z.
  Hypothesis Hc0 : ctxs c0 = B.
  Notation V := (tensor_vb B).
  Notation n := (Z.to_nat N).
  Notation tensor := (tens R Z).
  Notation dops := (dense_ops R req V).
  Notation sops := (sparse_ops R req).
  Notation dim := (tdim w N).
  Notation dfr := (d_fr R w N).
  Notation dst := (d_st R w N).
  Notation dcf := (wcf R w N (dv_at R)).
  Notation sok := (s_ok R dim (tkey B)).
  Notation scf := (wcf R w N (s_cf R (tkey B))).
  Let TD := dense_tgood R req Hreq w N B HP HS HT.
  Let TS := sparse_tgood R req Hreq w N B HP HS HT.
  Let W : 0 < w := Hw w N HP.
  Let XN : 0 <= N < 255 := HN w N HP.
  Notation tr := (trunc R w n).
  Lemma depthN : tb_depth B = Z.of_nat n. Proof. rewrite (depth_N w N B HT). lia. Qed.
  Lemma n_pos : (0 < n)%nat. Proof. lia. Qed.
  Lemma total_size : tb_size B (-1) = Ok dim.
  Proof. unfold tb_size. change (-1 >=? 0) with false. cbn [negb]. rewrite (depth_N w N B HT). apply (size_at w N); auto. lia. Qed.

  (** ** Construction *)
  Section Construct.
    Variables (X : Type) (O : vops R X) (fma : X -> X -> X -> (R -> R) -> Z -> unit -> outcome (X * unit)) (rtd : X -> Z -> outcome X)
      (fr st : X -> Prop) (cf : X -> list Z -> R).
    Hypothesis T : tgood R X O fma rtd w n fr st cf.
    Lemma construct_ok keys data :
      match keys with None => True | Some ks => length ks = length data /\ Forall (fun i => 0 <= i < dim) ks end ->
      exists v, construct_impl R B O keys data = Ok v /\ fr v /\ forall u, cf v u = tr (fun u => given R w n keys data (pos w u)) u.
    Proof.
      intros Hk. unfold construct_impl. rewrite total_size. cbn [bind]. assert (D := dim_pos w N HP).
      set (size := Z.min (Z.of_nat (length data)) dim).
      set (part := fun (m : nat) (i : Z) => match keys with
          | None => if i <? Z.of_nat m then nth (Z.to_nat i) data r0 else r0
          | Some ks => fold_left (put i) (firstn m (combine ks data)) r0 end).
      destruct (for_inv (fun done v => fr v /\ forall u, cf v u = tr (fun u => part (length done) (pos w u)) u) (zrange size) (vo_new O)
        (fun i r => let! k := match keys with Some ks => index_to_key B (nth (Z.to_nat i) ks 0) | None => index_to_key B i end in
                    vo_upd O r k (fun _ => nth (Z.to_nat i) data r0))) as (v & E & Fv & Cv).
      - destruct (t_new _ _ _ _ _ _ _ _ _ _ T) as (A & C & _). split; [auto|]. intros u. rewrite C. unfold trunc. destruct (inside w n u) eqn:Hu; [|reflexivity].
        subst part. cbv beta. destruct keys as [ks|]; [reflexivity|]. cbn [length]. change (Z.of_nat 0) with 0.
        assert (Q := pos_dim w N HP u Hu). destruct (Z.ltb_spec (pos w u) 0); [lia|reflexivity].
      - intros done i rest r E [Fr Cr]. apply zrange_split in E. destruct E as [Ei Hi].
        set (p := match keys with Some ks => nth (Z.to_nat i) ks 0 | None => i end).
        assert (Hp : 0 <= p < dim).
        { subst p. destruct keys as [ks|]; [|lia]. destruct Hk as [Hl Hf]. rewrite Forall_forall in Hf. apply Hf, nth_In. lia. }
        destruct (tpos w N HP p Hp) as (u & Hu & Hlu & Eu).
        assert (Ek : match keys with Some ks => index_to_key B (nth (Z.to_nat i) ks 0) | None => index_to_key B i end = Ok (wkey w u)).
        { transitivity (index_to_key B p); [subst p; destruct keys; reflexivity|]. rewrite Eu. apply (index_to_key_ok w N); auto. lia. }
        rewrite Ek. cbn [bind].
        assert (Iu : inside w n u = true) by (apply inside_iff; auto).
        destruct (t_word _ _ _ _ _ _ _ _ _ _ T r u (fun _ => nth (Z.to_nat i) data r0) (t_sub _ _ _ _ _ _ _ _ _ _ T r Fr) Iu) as (r' & E' & Fr' & Cr').
        exists r'. split; [exact E'|]. split; [auto|]. intros u'. rewrite Cr', Cr. unfold trunc.
        rewrite app_length. cbn [length]. rewrite Nat.add_1_r.
        destruct (list_eq_dec Z.eq_dec u' u) as [->|Hne].
        + rewrite Iu. rewrite <- Eu. subst part p. cbv beta. destruct keys as [ks|].
          * destruct Hk as [Hl _]. assert (Hn : (length done < length (combine ks data))%nat) by (rewrite combine_length; lia).
            rewrite (firstn_S_nth _ _ (0, r0)) by exact Hn. rewrite fold_left_app. cbn [fold_left]. unfold put at 1.
            rewrite combine_nth by auto. cbn [fst snd]. replace (length done) with (Z.to_nat i) by lia. rewrite Z.eqb_refl. reflexivity.
          * destruct (Z.ltb_spec i (Z.of_nat (S (length done)))); [reflexivity|lia].
        + destruct (inside w n u') eqn:Iu'; [|reflexivity].
          assert (Hpn : p <> pos w u').
          { intros Ep. apply Hne. apply inside_iff in Iu'. eapply pos_inj; [apply W|apply Iu'|exact Hu|]. congruence. }
          subst part p. cbv beta. destruct keys as [ks|].
          * destruct Hk as [Hl _]. assert (Hn : (length done < length (combine ks data))%nat) by (rewrite combine_length; lia).
            rewrite (firstn_S_nth _ _ (0, r0)) by exact Hn. rewrite fold_left_app. cbn [fold_left]. unfold put at 2.
            rewrite combine_nth by auto. cbn [fst snd]. replace (length done) with (Z.to_nat i) by lia.
            destruct (Z.eqb_spec (nth (Z.to_nat i) ks 0) (pos w u')); [congruence|reflexivity].
          * assert (Q := pos_dim w N HP u' Iu'). destruct (Z.ltb_spec (pos w u') (Z.of_nat (length done))), (Z.ltb_spec (pos w u') (Z.of_nat (S (length done)))); try lia; reflexivity.
      - exists v. split; [exact E|]. split; [auto|]. intros u. rewrite Cv. unfold trunc. destruct (inside w n u) eqn:Iu; [|reflexivity].
        assert (Q := pos_dim w N HP u Iu). subst part. cbv beta. unfold given.
        assert (Lz : length (zrange size) = Z.to_nat size) by (unfold zrange; generalize 0; induction (Z.to_nat size); intros; cbn [zseq length]; auto).
        rewrite Lz. destruct keys as [ks|].
        + change (words_below w (S n)) with dim. destruct Hk as [Hl _]. f_equal.
          destruct (Z_le_gt_dec (Z.of_nat (length data)) dim).
          * rewrite !firstn_all2; [reflexivity| |]; rewrite combine_length; lia.
          * f_equal. lia.
        + destruct (Z.ltb_spec (pos w u) (Z.of_nat (Z.to_nat size))); [reflexivity|]. rewrite nth_overflow; [reflexivity|]. lia.
    Qed.
  End Construct.

  (** ** Stored data *)
  Definition drep (k : kind) (d : tdata R) (t : tensor) : Prop :=
    match k with
    | KNull => False
    | KSparse => exists v, d = Sp v /\ sok v /\ forall u, scf v u = t u
    | KDense => exists v, d = Dn v /\ dfr v /\ forall u, dcf v u = t u
    | KCleared => exists v, d = Dn v /\ dst v /\ forall u, dcf v u = t u
    end.
  Lemma drep_ext k d t t' : (forall u, t u = t' u) -> drep k d t -> drep k d t'.
  Proof. intros H. destruct k; cbn; auto; intros (v & E & A & C); exists v; (split; [auto|]); (split; [auto|]); intros u; rewrite C; auto. Qed.
  Lemma drep_cleared k d t : drep k d t -> drep (cleared k) d t.
  Proof. destruct k; cbn; auto. intros (v & E & A & C). exists v. split; [auto|]. split; [apply fr_st; auto|auto]. Qed.
  Lemma drep_dense k d t : kdense k = true -> drep k d t -> exists v, d = Dn v /\ dst v /\ (k = KDense -> dfr v) /\ forall u, dcf v u = t u.
  Proof.
    intros Hk H. destruct k; try discriminate; destruct H as (v & E & A & C); exists v; (split; [auto|]); (split; [first [assumption|apply fr_st; assumption]|]); (split; [intros; try discriminate; auto|auto]).
  Qed.
  Lemma drep_out k d t u : drep k d t -> inside w n u = false -> t u = r0.
  Proof. intros H Hu. destruct k; cbn in H; [tauto|..]; destruct H as (v & _ & _ & C); rewrite <- C; unfold wcf; rewrite Hu; reflexivity. Qed.
  Lemma sparse_items v : sok v -> exists l, v = map (fun e => (wkey w (fst e), snd e)) l /\ (forall e, In e l -> inside w n (fst e) = true) /\
     (forall a b l1 l2, l = l1 ++ a :: l2 -> In b l2 -> pos w (fst a) < pos w (fst b)) /\
     (forall u, scf v u = sum l (fun e => if list_eq_dec Z.eq_dec (fst e) u then snd e else r0)).
  Proof. intros Hv. destruct (t_items _ _ _ _ _ _ _ _ _ _ TS v Hv) as (l & E & A). exists l. cbn in E. injection E as E. split; auto. Qed.
  Lemma omap_map {A A' C} (f : A -> outcome C) (g : A' -> A) (h : A' -> C) l : (forall a, In a l -> f (g a) = Ok (h a)) -> omap f (map g l) = Ok (map h l).
  Proof. induction l as [|a l IH]; intros H; cbn [omap map]; [reflexivity|]. rewrite H by (left; auto). cbn [bind]. rewrite IH by (intros; apply H; right; auto). reflexivity. Qed.
  Lemma sum_words l u : (forall e, In e l -> inside w n (fst e) = true) -> inside w n u = true ->
    sum l (fun e => if list_eq_dec Z.eq_dec (fst e) u then snd e else r0) = sum (map (fun e => (pos w (fst e), snd e)) l) (fun e : Z * R => if fst e =? pos w u then snd e else r0).
  Proof.
    intros Hl Hu. induction l as [|e l IH]; cbn [map sum fst snd]; [reflexivity|]. rewrite IH by (intros; apply Hl; right; auto). f_equal.
    specialize (Hl e (or_introl eq_refl)). destruct (list_eq_dec Z.eq_dec (fst e) u) as [->|Hne]; [rewrite Z.eqb_refl; reflexivity|].
    destruct (Z.eqb_spec (pos w (fst e)) (pos w u)) as [E|]; [|reflexivity]. exfalso. apply Hne. apply inside_iff in Hu. apply inside_iff in Hl.
    eapply pos_inj; [apply W| | |exact E]; tauto.
  Qed.
  (** The data handed over for a conversion describe the tensor. *)
  Lemma populate_ok k d t : drep k d t -> exists ks data, populate R B d = Ok (ks, data) /\
    match ks with None => True | Some ks => length ks = length data /\ Forall (fun i => 0 <= i < dim) ks end /\
    forall u, tr (fun u => given R w n ks data (pos w u)) u = t u.
  Proof.
    intros H. destruct (kdense k) eqn:Ek.
    - destruct (drep_dense k d t Ek H) as (v & -> & Sv & _ & C). unfold populate. do 2 eexists. split; [reflexivity|]. split; [exact I|].
      intros u. rewrite <- C. unfold trunc, wcf. destruct (inside w n u) eqn:Hu; [|reflexivity].
      assert (Q := pos_dim w N HP u Hu). cbn [given]. rewrite (at_len R v). destruct (Z.ltb_spec (pos w u) (blen (dv_data v))) as [H1|H1].
      + unfold zrange. rewrite nth_map_zseq. destruct (Nat.ltb_spec (Z.to_nat (pos w u)) (Z.to_nat (blen (dv_data v)))); [f_equal; lia|lia].
      + unfold zrange. rewrite nth_map_zseq. destruct (Nat.ltb_spec (Z.to_nat (pos w u)) (Z.to_nat (blen (dv_data v)))); [lia|reflexivity].
    - destruct k; try discriminate; [destruct H|]. destruct H as (v & -> & Sv & C). unfold populate.
      destruct (sparse_items v Sv) as (l & -> & Hl & Hs & Cs).
      rewrite (omap_map _ _ (fun e => pos w (fst e))).
      2:{ intros e He. cbn [fst]. apply Hl, inside_iff in He. apply (key_to_index_ok w N); auto; [tauto|lia]. }
      cbn [bind]. destruct l as [|e0 l'] eqn:El.
      + do 2 eexists. split; [reflexivity|]. split; [exact I|]. intros u. rewrite <- C. unfold trunc, wcf. destruct (inside w n u); [|reflexivity].
        cbn. destruct (Z.to_nat (pos w u)); reflexivity.
      + rewrite <- El in *. assert (Ne : sv_empty R (map (fun e => (wkey w (fst e), snd e)) l) = false) by (rewrite El; reflexivity). rewrite Ne. clear Ne El.
        assert (Hm : forall a b l1 l2, map (fun e : list Z * R => (pos w (fst e), snd e)) l = l1 ++ a :: l2 -> In b l2 -> fst a < fst b).
        { clear - Hs. induction l as [|e l IH]; intros a b l1 l2 E Hb; [destruct l1; discriminate|]. destruct l1 as [|x l1]; cbn [map app] in E.
          - injection E as <- <-. apply in_map_iff in Hb. destruct Hb as (e' & <- & He'). cbn [fst]. apply (Hs e e' [] l eq_refl He').
          - injection E as _ E. apply (IH) with (l1 := l1) (l2 := l2); auto. intros a' b' m1 m2 E' Hb'. apply (Hs a' b' (e :: m1) m2); [rewrite E'; reflexivity|auto]. }
        do 2 eexists. split; [reflexivity|]. split.
        * split; [rewrite !map_length; reflexivity|]. apply Forall_forall. intros i Hi. apply in_map_iff in Hi. destruct Hi as (e & <- & He). apply (pos_dim w N HP). auto.
        * intros u. rewrite <- C, Cs. unfold trunc. destruct (inside w n u) eqn:Hu.
          -- rewrite sum_words by auto. rewrite <- fold_put_sum by exact Hm. cbn [given]. fold (put (R := R) (pos w u)).
             assert (Ec : combine (map (fun e => pos w (fst e)) l) (map snd (map (fun e => (wkey w (fst e), snd e)) l)) = map (fun e => (pos w (fst e), snd e)) l).
             { clear. induction l as [|e l IH]; cbn [map combine fst snd]; [reflexivity|]. rewrite IH. reflexivity. }
             rewrite Ec. rewrite firstn_all2; [reflexivity|].
             assert (Q := sorted_length (map (fun e => pos w (fst e)) l) dim).
             rewrite map_length in *. assert (D := dim_pos w N HP). cut (Z.of_nat (length l) <= Z.max 0 dim); [unfold tdim in *; lia|]. apply Q.
             ++ intros a b l1 l2 E Hb. 
                assert (E2 : map fst (map (fun e : list Z * R => (pos w (fst e), snd e)) l) = l1 ++ a :: l2) by (rewrite map_map; exact E).
                apply map_eq_app in E2. destruct E2 as (m1 & m2 & Em & E1 & E2). apply map_eq_cons in E2. destruct E2 as (x & m3 & -> & <- & <-).
                apply in_map_iff in Hb. destruct Hb as (y & <- & Hy). apply (Hm x y m1 m3 Em Hy).
             ++ intros i Hi. apply in_map_iff in Hi. destruct Hi as (e & <- & He). apply (pos_dim w N HP). auto.
          -- symmetry. apply sum_zero. intros e He. destruct (list_eq_dec Z.eq_dec (fst e) u) as [<-|]; [|reflexivity]. rewrite Hl in Hu by auto. discriminate.
  Qed.
  Lemma to_dense_ok k d t : drep k d t -> exists v, to_dense R req B d = Ok v /\ dst v /\ (k <> KCleared -> dfr v) /\ forall u, dcf v u = t u.
  Proof.
    intros H. destruct (kdense k) eqn:Ek.
    - destruct (drep_dense k d t Ek H) as (v & -> & Sv & Fv & C). exists v. split; [reflexivity|]. split; [auto|]. split; [|auto]. intros Hk. apply Fv. destruct k; try discriminate; congruence.
    - destruct (populate_ok k d t H) as (ks & data & E & Hk & C). destruct k; try discriminate; [destruct H|]. destruct H as (v & -> & Sv & _).
      unfold to_dense. rewrite E. cbn [bind]. destruct (construct_ok _ _ _ _ _ _ _ TD ks data Hk) as (x & Ex & Fx & Cx). exists x. split; [exact Ex|].
      split; [apply fr_st; auto|]. split; [auto|]. intros u. rewrite Cx, C. reflexivity.
  Qed.
  Lemma to_sparse_ok k d t : drep k d t -> exists v, to_sparse R req B d = Ok v /\ sok v /\ forall u, scf v u = t u.
  Proof.
    intros H. destruct (kdense k) eqn:Ek.
    - destruct (populate_ok k d t H) as (ks & data & E & Hk & C). destruct (drep_dense k d t Ek H) as (v & -> & Sv & _).
      unfold to_sparse. rewrite E. cbn [bind]. destruct (construct_ok _ _ _ _ _ _ _ TS ks data Hk) as (x & Ex & Fx & Cx). exists x. split; [exact Ex|].
      split; [auto|]. intros u. rewrite Cx, C. reflexivity.
    - destruct k; try discriminate; [destruct H|]. destruct H as (v & -> & Sv & C). exists v. auto.
  Qed.

  (** ** Operations on stored data *)
  Definition ext1 (F : tensor -> tensor) : Prop := forall a a', (forall u, a u = a' u) -> forall u, F a u = F a' u.
  Definition ext2 (F : tensor -> tensor -> tensor) : Prop := forall a a' b b', (forall u, a u = a' u) -> (forall u, b u = b' u) -> forall u, F a b u = F a' b' u.
  Lemma un_ok (F : tensor -> tensor) fd fs k k' a t : ext1 F ->
    (forall x, kdense k = true -> dst x -> (k = KDense -> dfr x) -> exists z, fd x = Ok z /\ dst z /\ (k' = KDense -> dfr z) /\ forall u, dcf z u = F (dcf x) u) ->
    (forall x, kdense k = false -> sok x -> exists z, fs x = Ok z /\ sok z /\ forall u, scf z u = F (scf x) u) ->
    kdense k' = kdense k -> k' <> KNull -> drep k a t -> exists d, un R fd fs a = Ok d /\ drep k' d (F t).
  Proof.
    intros HF Hd Hs Ek Nk H. destruct (kdense k) eqn:Kd.
    - destruct (drep_dense k a t Kd H) as (x & -> & Sx & Fx & C). destruct (Hd x eq_refl Sx Fx) as (z & Ez & Sz & Fz & Cz). cbn [un]. rewrite Ez. cbn [bind].
      exists (Dn z). split; [reflexivity|]. assert (Cz' : forall u, dcf z u = F t u) by (intros u; rewrite Cz; apply HF; auto).
      destruct k'; try discriminate; cbn; exists z; auto.
    - destruct k; try discriminate; [destruct H|]. destruct H as (x & -> & Sx & C). destruct (Hs x eq_refl Sx) as (z & Ez & Sz & Cz). cbn [un]. rewrite Ez. cbn [bind].
      exists (Sp z). split; [reflexivity|]. assert (Cz' : forall u, scf z u = F t u) by (intros u; rewrite Cz; apply HF; auto).
      destruct k'; try discriminate; [congruence|]. exists z. auto.
  Qed.
  Lemma bin_ok (F : tensor -> tensor -> tensor) fd fs k kb k' a b ta tb : ext2 F ->
    (forall x y, kdense k = true -> dst x -> (k = KDense -> dfr x) -> dst y -> (kb <> KCleared -> dfr y) -> exists z, fd x y = Ok z /\ dst z /\ (k' = KDense -> dfr z) /\ forall u, dcf z u = F (dcf x) (dcf y) u) ->
    (forall x y, kdense k = false -> sok x -> sok y -> exists z, fs x y = Ok z /\ sok z /\ forall u, scf z u = F (scf x) (scf y) u) ->
    kdense k' = kdense k -> k' <> KNull -> drep k a ta -> drep kb b tb -> exists d, bin R req B fd fs a b = Ok d /\ drep k' d (F ta tb).
  Proof.
    intros HF Hd Hs Ek Nk H Hb. destruct (kdense k) eqn:Kd.
    - destruct (drep_dense k a ta Kd H) as (x & -> & Sx & Fx & C). destruct (to_dense_ok kb b tb Hb) as (y & Ey & Sy & Fy & Cy).
      destruct (Hd x y eq_refl Sx Fx Sy Fy) as (z & Ez & Sz & Fz & Cz). cbn [bin]. rewrite Ey. cbn [bind]. rewrite Ez. cbn [bind].
      exists (Dn z). split; [reflexivity|]. assert (Cz' : forall u, dcf z u = F ta tb u) by (intros u; rewrite Cz; apply HF; auto).
      destruct k'; try discriminate; cbn; exists z; auto.
    - destruct k; try discriminate; [destruct H|]. destruct H as (x & -> & Sx & C). destruct (to_sparse_ok kb b tb Hb) as (y & Ey & Sy & Cy).
      destruct (Hs x y eq_refl Sx Sy) as (z & Ez & Sz & Cz). cbn [bin]. rewrite Ey. cbn [bind]. rewrite Ez. cbn [bind].
      exists (Sp z). split; [reflexivity|]. assert (Cz' : forall u, scf z u = F ta tb u) by (intros u; rewrite Cz; apply HF; auto).
      destruct k'; try discriminate; [congruence|]. exists z. auto.
  Qed.
  Lemma tr_eq {X} (cf : X -> list Z -> R) z f : (forall v u, inside w n u = false -> cf v u = r0) -> (forall u, inside w n u = true -> cf z u = f u) -> forall u, cf z u = tr f u.
  Proof. intros H0 H1 u. unfold trunc. destruct (inside w n u) eqn:E; auto. Qed.
  Lemma tr_ext f g : (forall u, f u = g u) -> forall u, tr f u = tr g u.
  Proof. intros H u. unfold trunc. destruct (inside w n u); auto. Qed.
  Lemma conv_ext (a a' b b' : tensor) : (forall u, a u = a' u) -> (forall u, b u = b' u) -> forall u, conv a b u = conv a' b' u.
  Proof. intros H1 H2 u. unfold conv. apply sum_ext. intros k _. rewrite H1, H2. reflexivity. Qed.
  Lemma texp_ext (a a' : tensor) : (forall u, a u = a' u) -> forall u, texp n a u = texp n a' u.
  Proof. intros H u. apply (tpoly_local R Z). auto. Qed.
  Lemma log_ext (a a' : tensor) : (forall u, a u = a' u) -> forall u, tlog1p n a u = tlog1p n a' u.
  Proof. intros H u. apply (tpoly_local R Z). auto. Qed.
  Lemma nocst_ext (a a' : tensor) : (forall u, a u = a' u) -> forall u, nocst R a u = nocst R a' u.
  Proof. intros H [|x u]; cbn; auto. Qed.

  Lemma neg0 : ropp (@r0 R) = r0. Proof. ring. Qed.
  Lemma mul0s s : rmul (@r0 R) s = r0. Proof. ring. Qed.
  Lemma add_r0 x : radd x (@r0 R) = x. Proof. ring. Qed.
  Lemma sub_r0 x : rsub x (@r0 R) = x. Proof. ring. Qed.
  Lemma add_0r y : radd (@r0 R) y = r0 -> y = r0. Proof. intros <-. ring. Qed.
  Lemma sub_0r y : rsub (@r0 R) y = r0 -> y = r0. Proof. intros H. transitivity (ropp (rsub (@r0 R) y)); [ring|]. rewrite H. ring. Qed.

  Lemma td_unary_ok (f : R -> R) k a t : f r0 = r0 -> k <> KNull -> drep k a t ->
    exists d, un R (fun x => Ok (vo_unary dops f x)) (fun x => Ok (vo_unary sops f x)) a = Ok d /\ drep k d (fun u => f (t u)).
  Proof.
    intros F0 Nk H. apply (un_ok (fun t u => f (t u))) with (k := k); auto.
    - intros x x' E u. rewrite E. reflexivity.
    - intros x _ Sx Fx. destruct (t_unary _ _ _ _ _ _ _ _ _ _ TD x f Sx F0) as (S1 & F1 & C1). eexists. split; [reflexivity|]. auto.
    - intros x _ Sx. destruct (t_unary _ _ _ _ _ _ _ _ _ _ TS x f Sx F0) as (S1 & F1 & C1). eexists. split; [reflexivity|]. auto.
  Qed.
  Lemma td_neg_ok k a t : k <> KNull -> drep k a t -> exists d, td_neg R req B a = Ok d /\ drep k d (fun u => ropp (t u)).
  Proof. intros Nk H. apply (td_unary_ok (fun x => ropp x)); auto. apply neg0. Qed.
  Lemma td_smul_ok s k a t : k <> KNull -> drep k a t -> exists d, td_smul R req B s a = Ok d /\ drep k d (fun u => rmul (t u) s).
  Proof. intros Nk H. apply (td_unary_ok (fun x => rmul x s)); auto. apply mul0s. Qed.

  Lemma td_binary_ok (op : R -> R -> R) k kb a b ta tb : (forall x, op x r0 = x) -> (forall y, op r0 y = r0 -> y = r0) -> k <> KCleared -> (k = KDense -> kb <> KCleared) ->
    drep k a ta -> drep kb b tb -> exists d, bin R req B (fun x y => Ok (vo_binary dops op x y)) (fun x y => Ok (vo_binary sops op x y)) a b = Ok d /\ drep k d (fun u => op (ta u) (tb u)).
  Proof.
    intros O1 O2 K2 K3 Ha Hb.
    assert (K1 : k <> KNull) by (intros ->; destruct Ha).
    apply (bin_ok (fun a b u => op (a u) (b u))) with (k := k) (kb := kb); auto.
    - intros x x' y y' E E' u. rewrite E, E'. reflexivity.
    - intros x y Kd Sx Fx Sy Fy. assert (Ed : k = KDense) by (destruct k; try discriminate; congruence).
      destruct (t_binary _ _ _ _ _ _ _ _ _ _ TD x y op (Fx Ed) (Fy (K3 Ed)) O1 O2) as (F1 & C1).
      eexists. split; [reflexivity|]. split; [apply fr_st; auto|]. auto.
    - intros x y _ Sx Sy. destruct (t_binary _ _ _ _ _ _ _ _ _ _ TS x y op Sx Sy O1 O2) as (F1 & C1).
      eexists. split; [reflexivity|]. auto.
  Qed.
  Lemma td_ibin_ok (op : R -> R -> R) k kb a b ta tb : (forall x, op x r0 = x) -> (forall y, op r0 y = r0 -> y = r0) ->
    drep k a ta -> drep kb b tb -> exists d, td_ibin R req B op false a b = Ok d /\ drep k d (fun u => op (ta u) (tb u)).
  Proof.
    intros O1 O2 Ha Hb.
    assert (K1 : k <> KNull) by (intros ->; destruct Ha).
    apply (bin_ok (fun a b u => op (a u) (b u))) with (k := k) (kb := kb); auto.
    - intros x x' y y' E E' u. rewrite E, E'. reflexivity.
    - intros x y Kd Sx Fx Sy Fy. destruct (t_ibinary _ _ _ _ _ _ _ _ _ _ TD x y op Sx Sy O1 O2) as (F1 & C1 & F2 & _).
      eexists. split; [reflexivity|]. auto.
    - intros x y _ Sx Sy. destruct (t_ibinary _ _ _ _ _ _ _ _ _ _ TS x y op Sx Sy O1 O2) as (F1 & C1 & _).
      eexists. split; [reflexivity|]. auto.
  Qed.
  (** [x += x] and dense [x -= x] *)
  Lemma td_ibin_self_ok (op : R -> R -> R) k a ta : (forall x, op x r0 = x) -> (forall y, op r0 y = r0 -> y = r0) -> (kdense k = false -> forall x, op x x = r0 -> x = r0) ->
    drep k a ta -> exists d, td_ibin R req B op true a a = Ok d /\ drep k d (fun u => op (ta u) (ta u)).
  Proof.
    intros O1 O2 O3 Ha.
    assert (K1 : k <> KNull) by (intros ->; destruct Ha).
    destruct (kdense k) eqn:Kd.
    - destruct (td_ibin_ok op k k a a ta ta O1 O2 Ha Ha) as (d & E & Hd). exists d. split; [|auto]. destruct (drep_dense k a ta Kd Ha) as (x & -> & _). exact E.
    - destruct (td_ibin_ok op k k a a ta ta O1 O2 Ha Ha) as (d & E & Hd). exists d. split; [|auto]. destruct k; try discriminate; [congruence|]. destruct Ha as (x & -> & Sx & _).
      cbn in *. unfold sv_iself. replace (existsb _ x) with false; [exact E|]. symmetry. apply not_true_iff_false. intros X. apply existsb_exists in X. destruct X as ((i & v) & Hi & X). cbn in X.
      apply Hreq in X. apply (O3 eq_refl) in X. destruct Sx as (_ & Sx). apply (Sx _ Hi). exact X.
  Qed.
  Lemma td_mul_ok k kb a b ta tb : drep k a ta -> drep kb b tb -> exists d, td_mul R req B a b = Ok d /\ drep (fresh k) d (tr (conv ta tb)).
  Proof.
    intros Ha Hb. assert (K1 : k <> KNull) by (intros ->; destruct Ha).
    apply (bin_ok (fun a b => tr (conv a b))) with (k := k) (kb := kb); auto.
    - intros x x' y y' E E' u. apply tr_ext, conv_ext; auto.
    - intros x y Kd Sx Fx Sy Fy. destruct (op_mul_ok _ _ _ _ _ _ _ _ _ _ TD (tb_depth B) x y) as (z & E & Fz & C); auto using n_pos, depthN; try (rewrite depthN; lia).
      rewrite E. exists z. split; [reflexivity|]. split; [apply fr_st; auto|]. split; [auto|]. apply tr_eq; auto. apply (t_out _ _ _ _ _ _ _ _ _ _ TD).
    - intros x y Kd Sx Sy. destruct (op_mul_ok _ _ _ _ _ _ _ _ _ _ TS (tb_depth B) x y) as (z & E & Fz & C); auto using n_pos, depthN; try (rewrite depthN; lia).
      rewrite E. exists z. split; [reflexivity|]. split; [auto|]. apply tr_eq; auto. apply (t_out _ _ _ _ _ _ _ _ _ _ TS).
    - destruct k; auto.
    - destruct k; try congruence; discriminate.
  Qed.
  Lemma td_imul_ok k kb a b ta tb : drep k a ta -> drep kb b tb -> exists d, td_imul R req B a b = Ok d /\ drep (cleared k) d (tr (conv ta tb)).
  Proof.
    intros Ha Hb. assert (K1 : k <> KNull) by (intros ->; destruct Ha).
    apply (bin_ok (fun a b => tr (conv a b))) with (k := k) (kb := kb); auto.
    - intros x x' y y' E E' u. apply tr_ext, conv_ext; auto.
    - intros x y Kd Sx Fx Sy Fy. destruct (op_imul_ok _ _ _ _ _ _ _ _ _ _ TD (tb_depth B) x y) as (z & E & Fz & _ & _ & C); auto using n_pos, depthN; try (rewrite depthN; lia).
      rewrite E. exists z. split; [reflexivity|]. split; [auto|]. split; [destruct k; discriminate|]. apply tr_eq; auto. apply (t_out _ _ _ _ _ _ _ _ _ _ TD).
    - intros x y Kd Sx Sy. destruct (op_imul_ok _ _ _ _ _ _ _ _ _ _ TS (tb_depth B) x y) as (z & E & Fz & _ & _ & C); auto using n_pos, depthN; try (rewrite depthN; lia).
      rewrite E. exists z. split; [reflexivity|]. split; [auto|]. apply tr_eq; auto. apply (t_out _ _ _ _ _ _ _ _ _ _ TS).
    - destruct k; auto.
    - destruct k; try congruence; discriminate.
  Qed.
  Lemma td_exp_ok k a t : drep k a t -> exists d, td_exp R req B a = Ok d /\ drep (fresh k) d (tr (texp n t)).
  Proof.
    intros Ha. assert (K1 : k <> KNull) by (intros ->; destruct Ha).
    apply (un_ok (fun a => tr (texp n a))) with (k := k); auto.
    - intros x x' E u. apply tr_ext, texp_ext; auto.
    - intros x Kd Sx Fx. destruct (exp_ok _ _ _ _ _ _ _ _ _ _ TD R10 x Sx) as (z & E & Fz & C).
      rewrite depthN, E. exists z. split; [reflexivity|]. split; [apply fr_st; auto|]. split; [auto|]. apply tr_eq; auto. apply (t_out _ _ _ _ _ _ _ _ _ _ TD).
    - intros x Kd Sx. destruct (exp_ok _ _ _ _ _ _ _ _ _ _ TS R10 x Sx) as (z & E & Fz & C).
      rewrite depthN, E. exists z. split; [reflexivity|]. split; [auto|]. apply tr_eq; auto. apply (t_out _ _ _ _ _ _ _ _ _ _ TS).
    - destruct k; auto.
    - destruct k; try congruence; discriminate.
  Qed.
  Lemma td_antipode_ok k a t : (kdense k = true -> (exists u, t u <> r0) /\ (w < 2 ^ 16 \/ (n <= 2)%nat)) -> drep k a t ->
    exists d, td_antipode R req B a = Ok d /\ drep (fresh k) d (anti t).
  Proof.
    intros Hm Ha. assert (K1 : k <> KNull) by (intros ->; destruct Ha). destruct (kdense k) eqn:Kd.
    - destruct (Hm eq_refl) as [[u0 Hu0] Hs]. destruct (drep_dense k a t Kd Ha) as (v & -> & Sv & _ & C).
      destruct (dv_antipode_ok R w N B HP HT v Sv) as (x & E & Fx & Cx).
      { intros E0. apply Hu0. rewrite <- C. unfold wcf. destruct (inside w n u0) eqn:Hu; [|reflexivity]. rewrite (at_len R v). assert (Q := pos_dim w N HP u0 Hu). destruct (Z.ltb_spec (pos w u0) (blen (dv_data v))); [lia|reflexivity]. }
      { destruct Hs; [auto|right; lia]. }
      exists (Dn x). unfold td_antipode. cbn [un]. rewrite E. split; [reflexivity|].
      assert (K : fresh k = KDense) by (destruct k; try discriminate; reflexivity). rewrite K. exists x. split; [reflexivity|]. split; [auto|]. intros u. rewrite Cx. unfold anti. rewrite C. reflexivity.
    - destruct k; try discriminate; [congruence|]. destruct Ha as (v & -> & Sv & C). destruct (sv_antipode_ok R req Hreq w N B HP HS HT v Sv) as (x & E & Sx & Cx).
      exists (Sp x). unfold td_antipode. cbn [un]. rewrite E. split; [reflexivity|]. exists x. split; [reflexivity|]. split; [auto|]. intros u. rewrite Cx. unfold anti. rewrite C. reflexivity.
  Qed.
  Lemma td_log_ok k a t : drep k a t -> exists d, td_log R req B a = Ok d /\ drep (fresh k) d (tr (tlog1p n (nocst R t))).
  Proof.
    intros Ha. assert (K1 : k <> KNull) by (intros ->; destruct Ha).
    apply (un_ok (fun a => tr (tlog1p n (nocst R a)))) with (k := k); auto.
    - intros x x' E u. apply tr_ext, log_ext, nocst_ext; auto.
    - intros x Kd Sx Fx. destruct (log_ok _ _ _ _ _ _ _ _ _ _ TD x Sx) as (z & E & Fz & C).
      rewrite depthN, E. exists z. split; [reflexivity|]. split; [apply fr_st; auto|]. split; [auto|]. apply tr_eq; auto. apply (t_out _ _ _ _ _ _ _ _ _ _ TD).
    - intros x Kd Sx. destruct (log_ok _ _ _ _ _ _ _ _ _ _ TS x Sx) as (z & E & Fz & C).
      rewrite depthN, E. exists z. split; [reflexivity|]. split; [auto|]. apply tr_eq; auto. apply (t_out _ _ _ _ _ _ _ _ _ _ TS).
    - destruct k; auto.
    - destruct k; try congruence; discriminate.
  Qed.
  Lemma td_fmexp_ok k kb a b ta tb : drep k a ta -> drep kb b tb -> exists d, td_fmexp R req B a b = Ok d /\ drep (fresh k) d (tr (conv ta (texp n (nocst R tb)))).
  Proof.
    intros Ha Hb. assert (K1 : k <> KNull) by (intros ->; destruct Ha).
    apply (bin_ok (fun a b => tr (conv a (texp n (nocst R b))))) with (k := k) (kb := kb); auto.
    - intros x x' y y' E E' u. apply tr_ext, conv_ext; auto. apply texp_ext, nocst_ext. auto.
    - intros x y Kd Sx Fx Sy Fy. destruct (fmexp_ok _ _ _ _ _ _ _ _ _ _ TD x y Sx Sy) as (z & E & Fz & C).
      rewrite depthN, E. exists z. split; [reflexivity|]. split; [apply fr_st; auto|]. split; [auto|]. apply tr_eq; auto. apply (t_out _ _ _ _ _ _ _ _ _ _ TD).
    - intros x y Kd Sx Sy. destruct (fmexp_ok _ _ _ _ _ _ _ _ _ _ TS x y Sx Sy) as (z & E & Fz & C).
      rewrite depthN, E. exists z. split; [reflexivity|]. split; [auto|]. apply tr_eq; auto. apply (t_out _ _ _ _ _ _ _ _ _ _ TS).
    - destruct k; auto.
    - destruct k; try congruence; discriminate.
  Qed.

  (** ** Handles *)
  Notation handle := (handle R).
  Definition rep (k : kind) (h : handle) (t : tensor) : Prop :=
    match k with
    | KNull => h = None /\ forall u, t u = r0
    | _ => exists d, h = Some (mkImpl c0 d) /\ drep k d t
    end.
  Lemma rep_some k h t : k <> KNull -> rep k h t -> exists d, h = Some (mkImpl c0 d) /\ drep k d t.
  Proof. destruct k; cbn; auto; congruence. Qed.
  Lemma some_rep k d t : k <> KNull -> drep k d t -> rep k (Some (mkImpl c0 d)) t.
  Proof. intros Nk H. destruct k; [congruence|..]; exists d; auto. Qed.
  Lemma drep_null k d t : drep k d t -> k <> KNull. Proof. intros H ->. destruct H. Qed.
  Lemma rep_ext k h t t' : (forall u, t u = t' u) -> rep k h t -> rep k h t'.
  Proof.
    intros E H. destruct k; cbn in *.
    - destruct H as [H1 H2]. split; [auto|]. intros u. rewrite <- E. auto.
    - destruct H as (d & H1 & H2). exists d. split; [auto|]. apply (drep_ext KSparse d t t'); auto.
    - destruct H as (d & H1 & H2). exists d. split; [auto|]. apply (drep_ext KDense d t t'); auto.
    - destruct H as (d & H1 & H2). exists d. split; [auto|]. apply (drep_ext KCleared d t t'); auto.
  Qed.
  Lemma rep_out k h t u : rep k h t -> inside w n u = false -> t u = r0.
  Proof.
    intros H Hu. destruct k; cbn in H; [apply H|..]; destruct H as (d & _ & H); [apply (drep_out KSparse d t u H Hu)|apply (drep_out KDense d t u H Hu)|apply (drep_out KCleared d t u H Hu)].
  Qed.
  Lemma rep_tr k h t u : rep k h t -> tr t u = t u.
  Proof. intros H. unfold trunc. destruct (inside w n u) eqn:E; auto. symmetry. apply (rep_out k h); auto. Qed.
  Lemma chk a b : check_contexts R ctxs (Some (mkImpl c0 a)) (Some (mkImpl c0 b)) = Ok tt.
  Proof. cbn. rewrite Z.eqb_refl. reflexivity. Qed.
  Lemma i2 f a b d k t : f B a b = Ok d -> drep k d t -> exists h, impl2 R ctxs f (mkImpl c0 a) (mkImpl c0 b) = Ok h /\ rep k h t.
  Proof. intros E H. unfold impl2. cbn [im_ctx im_data]. rewrite Z.eqb_refl, Hc0, E. cbn [bind]. eexists. split; [reflexivity|]. apply some_rep; auto. apply (drep_null k d t H). Qed.
  Lemma i1 f a d k t : f B a = Ok d -> drep k d t -> exists h, impl1 R ctxs f (mkImpl c0 a) = Ok h /\ rep k h t.
  Proof. intros E H. unfold impl1. cbn [im_ctx im_data]. rewrite Hc0, E. cbn [bind]. eexists. split; [reflexivity|]. apply some_rep; auto. apply (drep_null k d t H). Qed.
  Lemma isz_true (s : R) : req s r0 = true -> s = r0. Proof. apply Hreq. Qed.
  Lemma isz_inv (s i : R) : rmul s i = r1 -> req s r0 = false.
  Proof. intros H. destruct (req s r0) eqn:E; auto. apply isz_true in E. exfalso. apply R10. rewrite <- H, E. ring. Qed.
  Lemma zero_like_ok k d t : drep k d t -> drep (fresh k) (td_zero_like R req B d) (fun _ => r0).
  Proof.
    intros H. assert (K1 := drep_null k d t H). destruct (kdense k) eqn:Kd.
    - destruct (drep_dense k d t Kd H) as (x & -> & _). destruct (t_new _ _ _ _ _ _ _ _ _ _ TD) as (F & C & _). destruct k; try discriminate; exists (vo_new dops); auto.
    - destruct k; try discriminate; [congruence|]. destruct H as (x & -> & _). destruct (t_new _ _ _ _ _ _ _ _ _ _ TS) as (F & C & _). exists (vo_new sops). auto.
  Qed.
  Lemma clear_ok k d t : drep k d t -> drep (cleared k) (td_clear R req B d) (fun _ => r0).
  Proof.
    intros H. assert (K1 := drep_null k d t H). destruct (kdense k) eqn:Kd.
    - destruct (drep_dense k d t Kd H) as (x & -> & Sx & _). destruct (t_clear _ _ _ _ _ _ _ _ _ _ TD x Sx) as (F & C). destruct k; try discriminate; exists (vo_clear dops x); auto.
    - destruct k; try discriminate; [congruence|]. destruct H as (x & -> & Sx & _). destruct (t_clear _ _ _ _ _ _ _ _ _ _ TS x Sx) as (F & C). exists (vo_clear sops x). auto.
  Qed.
  Lemma fresh_null k : k <> KNull -> fresh k <> KNull. Proof. destruct k; cbn; congruence. Qed.
  Lemma cleared_null k : k <> KNull -> cleared k <> KNull. Proof. destruct k; cbn; congruence. Qed.
  Lemma kcase k : k = KNull \/ k <> KNull. Proof. destruct k; auto; right; discriminate. Qed.
  Ltac null H := destruct H as [-> H].

  Lemma h_neg_ok k h t : rep k h t -> exists h', h_neg R req ctxs h = Ok h' /\ rep k h' (fun u => ropp (t u)).
  Proof.
    intros H. destruct (kcase k) as [->|Nk].
    - destruct H as [-> H]. exists None. split; [reflexivity|]. split; [auto|]. intros u. rewrite H. ring.
    - destruct (rep_some k h t Nk H) as (d & -> & Hd). destruct (td_neg_ok k d t Nk Hd) as (d' & E & Hd'). apply (i1 (td_neg R req) d d' k _ E Hd').
  Qed.
  Lemma h_smul_ok s k h t : rep k h t -> exists h', h_smul R req ctxs h s = Ok h' /\ rep (if req s r0 then fresh k else k) h' (fun u => rmul (t u) s).
  Proof.
    intros H. destruct (kcase k) as [->|Nk].
    - destruct H as [-> H]. exists None. split; [reflexivity|]. assert (A : rep KNull None (fun u => rmul (t u) s)) by (split; [auto|]; intros u; rewrite H; ring). destruct (req s r0); exact A.
    - destruct (rep_some k h t Nk H) as (d & -> & Hd). unfold h_smul. destruct (req s r0) eqn:Es.
      + eexists. split; [reflexivity|]. cbn [im_ctx im_data]. rewrite Hc0. apply some_rep; [apply fresh_null; auto|]. apply (drep_ext _ _ (fun _ => r0)); [intros u; rewrite (isz_true s Es); ring|]. apply (zero_like_ok k d t Hd).
      + destruct (td_smul_ok s k d t Nk Hd) as (d' & E & Hd'). apply (i1 (fun B => td_smul R req B s) d d' k _ E Hd').
  Qed.
  Lemma h_ismul_ok s k h t : rep k h t -> exists h', h_ismul R req ctxs h s = Ok h' /\ rep k h' (fun u => rmul (t u) s).
  Proof.
    intros H. destruct (kcase k) as [->|Nk].
    - destruct H as [-> H]. exists None. split; [reflexivity|]. split; [auto|]. intros u. rewrite H. ring.
    - destruct (rep_some k h t Nk H) as (d & -> & Hd). destruct (td_smul_ok s k d t Nk Hd) as (d' & E & Hd'). apply (i1 (fun B => td_smul R req B s) d d' k _ E Hd').
  Qed.
  Lemma h_sdiv_ok s i k h t : rmul s i = r1 -> rep k h t -> exists h', h_sdiv R req ctxs h s i = Ok h' /\ rep k h' (fun u => rmul (t u) i).
  Proof.
    intros Hs H. destruct (kcase k) as [->|Nk].
    - destruct H as [-> H]. exists None. split; [reflexivity|]. split; [auto|]. intros u. rewrite H. ring.
    - destruct (rep_some k h t Nk H) as (d & -> & Hd). unfold h_sdiv. rewrite (isz_inv s i Hs). destruct (td_smul_ok i k d t Nk Hd) as (d' & E & Hd'). apply (i1 (fun B => td_smul R req B i) d d' k _ E Hd').
  Qed.
  Lemma h_plus_ok (o : op2) k kb a b ta tb : o <> Times -> may2 o k kb -> rep k a ta -> rep kb b tb -> exists h, do2 R req ctxs o a b = Ok h /\ rep k h (sem2 R w n o ta tb).
  Proof.
    intros No Hm Ha Hb. destruct (kcase kb) as [->|Nb].
    - destruct Hb as [-> Hb]. exists a. destruct o; [| |congruence]; (split; [reflexivity|]); apply (rep_ext k a ta); auto; intros u; cbn; rewrite Hb; ring.
    - destruct (rep_some kb b tb Nb Hb) as (y & -> & Hy).
      assert (K : k <> KNull /\ k <> KCleared /\ (k = KDense -> kb <> KCleared)) by (destruct o, k, kb; cbn in Hm; repeat split; intros; try congruence; try tauto).
      destruct K as (K1 & K2 & K3). destruct (rep_some k a ta K1 Ha) as (x & -> & Hx).
      destruct o; [| |congruence]; cbn [do2 h_add h_sub]; rewrite chk; cbn [bind].
      + destruct (td_binary_ok (fun x y => radd x y) k kb x y ta tb) as (d & E & Hd); auto using add_r0, add_0r. apply (i2 (td_add R req) x y d k _ E Hd).
      + destruct (td_binary_ok (fun x y => rsub x y) k kb x y ta tb) as (d & E & Hd); auto using sub_r0, sub_0r. apply (i2 (td_sub R req) x y d k _ E Hd).
  Qed.
  Lemma h_mul_ok k kb a b ta tb : k <> KNull -> kb <> KNull -> rep k a ta -> rep kb b tb -> exists h, h_mul R req ctxs a b = Ok h /\ rep (fresh k) h (tr (conv ta tb)).
  Proof.
    intros Na Nb Ha Hb. destruct (rep_some kb b tb Nb Hb) as (y & -> & Hy). destruct (rep_some k a ta Na Ha) as (x & -> & Hx).
    unfold h_mul. rewrite chk. cbn [bind]. destruct (td_mul_ok k kb x y ta tb Hx Hy) as (d & E & Hd). apply (i2 (td_mul R req) x y d _ _ E Hd).
  Qed.
  Lemma h_imul_ok k kb a b ta tb : k <> KNull -> kb <> KNull -> rep k a ta -> rep kb b tb -> exists h, h_imul R req ctxs a b = Ok h /\ rep (cleared k) h (tr (conv ta tb)).
  Proof.
    intros Na Nb Ha Hb. destruct (rep_some kb b tb Nb Hb) as (y & -> & Hy). destruct (rep_some k a ta Na Ha) as (x & -> & Hx).
    unfold h_imul. rewrite chk. cbn [bind]. destruct (td_imul_ok k kb x y ta tb Hx Hy) as (d & E & Hd). apply (i2 (td_imul R req) x y d _ _ E Hd).
  Qed.
  Definition good_op (op : R -> R -> R) : Prop := (forall x, op x r0 = x) /\ (forall y, op r0 y = r0 -> y = r0).
  Lemma good_add : good_op (radd' R). Proof. split; [apply add_r0|apply add_0r]. Qed.
  Lemma good_sub : good_op (rsub' R). Proof. split; [apply sub_r0|apply sub_0r]. Qed.
  Lemma h_ibin_ok op self k kb a b ta tb : good_op op -> (self = true -> kb <> KNull -> a = b /\ k = kb /\ (forall u, ta u = tb u) /\ (kdense k = false -> forall x, op x x = r0 -> x = r0)) ->
    kb = KNull \/ k <> KNull -> rep k a ta -> rep kb b tb -> exists h, h_ibin R req ctxs op self a b = Ok h /\ rep k h (fun u => op (ta u) (tb u)).
  Proof.
    intros [O1 O2] Hs Hk Ha Hb. destruct (kcase kb) as [->|Nb].
    - destruct Hb as [-> Hb]. exists a. split; [reflexivity|]. apply (rep_ext k a ta); auto. intros u. rewrite Hb, O1. reflexivity.
    - destruct Hk as [Hk|Nk]; [congruence|]. destruct (rep_some kb b tb Nb Hb) as (y & -> & Hy). destruct (rep_some k a ta Nk Ha) as (x & -> & Hx).
      unfold h_ibin. rewrite chk. cbn [bind]. destruct self.
      + destruct (Hs eq_refl Nb) as (Exy & _ & Et & O3). injection Exy as <-. destruct (td_ibin_self_ok op k x ta O1 O2 O3 Hx) as (d & E & Hd).
        apply (i2 (fun B => td_ibin R req B op true) x x d k _ E). apply (drep_ext k d (fun u => op (ta u) (ta u))); auto. intros u. rewrite Et. reflexivity.
      + destruct (td_ibin_ok op k kb x y ta tb O1 O2 Hx Hy) as (d & E & Hd). apply (i2 (fun B => td_ibin R req B op false) x y d k _ E Hd).
  Qed.
  Lemma fused_ok op tmp k kb x ta tb : good_op op -> kb <> KNull -> drep k x ta -> (exists h, tmp = Ok h /\ rep kb h tb) -> exists h, fused R req ctxs op tmp (mkImpl c0 x) = Ok h /\ rep k h (fun u => op (ta u) (tb u)).
  Proof.
    intros [O1 O2] Nb Hx (h & -> & Hb). destruct (rep_some kb h tb Nb Hb) as (y & -> & Hy). unfold fused. cbn [bind].
    destruct (td_ibin_ok op k kb x y ta tb O1 O2 Hx Hy) as (d & E & Hd). apply (i2 (fun B => td_ibin R req B op false) x y d k _ E Hd).
  Qed.
  Lemma imul_tmp_ok tmp k kb x ta tb : kb <> KNull -> drep k x ta -> (exists h, tmp = Ok h /\ rep kb h tb) -> exists h, imul_tmp R req ctxs tmp (mkImpl c0 x) = Ok h /\ rep (cleared k) h (tr (conv ta tb)).
  Proof.
    intros Nb Hx (h & -> & Hb). destruct (rep_some kb h tb Nb Hb) as (y & -> & Hy). unfold imul_tmp. cbn [bind].
    destruct (td_imul_ok k kb x y ta tb Hx Hy) as (d & E & Hd). apply (i2 (td_imul R req) x y d _ _ E Hd).
  Qed.
  Lemma h_clear_ok k a t : rep k a t -> rep (cleared k) (h_clear R req ctxs a) (fun _ => r0).
  Proof.
    intros H. destruct (kcase k) as [->|Nk].
    - destruct H as [-> H]. split; auto.
    - destruct (rep_some k a t Nk H) as (d & -> & Hd). cbn [h_clear im_ctx im_data]. rewrite Hc0. apply some_rep; [apply cleared_null; auto|]. apply (clear_ok k d t Hd).
  Qed.
  Lemma conv_zero_r (a b : tensor) : (forall u, b u = r0) -> forall u, conv a b u = r0.
  Proof. intros H u. unfold conv. apply sum_zero. intros k _. rewrite H. ring. Qed.
  Lemma conv_zero_l (a b : tensor) : (forall u, a u = r0) -> forall u, conv a b u = r0.
  Proof. intros H u. unfold conv. apply sum_zero. intros k _. rewrite H. ring. Qed.
  Lemma tr_zero f : (forall u, f u = r0) -> forall u, tr f u = r0.
  Proof. intros H u. unfold trunc. destruct (inside w n u); auto. Qed.
  Lemma tpoly_zero f (x : tensor) u : (forall u, x u = r0) -> tpoly n f x u = rmul (f 0%nat) (tone u).
  Proof.
    intros Hx. unfold tpoly. rewrite (sum_seq_S _ 0 n). cbn [tpow]. rewrite sum_zero; [ring|].
    intros k Hk. apply in_seq in Hk. destruct k as [|k]; [lia|]. cbn [tpow]. rewrite conv_zero_l by auto. ring.
  Qed.
  Lemma nocst_zero (x : tensor) : (forall u, x u = r0) -> forall u, nocst R x u = r0.
  Proof. intros H [|a u]; cbn; auto. Qed.
  Lemma double_zero (x : R) : radd x x = r0 -> x = r0.
  Proof.
    intros H. assert (Q := qinv_ok R 2 ltac:(lia)). transitivity (rmul (radd x x) (@qinv R 2)); [|rewrite H; ring].
    transitivity (rmul x (rmul (rnat 2) (@qinv R 2))); [rewrite Q; ring|]. cbn [rnat]. ring.
  Qed.
  Lemma fused_smul_ok op s k kb a b ta tb : good_op op -> req s r0 = false -> k <> KNull -> kb <> KNull -> rep k a ta -> rep kb b tb ->
    forall x, a = Some x -> exists h, fused R req ctxs op (h_smul R req ctxs b s) x = Ok h /\ rep k h (fun u => op (ta u) (rmul (tb u) s)).
  Proof.
    intros Ho Es Nk Nb Ha Hb x E. destruct (rep_some k a ta Nk Ha) as (d & E' & Hd). rewrite E in E'. injection E' as ->.
    apply (fused_ok op _ k kb d ta (fun u => rmul (tb u) s) Ho Nb Hd). destruct (h_smul_ok s kb b tb Hb) as (h & Eh & Hh). rewrite Es in Hh. exists h. auto.
  Qed.
  Lemma ido2_ok (o : iop2 R) self k kb a b ta tb : imay2 R o self k kb -> (self = true -> a = b /\ k = kb /\ forall u, ta u = tb u) ->
    rep k a ta -> rep kb b tb -> exists h, ido2 R req ctxs o self a b = Ok h /\ rep (ikind2 R o k kb) h (isem2 R w n o ta tb).
  Proof.
    intros Hm Hs Ha Hb.
    destruct o; cbn [ido2 ikind2 isem2 imay2] in *.
    - apply (h_ibin_ok _ self k kb a b ta tb good_add); auto. intros Es _. destruct (Hs Es) as (A1 & A2 & A3). repeat split; auto. intros _ x. apply double_zero.
    - apply (h_ibin_ok _ self k kb a b ta tb good_sub); auto; [|tauto]. intros Es Nb. destruct (Hs Es) as (A1 & A2 & A3). repeat split; auto. intros Kd.
      exfalso. destruct Hm as [Hm|[H1 H2]]; [congruence|rewrite (H2 Es) in Kd; discriminate].
    - destruct Hm. apply (h_imul_ok k kb a b ta tb); auto.
    - destruct (kcase kb) as [->|Nb].
      { destruct Hb as [-> Hb]. exists a. split; [reflexivity|]. apply (rep_ext k a ta); auto. intros u. rewrite Hb. ring. }
      unfold h_add_scal_mul. destruct (rep_some kb b tb Nb Hb) as (y & -> & Hy). destruct (req s r0) eqn:Es.
      { exists a. split; [reflexivity|]. apply (rep_ext k a ta); auto. intros u. rewrite (isz_true s Es). ring. }
      assert (Nk : k <> KNull) by (destruct Hm as [|[Hm|]]; auto; try congruence; rewrite (proj2 (Hreq s r0) Hm) in Es; discriminate).
      destruct (rep_some k a ta Nk Ha) as (x & -> & Hx). rewrite chk. cbn [bind]. apply (fused_smul_ok _ s k kb _ _ ta tb good_add Es Nk Nb Ha Hb _ eq_refl).
    - destruct (kcase kb) as [->|Nb].
      { destruct Hb as [-> Hb]. exists a. split; [reflexivity|]. apply (rep_ext k a ta); auto. intros u. rewrite Hb. ring. }
      unfold h_sub_scal_mul. destruct (rep_some kb b tb Nb Hb) as (y & -> & Hy). destruct (req s r0) eqn:Es.
      { exists a. split; [reflexivity|]. apply (rep_ext k a ta); auto. intros u. rewrite (isz_true s Es). ring. }
      assert (Nk : k <> KNull) by (destruct Hm as [|[Hm|]]; auto; try congruence; rewrite (proj2 (Hreq s r0) Hm) in Es; discriminate).
      destruct (rep_some k a ta Nk Ha) as (x & -> & Hx). rewrite chk. cbn [bind]. apply (fused_smul_ok _ s k kb _ _ ta tb good_sub Es Nk Nb Ha Hb _ eq_refl).
    - destruct Hm as [Hi Hm]. destruct (kcase kb) as [->|Nb].
      { destruct Hb as [-> Hb]. exists a. split; [reflexivity|]. apply (rep_ext k a ta); auto. intros u. rewrite Hb. ring. }
      assert (Nk : k <> KNull) by (destruct Hm; auto; congruence).
      unfold h_add_scal_div. destruct (rep_some kb b tb Nb Hb) as (y & Ey & Hy). rewrite Ey. destruct (rep_some k a ta Nk Ha) as (x & -> & Hx). rewrite chk. cbn [bind]. rewrite (isz_inv _ _ Hi), <- Ey.
      apply (fused_ok _ _ k kb x ta (fun u => rmul (tb u) inv) good_add Nb Hx). apply h_sdiv_ok; auto.
    - destruct Hm as [Hi Hm]. destruct (kcase kb) as [->|Nb].
      { destruct Hb as [-> Hb]. exists a. split; [reflexivity|]. apply (rep_ext k a ta); auto. intros u. rewrite Hb. ring. }
      assert (Nk : k <> KNull) by (destruct Hm; auto; congruence).
      unfold h_sub_scal_div. destruct (rep_some kb b tb Nb Hb) as (y & Ey & Hy). rewrite Ey. destruct (rep_some k a ta Nk Ha) as (x & -> & Hx). rewrite chk. cbn [bind]. rewrite (isz_inv _ _ Hi), <- Ey.
      apply (fused_ok _ _ k kb x ta (fun u => rmul (tb u) inv) good_sub Nb Hx). apply h_sdiv_ok; auto.
    - destruct (kcase kb) as [->|Nb].
      { destruct Hb as [-> Hb]. eexists. split; [reflexivity|]. apply (rep_ext _ _ (fun _ => r0)); [|apply (h_clear_ok k a ta Ha)]. intros u. symmetry. apply tr_zero, conv_zero_r. intros v. rewrite Hb. ring. }
      unfold h_mul_smul. destruct (rep_some kb b tb Nb Hb) as (y & Ey & Hy). rewrite Ey. destruct (req s r0) eqn:Es.
      { eexists. split; [reflexivity|]. apply (rep_ext _ _ (fun _ => r0)); [|apply (h_clear_ok k a ta Ha)]. intros u. symmetry. apply tr_zero, conv_zero_r. intros v. rewrite (isz_true s Es). ring. }
      assert (Nk : k <> KNull) by (destruct Hm as [|[Hm|]]; auto; try congruence; rewrite (proj2 (Hreq s r0) Hm) in Es; discriminate).
      destruct (rep_some k a ta Nk Ha) as (x & -> & Hx). rewrite chk. cbn [bind]. rewrite <- Ey. apply (imul_tmp_ok _ k kb x ta (fun u => rmul (tb u) s) Nb Hx).
      destruct (h_smul_ok s kb b tb Hb) as (h & Eh & Hh). rewrite Es in Hh. exists h. auto.
    - destruct Hm as [Hi Hm]. destruct (kcase kb) as [->|Nb].
      { destruct Hb as [-> Hb]. eexists. split; [reflexivity|]. apply (rep_ext _ _ (fun _ => r0)); [|apply (h_clear_ok k a ta Ha)]. intros u. symmetry. apply tr_zero, conv_zero_r. intros v. rewrite Hb. ring. }
      assert (Nk : k <> KNull) by (destruct Hm; auto; congruence).
      unfold h_mul_sdiv. destruct (rep_some kb b tb Nb Hb) as (y & Ey & Hy). rewrite Ey. destruct (rep_some k a ta Nk Ha) as (x & -> & Hx). rewrite chk. cbn [bind]. rewrite (isz_inv _ _ Hi), <- Ey.
      apply (imul_tmp_ok _ k kb x ta (fun u => rmul (tb u) inv) Nb Hx). apply h_sdiv_ok; auto.
    - destruct (kcase kb) as [->|Nb].
      { destruct Hb as [-> Hb]. exists a. split; [destruct a; reflexivity|]. cbn [null]. apply (rep_ext k a (tr ta)); [|apply (rep_ext k a ta); auto; intros u; symmetry; apply (rep_tr k a); auto].
        intros u. apply tr_ext. intros v. transitivity (conv ta tone v); [symmetry; apply (conv_one_r (qr R) Z ta v)|]. apply conv_ext; auto. intros v'. unfold texp. rewrite tpoly_zero by (apply nocst_zero; auto). cbn [invfact]. ring. }
      replace (if null kb then k else fresh k) with (fresh k) by (destruct kb; [congruence|..]; reflexivity).
      destruct (kcase k) as [->|Nk].
      { destruct Ha as [-> Ha]. exists None. split; [reflexivity|]. split; [auto|]. apply tr_zero, conv_zero_l. auto. }
      destruct (rep_some kb b tb Nb Hb) as (y & -> & Hy). destruct (rep_some k a ta Nk Ha) as (x & -> & Hx). unfold h_fmexp.
      destruct (td_fmexp_ok k kb x y ta tb Hx Hy) as (d & E & Hd). apply (i2 (td_fmexp R req) x y d _ _ E Hd).
  Qed.
  Lemma do1_ok (o : op1 R) k a ta : may1 R w n o k ta -> rep k a ta -> exists h, do1 R req ctxs o a = Ok h /\ rep (kind1 R req o k) h (sem1 R w n o ta).
  Proof.
    intros Hm Ha. destruct o; cbn [do1 kind1 sem1 may1] in *.
    - exists a. auto.
    - apply h_neg_ok; auto.
    - apply h_smul_ok; auto.
    - apply h_sdiv_ok; auto.
    - destruct (rep_some k a ta Hm Ha) as (x & -> & Hx). destruct (td_exp_ok k x ta Hx) as (d & E & Hd). apply (i1 (td_exp R req) x d _ _ E Hd).
    - destruct (kcase k) as [->|Nk].
      { destruct Ha as [-> Ha]. exists None. split; [reflexivity|]. split; [auto|]. apply tr_zero. intros u. unfold tlog1p. rewrite tpoly_zero by (apply nocst_zero; auto). cbn [plog]. ring. }
      destruct (rep_some k a ta Nk Ha) as (x & -> & Hx). destruct (td_log_ok k x ta Hx) as (d & E & Hd). apply (i1 (td_log R req) x d _ _ E Hd).
    - destruct (kcase k) as [->|Nk].
      { destruct Ha as [-> Ha]. exists None. split; [reflexivity|]. split; [auto|]. intros u. unfold anti. rewrite Ha. ring. }
      destruct (rep_some k a ta Nk Ha) as (x & -> & Hx). destruct (td_antipode_ok k x ta Hm Hx) as (d & E & Hd). apply (i1 (td_antipode R req) x d _ _ E Hd).
  Qed.
  Lemma do2_ok (o : op2) k kb a b ta tb : may2 o k kb -> rep k a ta -> rep kb b tb -> exists h, do2 R req ctxs o a b = Ok h /\ rep (kind2 o k kb) h (sem2 R w n o ta tb).
  Proof.
    intros Hm Ha Hb. destruct o.
    - apply (h_plus_ok Plus k kb); auto. discriminate.
    - apply (h_plus_ok Minus k kb); auto. discriminate.
    - destruct Hm. apply (h_mul_ok k kb); auto.
  Qed.

  (** ** Programs *)
  Notation env := (env R).
  Notation senv := (senv R).
  Definition erep (ke : kenv) (e : env) (t : senv) : Prop := forall x, rep (ke x) (e x) (t x).
  Lemma erep_set ke e t x k h a : erep ke e t -> rep k h a -> erep (kset ke x k) (set_ R e x h) (sset R t x a).
  Proof. intros H Hr y. unfold kset, set_, sset. destruct (y =? x); auto. Qed.
  Lemma erep_set' ke e t x h a : erep ke e t -> rep (ke x) h a -> erep ke (set_ R e x h) (sset R t x a).
  Proof. intros H Hr y. unfold set_, sset. destruct (Z.eqb_spec y x) as [->|]; auto. Qed.
  Lemma step_ok k ke e t : may R w n c0 k ke t -> erep ke e t -> exists e', step R req ctxs k e = Ok e' /\ erep (kstep R req k ke) e' (sstep R w n k t).
  Proof.
    intros Hm H. destruct k; cbn [step kstep sstep may] in *.
    - destruct Hm as [-> Hk]. rewrite Hc0. destruct dense.
      + destruct (construct_ok _ _ _ _ _ _ _ TD keys data Hk) as (v & E & Fv & C). rewrite E. cbn [bind]. eexists. split; [reflexivity|]. apply erep_set; auto. exists (Dn v). split; [reflexivity|]. exists v. auto.
      + destruct (construct_ok _ _ _ _ _ _ _ TS keys data Hk) as (v & E & Fv & C). rewrite E. cbn [bind]. eexists. split; [reflexivity|]. apply erep_set; auto. exists (Sp v). split; [reflexivity|]. exists v. auto.
    - destruct (do1_ok o (ke y) (e y) (t y) Hm (H y)) as (h & E & Hh). rewrite E. cbn [bind]. eexists. split; [reflexivity|]. apply erep_set; auto.
    - destruct (do2_ok o (ke y) (ke z) (e y) (e z) (t y) (t z) Hm (H y) (H z)) as (h & E & Hh). rewrite E. cbn [bind]. eexists. split; [reflexivity|]. apply erep_set; auto.
    - destruct o; cbn [ido1 isem1 imay1] in *.
      + destruct (h_ismul_ok s (ke x) (e x) (t x) (H x)) as (h & E & Hh). rewrite E. cbn [bind]. eexists. split; [reflexivity|]. apply erep_set'; auto.
      + destruct (h_sdiv_ok s inv (ke x) (e x) (t x) Hm (H x)) as (h & E & Hh). unfold h_isdiv. rewrite E. cbn [bind]. eexists. split; [reflexivity|]. apply erep_set'; auto.
    - destruct (ido2_ok o (x =? y) (ke x) (ke y) (e x) (e y) (t x) (t y) Hm) as (h & E & Hh); auto.
      { intros Exy. apply Z.eqb_eq in Exy. subst y. auto. }
      rewrite E. cbn [bind]. eexists. split; [reflexivity|]. apply erep_set; auto.
    - unfold h_add_mul. assert (Hx := H x). assert (Hy := H y). assert (Hz := H z).
      destruct (kcase (ke y)) as [Ny|Ny].
      { rewrite Ny in Hy. destruct Hy as [-> Hy]. cbn [bind]. eexists. split; [reflexivity|]. apply erep_set'; auto. apply (rep_ext _ _ (t x)); auto. intros u. rewrite tr_zero; [ring|]. apply conv_zero_l. auto. }
      destruct (kcase (ke z)) as [Nz|Nz].
      { rewrite Nz in Hz. destruct Hz as [-> Hz]. destruct (e y); cbn [bind]; (eexists; split; [reflexivity|]; apply erep_set'; auto; apply (rep_ext _ _ (t x)); auto; intros u; rewrite tr_zero; [ring|]; apply conv_zero_r; auto). }
      assert (Nx : ke x <> KNull) by tauto. destruct (rep_some _ _ _ Ny Hy) as (dy & Ey & _). destruct (rep_some _ _ _ Nz Hz) as (dz & Ez & _). destruct (rep_some _ _ _ Nx Hx) as (dx & Ex & Hdx).
      destruct (h_mul_ok _ _ _ _ _ _ Ny Nz Hy Hz) as (p & Ep & Hp).
      destruct (fused_ok _ _ (ke x) (fresh (ke y)) dx (t x) (tr (conv (t y) (t z))) good_add (fresh_null _ Ny) Hdx (ex_intro _ p (conj Ep Hp))) as (h & E & Hh).
      rewrite Ex. rewrite Ey, Ez in E |- *. rewrite !chk. cbn [bind]. rewrite E. cbn [bind]. eexists. split; [reflexivity|]. apply erep_set'; auto.
    - unfold h_sub_mul. assert (Hx := H x). assert (Hy := H y). assert (Hz := H z).
      destruct (kcase (ke y)) as [Ny|Ny].
      { rewrite Ny in Hy. destruct Hy as [-> Hy]. cbn [bind]. eexists. split; [reflexivity|]. apply erep_set'; auto. apply (rep_ext _ _ (t x)); auto. intros u. rewrite tr_zero; [ring|]. apply conv_zero_l. auto. }
      destruct (kcase (ke z)) as [Nz|Nz].
      { rewrite Nz in Hz. destruct Hz as [-> Hz]. destruct (e y); cbn [bind]; (eexists; split; [reflexivity|]; apply erep_set'; auto; apply (rep_ext _ _ (t x)); auto; intros u; rewrite tr_zero; [ring|]; apply conv_zero_r; auto). }
      assert (Nx : ke x <> KNull) by tauto. destruct (rep_some _ _ _ Ny Hy) as (dy & Ey & _). destruct (rep_some _ _ _ Nz Hz) as (dz & Ez & _). destruct (rep_some _ _ _ Nx Hx) as (dx & Ex & Hdx).
      destruct (h_mul_ok _ _ _ _ _ _ Ny Nz Hy Hz) as (p & Ep & Hp).
      destruct (fused_ok _ _ (ke x) (fresh (ke y)) dx (t x) (tr (conv (t y) (t z))) good_sub (fresh_null _ Ny) Hdx (ex_intro _ p (conj Ep Hp))) as (h & E & Hh).
      rewrite Ex. rewrite Ey, Ez in E |- *. rewrite !chk. cbn [bind]. rewrite E. cbn [bind]. eexists. split; [reflexivity|]. apply erep_set'; auto.
  Qed.
  Theorem run_ok p : forall ke e t, covered R w n req c0 p ke t -> erep ke e t -> exists e', run R req ctxs p e = Ok e' /\ erep (krun R req p ke) e' (srun R w n p t).
  Proof.
    unfold run, krun, srun. induction p as [|k p IH]; intros ke e t Hc H; cbn [for_ fold_left].
    - exists e. auto.
    - destruct Hc as [Hm Hc]. destruct (step_ok k ke e t Hm H) as (e' & E & H'). rewrite E. cbn [bind]. apply IH; auto.
  Qed.

  (** ** What an object shows *)
  Lemma tdata_items k d t : drep k d t -> exists l, td_items R req B d = Ok (map (fun e => (pos w (fst e), snd e)) l) /\
    (forall e, In e l -> inside w n (fst e) = true /\ (kdense k = false -> snd e <> r0)) /\
    (forall a b l1 l2, l = l1 ++ a :: l2 -> In b l2 -> pos w (fst a) < pos w (fst b)) /\
    (forall u, t u = sum l (fun e => if list_eq_dec Z.eq_dec (fst e) u then snd e else r0)).
  Proof.
    intros H. destruct (kdense k) eqn:Kd.
    - destruct (drep_dense k d t Kd H) as (v & -> & Sv & _ & C). destruct (t_items _ _ _ _ _ _ _ _ _ _ TD v Sv) as (l & E & A1 & A2 & A3).
      exists l. split; [|split; [intros e He; split; [auto|discriminate]|split; [auto|intros u; rewrite <- C; apply A3]]].
      unfold td_items. rewrite E. cbn [bind]. apply omap_map. intros e He. cbn [fst snd]. apply A1, inside_iff in He. rewrite (key_to_index_ok w N) by (auto; try tauto; lia). reflexivity.
    - destruct k; try discriminate; [destruct H|]. destruct H as (v & -> & Sv & C). destruct (sparse_items v Sv) as (l & E & A1 & A2 & A3).
      exists l. split; [|split; [|split; [auto|intros u; rewrite <- C; apply A3]]].
      + unfold td_items. cbn [vo_items sparse_ops bind]. rewrite E. apply omap_map. intros e He. cbn [fst snd]. apply A1, inside_iff in He. rewrite (key_to_index_ok w N) by (auto; try tauto; lia). reflexivity.
      + intros e He. split; [auto|]. intros _. destruct Sv as [_ Sv]. apply (Sv (wkey w (fst e), snd e)). rewrite E. apply (in_map (fun e => (wkey w (fst e), snd e)) l e He).
  Qed.
  Lemma items_value (l : list (list Z * R)) e : (forall a b l1 l2, l = l1 ++ a :: l2 -> In b l2 -> pos w (fst a) < pos w (fst b)) -> In e l ->
    sum l (fun e' => if list_eq_dec Z.eq_dec (fst e') (fst e) then snd e' else r0) = snd e.
  Proof.
    intros Hs He. induction l as [|x l IH]; [destruct He|]. cbn [sum].
    assert (Hx : forall b, In b l -> fst b <> fst x) by (intros b Hb E; assert (Q := Hs x b [] l eq_refl Hb); rewrite E in Q; lia).
    destruct He as [->|He].
    - destruct (list_eq_dec Z.eq_dec (fst e) (fst e)); [|congruence]. rewrite sum_zero; [ring|]. intros b Hb. destruct (list_eq_dec Z.eq_dec (fst b) (fst e)) as [E|]; [destruct (Hx b Hb E)|reflexivity].
    - destruct (list_eq_dec Z.eq_dec (fst x) (fst e)) as [E|]; [destruct (Hx e He (eq_sym E))|]. rewrite IH; auto; [ring|]. intros a b l1 l2 E. apply (Hs a b (x :: l1) l2). rewrite E. reflexivity.
  Qed.
  Theorem items_ok k h t : rep k h t -> exists l, h_items R req ctxs h = Ok l /\
    (forall a b l1 l2, l = l1 ++ a :: l2 -> In b l2 -> fst a < fst b) /\
    (forall i x, In (i, x) l -> exists u, inside w n u = true /\ i = pos w u /\ x = t u /\ (kdense k = false -> x <> r0)) /\
    (forall u, inside w n u = true -> ~ In (pos w u) (map fst l) -> t u = r0).
  Proof.
    intros H. destruct (kcase k) as [->|Nk].
    - destruct H as [-> H]. exists []. split; [reflexivity|]. split; [intros a b [|] l2; discriminate|]. split; [intros i x []|auto].
    - destruct (rep_some k h t Nk H) as (d & -> & Hd). destruct (tdata_items k d t Hd) as (l & E & A1 & A2 & A3). unfold h_items. cbn [im_ctx im_data]. rewrite Hc0, E.
      eexists. split; [reflexivity|]. split; [|split].
      + intros a b l1 l2 El Hb. apply map_eq_app in El. destruct El as (m1 & m2 & Em & E1 & E2). apply map_eq_cons in E2. destruct E2 as (x & m3 & -> & <- & <-).
        apply in_map_iff in Hb. destruct Hb as (y & <- & Hy). cbn [fst]. apply (A2 x y m1 m3 Em Hy).
      + intros i x Hi. apply in_map_iff in Hi. destruct Hi as (e & Ee & He). injection Ee as <- <-. exists (fst e). destruct (A1 e He) as [B1 B2]. repeat split; auto. rewrite A3, items_value; auto.
      + intros u Hu Hn. rewrite A3. apply sum_zero. intros e He. destruct (list_eq_dec Z.eq_dec (fst e) u) as [<-|]; [|reflexivity]. exfalso. apply Hn. rewrite map_map. cbn [fst]. apply (in_map (fun x => pos w (fst x)) l e He).
  Qed.
  Theorem get_ok k h t u : rep k h t -> inside w n u = true -> kdense k = false \/ pos w u < h_dimension R h -> h_get R req ctxs h (pos w u) = Ok (t u).
  Proof.
    intros H Hu Hd. destruct (kcase k) as [->|Nk]; [destruct H as [-> H]; cbn; rewrite H; reflexivity|].
    destruct (rep_some k h t Nk H) as (d & -> & Hdd). unfold h_get. cbn [im_ctx im_data]. rewrite Hc0. unfold td_get. assert (Hu' := Hu). apply inside_iff in Hu'.
    rewrite (index_to_key_ok w N) by (auto; try tauto; lia). cbn [bind]. assert (Q := pos_dim w N HP u Hu). destruct (kdense k) eqn:Kd.
    - destruct Hd as [Hd|Hd]; [discriminate|]. destruct (drep_dense k d t Kd Hdd) as (v & -> & Sv & _ & C). cbn in Hd. cbn [vo_get dense_ops dv_get]. unfold dv_get. cbn [vb_index tensor_vb].
      rewrite (key_to_index_ok w N) by (auto; try tauto; lia). cbn [bind]. rewrite bget_ok by lia. f_equal. rewrite <- C. unfold wcf. rewrite Hu. rewrite (at_len R v).
      destruct (Z.ltb_spec (pos w u) (blen (dv_data v))); [reflexivity|lia].
    - destruct k; try discriminate; [congruence|]. destruct Hdd as (v & -> & Sv & C). cbn [vo_get sparse_ops]. unfold sv_get. f_equal. rewrite <- C. unfold wcf. rewrite Hu. unfold s_cf, s_get. rewrite (tkey_pos w N B) by (auto; tauto). reflexivity.
  Qed.
  (** The const subscript of a dense tensor reads past the end of its data. *)
  Theorem get_out k h t u : rep k h t -> kdense k = true -> inside w n u = true -> h_dimension R h <= pos w u -> h_get R req ctxs h (pos w u) = UB /\ t u = r0.
  Proof.
    intros H Kd Hu Hd. assert (Nk : k <> KNull) by (destruct k; discriminate). destruct (rep_some k h t Nk H) as (d & -> & Hdd). unfold h_get. cbn [im_ctx im_data]. rewrite Hc0. unfold td_get. assert (Hu' := Hu). apply inside_iff in Hu'.
    rewrite (index_to_key_ok w N) by (auto; try tauto; lia). cbn [bind]. destruct (drep_dense k d t Kd Hdd) as (v & -> & Sv & _ & C). cbn in Hd. split.
    - cbn [vo_get dense_ops dv_get]. unfold dv_get. cbn [vb_index tensor_vb]. rewrite (key_to_index_ok w N) by (auto; try tauto; lia). cbn [bind]. unfold bget.
      destruct (Z.leb_spec 0 (pos w u)), (Z.ltb_spec (pos w u) (blen (dv_data v))); try lia; reflexivity.
    - rewrite <- C. unfold wcf. rewrite Hu, (at_len R v). destruct (Z.ltb_spec (pos w u) (blen (dv_data v))); [lia|reflexivity].
  Qed.
  Theorem is_zero_ok k h t : rep k h t -> (h_is_zero R req h = true <-> forall u, t u = r0).
  Proof.
    intros H. destruct (kcase k) as [->|Nk]; [destruct H as [-> H]; cbn; split; auto|].
    destruct (rep_some k h t Nk H) as (d & -> & Hdd). cbn [h_is_zero im_data]. destruct (kdense k) eqn:Kd.
    - destruct (drep_dense k d t Kd Hdd) as (v & -> & Sv & _ & C). cbn [td_is_zero]. unfold dv_size. rewrite Z.eqb_eq.
      assert (L : blen (dv_data v) <= dim).
      { destruct Sv as [S1 [S2|S2]]; [|assert (D := dim_pos w N HP); lia]. rewrite S2. unfold tcnt, tdim. apply words_below_mono; auto; lia. }
      split.
      + intros E u. rewrite <- C. unfold wcf. destruct (inside w n u) eqn:Hu; [|reflexivity]. rewrite (at_len R v). destruct (Z.ltb_spec (pos w u) (blen (dv_data v))); [|reflexivity].
        destruct (req (bat (dv_data v) (pos w u)) r0) eqn:Ez; [apply isz_true; auto|]. exfalso. assert (Q := pos_dim w N HP u Hu).
        assert (I : In (pos w u) (filter (fun i => negb (req (bat (dv_data v) i) r0)) (zrange (blen (dv_data v))))).
        { apply filter_In. split; [apply zrange_In; lia|rewrite Ez; reflexivity]. }
        destruct (filter _ _); [destruct I|cbn in E; lia].
      + intros E. destruct (filter (fun i => negb (req (bat (dv_data v) i) r0)) (zrange (blen (dv_data v)))) as [|i l] eqn:F; [reflexivity|]. exfalso.
        assert (I : In i (i :: l)) by (left; auto). rewrite <- F in I. apply filter_In in I. destruct I as [I1 I2]. apply zrange_In in I1.
        destruct (tpos w N HP i) as (u & Hu & Hl & ->); [lia|]. assert (Hi : inside w n u = true) by (apply inside_iff; auto).
        specialize (E u). rewrite <- C in E. unfold wcf in E. rewrite Hi, (at_len R v) in E. destruct (Z.ltb_spec (pos w u) (blen (dv_data v))); [|lia].
        rewrite (proj2 (Hreq _ _) E) in I2. discriminate.
    - destruct k; try discriminate; [congruence|]. destruct Hdd as (v & -> & Sv & C). cbn [td_is_zero]. rewrite Z.eqb_eq. split.
      + intros E u. rewrite <- C. destruct v as [|e v]; [|cbn [length] in E; lia]. unfold wcf. destruct (inside w n u); reflexivity.
      + intros E. destruct (sparse_items v Sv) as (l & Ev & A1 & A2 & A3). destruct l as [|e l]; [rewrite Ev; reflexivity|]. exfalso.
        destruct Sv as [_ Sv]. apply (proj2 (Sv (wkey w (fst e), snd e) ltac:(rewrite Ev; left; reflexivity))). cbn [snd].
        rewrite <- (items_value (e :: l) e A2 (or_introl eq_refl)). rewrite <- A3, C. apply E.
  Qed.
  Theorem eqb_ok k kb a b ta tb : rep k a ta -> rep kb b tb -> exists r, h_eqb R req ctxs a b = Ok r /\ (r = true <-> forall u, ta u = tb u).
  Proof.
    intros Ha Hb. destruct (kcase k) as [->|Nk].
    - destruct Ha as [-> Ha]. eexists. split; [reflexivity|]. rewrite (is_zero_ok kb b tb Hb). split; intros E u; [rewrite Ha, E; reflexivity|rewrite <- E; auto].
    - destruct (rep_some k a ta Nk Ha) as (x & Ex & Hx). destruct (kcase kb) as [->|Nb].
      + destruct Hb as [-> Hb]. exists (h_is_zero R req a). split; [rewrite Ex; reflexivity|]. rewrite (is_zero_ok k a ta Ha). split; intros E u; [rewrite Hb; auto|rewrite E; auto].
      + destruct (rep_some kb b tb Nb Hb) as (y & Ey & Hy). rewrite Ex, Ey. cbn [h_eqb im_ctx im_data]. rewrite !Z.eqb_refl. cbn [negb]. rewrite Hc0. destruct (kdense k) eqn:Kd.
        * destruct (drep_dense k x ta Kd Hx) as (v & -> & Sv & _ & C). destruct (to_dense_ok kb y tb Hy) as (v' & E' & Sv' & _ & C'). cbn [td_eqb]. rewrite E'. cbn [bind]. eexists. split; [reflexivity|].
          rewrite (t_eqb _ _ _ _ _ _ _ _ _ _ TD v v' Sv Sv'). split; intros E u; [rewrite <- C, <- C'; auto|rewrite C, C'; auto].
        * destruct k; try discriminate; [congruence|]. destruct Hx as (v & -> & Sv & C). destruct (to_sparse_ok kb y tb Hy) as (v' & E' & Sv' & C'). cbn [td_eqb]. rewrite E'. cbn [bind]. eexists. split; [reflexivity|].
          rewrite (t_eqb _ _ _ _ _ _ _ _ _ _ TS v v' Sv Sv'). split; intros E u; [rewrite <- C, <- C'; auto|rewrite C, C'; auto].
  Qed.
  Theorem dense_flag k h t : rep k h t -> h_dense R h = kdense k.
  Proof.
    intros H. destruct (kcase k) as [->|Nk]; [destruct H as [-> H]; reflexivity|]. destruct (rep_some k h t Nk H) as (d & -> & Hd). destruct (kdense k) eqn:Kd.
    - destruct (drep_dense k d t Kd Hd) as (v & -> & _). reflexivity.
    - destruct k; try discriminate; [congruence|]. destruct Hd as (v & -> & _). reflexivity.
  Qed.
End Objects.
