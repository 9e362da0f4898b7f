(** The shuffle and half-shuffle multipliers give the multiplicities of shuffles, whatever their caches
    hold from earlier calls. *)
From Verif Require Export ShufModel ShufSpec LalTensor.
From Coq Require Import Sorted Permutation.
Local Notation zc := (count_occ Z.eq_dec).
Local Notation wdec := (list_eq_dec Z.eq_dec).

Section Counts.
  Definition m_sorted (m : kprod) : Prop := StronglySorted (fun a b : Z * Z => fst a < fst b) m.
  Fixpoint m_get (k : Z) (m : kprod) : Z := match m with [] => 0 | (q, y) :: m => if q =? k then y else m_get k m end.
  (** m lists, in key order, the keys of L with the number of times each occurs *)
  Definition counts (m : kprod) (L : list Z) : Prop :=
    m_sorted m /\ (forall e, In e m -> 0 < snd e) /\ forall k, m_get k m = Z.of_nat (zc L k).
  Lemma m_get_lt k m : Forall (fun e : Z * Z => k < fst e) m -> m_get k m = 0.
  Proof. induction 1 as [|[q y] m H F IH]; cbn [m_get]; [reflexivity|]. cbn in H. destruct (Z.eqb_spec q k); [lia|auto]. Qed.
  Lemma m_get_in k m : m_sorted m -> (forall e, In e m -> 0 < snd e) -> (0 < m_get k m <-> In k (map fst m)).
  Proof.
    induction m as [|[q y] m IH]; intros S P; cbn [m_get map In fst]; [lia|]. apply StronglySorted_inv in S. destruct S as [S F].
    destruct (Z.eqb_spec q k) as [->|E].
    - assert (Q := P (k, y) (or_introl eq_refl)). cbn in Q. intuition.
    - rewrite IH by (auto; intros; apply P; right; auto). intuition.
  Qed.
  Lemma counts_perm m L L' : Permutation L L' -> counts m L -> counts m L'.
  Proof. intros HP (S & P & G). split; [auto|]. split; [auto|]. intros k. rewrite G. f_equal. apply (Permutation_count_occ Z.eq_dec); auto. Qed.
  Lemma counts_unique m m' L : counts m L -> counts m' L -> m = m'.
  Proof.
    intros (S & P & G) (S' & P' & G').
    assert (E : forall k, m_get k m = m_get k m') by (intros; rewrite G, G'; auto). clear G G'.
    revert m' S' P' E. induction m as [|[q y] m IH]; intros m' S' P' E.
    - destruct m' as [|[q' y'] m']; [reflexivity|]. specialize (E q'). cbn [m_get] in E. rewrite Z.eqb_refl in E.
      specialize (P' (q', y') (or_introl eq_refl)). cbn in P'. lia.
    - destruct m' as [|[q' y'] m'].
      + specialize (E q). cbn [m_get] in E. rewrite Z.eqb_refl in E. specialize (P (q, y) (or_introl eq_refl)). cbn in P. lia.
      + apply StronglySorted_inv in S. destruct S as [S F]. apply StronglySorted_inv in S'. destruct S' as [S' F'].
        assert (Py := P (q, y) (or_introl eq_refl)). assert (Py' := P' (q', y') (or_introl eq_refl)). cbn in Py, Py'.
        assert (q = q').
        { destruct (Z.lt_trichotomy q q') as [L1|[L1|L1]]; auto; exfalso.
          - assert (X := E q). cbn [m_get] in X. rewrite Z.eqb_refl in X. destruct (Z.eqb_spec q' q); [lia|].
            rewrite m_get_lt in X; [lia|]. eapply Forall_impl; [|exact F']. cbn. intros; lia.
          - assert (X := E q'). cbn [m_get] in X. rewrite Z.eqb_refl in X. destruct (Z.eqb_spec q q'); [lia|].
            rewrite m_get_lt in X; [lia|]. eapply Forall_impl; [|exact F]. cbn. intros; lia. }
        subst q'. assert (X := E q). cbn [m_get] in X. rewrite Z.eqb_refl in X. subst y'. f_equal. apply IH; auto.
        * intros; apply P; right; auto.
        * intros; apply P'; right; auto.
        * intros k. assert (X := E k). cbn [m_get] in X. destruct (Z.eqb_spec q k) as [->|]; [|auto].
          rewrite !m_get_lt; auto.
  Qed.
  Lemma count_repeat k n j : zc (repeat k n) j = if k =? j then n else O.
  Proof.
    induction n as [|n IH]; cbn [repeat count_occ]; [destruct (k =? j); reflexivity|]. rewrite IH.
    destruct (Z.eq_dec k j) as [->|E]; [rewrite Z.eqb_refl; reflexivity|]. destruct (Z.eqb_spec k j); [congruence|reflexivity].
  Qed.
  Lemma m_add_raw k v m : m_sorted m -> (forall e, In e m -> 0 < snd e) -> 0 < v -> m_get k m + v < 2 ^ 31 ->
    exists m', m_add k v m = Ok m' /\ m_sorted m' /\ (forall e, In e m' -> 0 < snd e) /\
      (forall j, m_get j m' = m_get j m + if k =? j then v else 0) /\ (forall e, In e m' -> fst e = k \/ In (fst e) (map fst m)).
  Proof.
    unfold i32_add. induction m as [|[q y] m IH]; intros S P Hv Hb; cbn [m_add m_get] in *.
    - unfold i32_add. destruct ((- 2 ^ 31 <=? 0 + v) && (0 + v <? 2 ^ 31)) eqn:E; [|lia]. cbn [bind].
      exists [(k, 0 + v)]. split; [reflexivity|]. split; [repeat constructor|]. split; [intros e [<-|[]]; cbn; lia|].
      split; [intros j; cbn [m_get]; destruct (k =? j); lia|]. intros e [<-|[]]. left; auto.
    - apply StronglySorted_inv in S. destruct S as [S F]. assert (Py := P (q, y) (or_introl eq_refl)). cbn in Py.
      destruct (Z.ltb_spec k q) as [L|L].
      + unfold i32_add. destruct ((- 2 ^ 31 <=? 0 + v) && (0 + v <? 2 ^ 31)) eqn:E.
        2:{ destruct (Z.eqb_spec q k); [lia|]. assert (G := m_get_lt k m). rewrite G in Hb; [lia|]. eapply Forall_impl; [|exact F]. cbn. intros; lia. }
        cbn [bind]. eexists. split; [reflexivity|]. assert (Fk : Forall (fun b : Z * Z => k < fst b) ((q, y) :: m)).
        { constructor; [cbn; lia|]. eapply Forall_impl; [|exact F]. cbn. intros; lia. }
        split; [constructor; [constructor; auto|exact Fk]|]. split; [intros e [<-|He]; [cbn; lia|auto]|]. split.
        * intros j. cbn [m_get]. destruct (Z.eqb_spec k j) as [->|]; [|lia]. destruct (Z.eqb_spec q j); [lia|].
          rewrite (m_get_lt j m); [lia|]. inversion Fk; auto.
        * intros e [<-|He]; [left; auto|right; apply in_map; auto].
      + destruct (Z.eqb_spec q k) as [->|E].
        * unfold i32_add. destruct ((- 2 ^ 31 <=? y + v) && (y + v <? 2 ^ 31)) eqn:E; [|lia]. cbn [bind].
          eexists. split; [reflexivity|]. split; [constructor; auto|]. split; [intros e [<-|He]; [cbn; lia|apply P; right; auto]|]. split.
          -- intros j. cbn [m_get]. destruct (Z.eqb_spec k j); lia.
          -- intros e [<-|He]; [left; auto|right; right; apply in_map; auto].
        * destruct (IH S (fun e He => P e (or_intror He)) Hv Hb) as (m' & -> & S' & P' & G' & K'). cbn [bind].
          eexists. split; [reflexivity|]. split; [|split; [|split]].
          -- constructor; [auto|]. apply Forall_forall. intros e He. destruct (K' e He) as [->|Hin]; [cbn; lia|].
             apply in_map_iff in Hin. destruct Hin as (e' & <- & He'). rewrite Forall_forall in F. apply F; auto.
          -- intros e [<-|He]; [auto|auto].
          -- intros j. cbn [m_get]. destruct (Z.eqb_spec q j) as [->|]; [|auto]. destruct (Z.eqb_spec k j); lia.
          -- intros e [<-|He]; [right; left; auto|]. destruct (K' e He); [left; auto|right; right; auto].
  Qed.
  Lemma m_add_counts k v m L : counts m L -> 0 < v -> Z.of_nat (length L) + v < 2 ^ 31 ->
    exists m', m_add k v m = Ok m' /\ counts m' (repeat k (Z.to_nat v) ++ L).
  Proof.
    intros (S & P & G) Hv Hb. destruct (m_add_raw k v m S P Hv) as (m' & E & S' & P' & G' & _).
    - rewrite G. assert (Q := count_occ_bound Z.eq_dec k L). lia.
    - exists m'. split; [exact E|]. split; [auto|]. split; [auto|]. intros j. rewrite G', G, count_occ_app, count_repeat. destruct (k =? j); lia.
  Qed.
  Definition flat (b : kprod) : list Z := flat_map (fun e => repeat (fst e) (Z.to_nat (snd e))) b.
  Lemma flat_map_key (f : Z -> Z) b : map f (flat b) = flat (map (fun e => (f (fst e), snd e)) b).
  Proof.
    unfold flat. induction b as [|e b IH]; cbn [flat_map map fst snd]; [reflexivity|]. rewrite map_app, IH. f_equal.
    generalize (Z.to_nat (snd e)). induction n as [|n IHn]; cbn [repeat map]; congruence.
  Qed.
  Lemma flat_counts b L : counts b L -> Permutation (flat b) L.
  Proof.
    intros (S & P & G). apply (Permutation_count_occ Z.eq_dec). intros k. apply Nat2Z.inj. rewrite <- G. clear G L.
    unfold flat. induction b as [|[q y] b IH]; cbn [flat_map m_get fst snd]; [reflexivity|].
    apply StronglySorted_inv in S. destruct S as [S F]. assert (Py := P (q, y) (or_introl eq_refl)). cbn in Py.
    rewrite count_occ_app, count_repeat, Nat2Z.inj_add, IH by (auto; intros; apply P; right; auto).
    destruct (Z.eqb_spec q k) as [->|]; [|lia]. rewrite m_get_lt by auto. lia.
  Qed.
  Lemma add_all (step : Z * Z -> kprod -> outcome kprod) (f : Z -> Z) b : (forall e, In e b -> 0 < snd e) ->
    (forall e m, In e b -> step e m = m_add (f (fst e)) (snd e) m) ->
    forall m L, counts m L -> Z.of_nat (length (flat b)) + Z.of_nat (length L) < 2 ^ 31 ->
    exists m', for_ b m step = Ok m' /\ counts m' (map f (flat b) ++ L).
  Proof.
    induction b as [|e b IH]; intros P Hs m L Hm Hl; cbn [for_].
    - exists m. split; [reflexivity|]. exact Hm.
    - rewrite Hs by (left; auto). assert (Pe := P e (or_introl eq_refl)). cbn [flat flat_map] in Hl |- *. fold (flat b) in *.
      rewrite app_length, repeat_length in Hl.
      destruct (m_add_counts (f (fst e)) (snd e) m L Hm Pe ltac:(lia)) as (m1 & -> & H1). cbn [bind].
      destruct (IH (fun x Hx => P x (or_intror Hx)) (fun x m Hx => Hs x m (or_intror Hx)) m1 _ H1) as (m' & E & H').
      + rewrite app_length, repeat_length. lia.
      + exists m'. split; [exact E|]. eapply counts_perm; [|exact H'].
        rewrite map_app, app_assoc. apply Permutation_app_tail. rewrite Permutation_app_comm. apply Permutation_app_tail.
        clear. induction (Z.to_nat (snd e)); cbn [repeat map]; auto.
  Qed.
  Lemma insert_last m k v : Forall (fun e : Z * Z => fst e < k) m -> m_insert k v m = m ++ [(k, v)].
  Proof.
    induction 1 as [|[q y] m H F IH]; cbn [m_insert app]; [reflexivity|]. cbn in H.
    destruct (Z.ltb_spec k q); [lia|]. destruct (Z.eqb_spec q k); [lia|]. rewrite IH. reflexivity.
  Qed.
  Lemma insert_all b : forall m, m_sorted (m ++ b) -> fold_left (fun m (e : Z * Z) => m_insert (fst e) (snd e) m) b m = m ++ b.
  Proof.
    induction b as [|[k v] b IH]; intros m S; cbn [fold_left fst snd]; [rewrite app_nil_r; reflexivity|].
    rewrite insert_last.
    - rewrite IH; rewrite <- app_assoc; [reflexivity|exact S].
    - clear - S. induction m as [|e m IH]; constructor; cbn [app] in S; apply StronglySorted_inv in S; destruct S as [S F]; [|auto].
      rewrite Forall_forall in F. apply (F (k, v)). apply in_or_app. right. left. auto.
  Qed.
  Lemma prod_add_ok a b La Lb : counts a La -> counts b Lb -> Z.of_nat (length La) + Z.of_nat (length Lb) < 2 ^ 31 ->
    exists m, prod_add a b = Ok m /\ counts m (La ++ Lb).
  Proof.
    intros Ha Hb Hl. unfold prod_add. rewrite insert_all by apply Ha. cbn [app].
    assert (Pb := flat_counts b Lb Hb).
    destruct (add_all (fun e m => m_add (fst e) (snd e) m) (fun k => k) b) with (m := a) (L := La) as (m & E & H); auto.
    - apply Hb.
    - rewrite (Permutation_length Pb). lia.
    - exists m. split; [exact E|]. eapply counts_perm; [|exact H]. rewrite map_id, Permutation_app_comm. apply Permutation_app_head. exact Pb.
  Qed.
  Lemma counts_single k : counts [(k, 1)] [k].
  Proof.
    split; [repeat constructor|]. split; [intros e [<-|[]]; cbn; lia|]. intros j. cbn [m_get count_occ].
    destruct (Z.eqb_spec k j), (Z.eq_dec k j); try congruence; reflexivity.
  Qed.
  Lemma counts_nil : counts [] [].
  Proof. split; [constructor|]. split; [intros e []|]. reflexivity. Qed.
End Counts.

Section Keys.
  Variable w : Z.
  Notation wk := (wkey w).
  Notation len u := (Z.of_nat (length u)).

  (** What the caches may hold: correct answers, for contexts of any depth. *)
  Definition c_inv (c : hcache) : Prop := forall l r p, ShufModel.c_find l r c = Some p ->
    exists N u v, packs w N /\ letters_ok w u /\ letters_ok w v /\ len u + len v <= N /\ l = wk u /\ r = wk v /\ counts p (map wk (halves u v)).
  Lemma c_inv_nil : c_inv []. Proof. intros l r p H. discriminate. Qed.
  Lemma c_inv_cons N u v p c : packs w N -> letters_ok w u -> letters_ok w v -> len u + len v <= N -> counts p (map wk (halves u v)) ->
    c_inv c -> c_inv (((wk u, wk v), p) :: c).
  Proof.
    intros HP Hu Hv Hl Hp Hc l r q. cbn [ShufModel.c_find]. destruct ((wk u =? l) && (wk v =? r)) eqn:E; [|apply Hc].
    intros H. injection H as <-. apply andb_true_iff in E. destruct E as [E1 E2]. apply Z.eqb_eq in E1. apply Z.eqb_eq in E2.
    exists N, u, v. do 6 (split; [auto|]). exact Hp.
  Qed.
  Lemma wkey_inj2 N N' u v : packs w N -> packs w N' -> letters_ok w u -> letters_ok w v -> len u <= N -> len v <= N' -> wk u = wk v -> u = v.
  Proof.
    intros HP HP' Hu Hv Lu Lv E. destruct (Z_le_gt_dec N N') as [L|L].
    - apply (wkey_inj w N' u v); auto. lia.
    - apply (wkey_inj w N u v); auto. lia.
  Qed.
  Lemma count33 (u v : list Z) : (length u + length v <= 33)%nat -> Z.of_nat (length (shuffles u v)) < 2 ^ 31.
  Proof. intros H. rewrite (shuffles_count u v). apply binom_33. auto. Qed.

  Section OneBasis.
    Variables (N : Z) (B : tbasis).
    Hypothesis HP : packs w N.
    Hypothesis HT : tb_ok w N B.
    Hypothesis H33 : N <= 33.
    Lemma w_pos : 0 < w. Proof. destruct HP; lia. Qed.
    Lemma depthB : tb_depth B = N. Proof. apply HT. Qed.
    Lemma concat_letter x s : letters_ok w (x :: s) -> len (x :: s) <= N -> concat_product B (wk [x]) (wk s) = Ok (wk (x :: s)).
    Proof.
      intros Hx Hl. assert (Hs : letters_ok w s) by (inversion Hx; auto). assert (Hx1 : letters_ok w [x]) by (inversion Hx; constructor; auto).
      assert (W := w_pos). rewrite zlen_cons in Hl. unfold concat_product.
      rewrite (wkey_deg w N s), (wkey_deg w N [x]) by (auto; cbn [length]; lia). rewrite (power_at w N) by (auto; lia). cbn [bind].
      rewrite (wkey_idx w N s), (wkey_idx w N [x]) by (auto; cbn [length]; lia).
      change (x :: s) with ([x] ++ s) in *. unfold wkey. rewrite app_length, idx_app by auto. f_equal. f_equal; [cbn [length]; lia|].
      assert (Q := idx_packs w N ([x] ++ s) HP Hx). rewrite app_length, idx_app in Q by auto. cbn [length] in Q. specialize (Q ltac:(lia)). destruct Q as [Q _].
      assert (Q2 := idx_bound w W s Hs). assert (Q3 := idx_bound w W [x] Hx1). assert (Q4 := pow_pos w W (length s)).
      rewrite (u64_small (idx w [x] * w ^ len s)) by nia. rewrite u64_small by lia. reflexivity.
    Qed.
    Lemma shuffle_with_ok op u v c : letters_ok w u -> letters_ok w v -> len u + len v <= N -> c_inv c ->
      (u <> [] -> v <> [] -> forall a b c, (a = u /\ b = v) \/ (a = v /\ b = u) -> c_inv c -> exists p c', op (wk a) (wk b) c = Ok (p, c') /\ c_inv c' /\ counts p (map wk (halves a b))) ->
      exists p c', shuffle_with op (wk u) (wk v) c = Ok (p, c') /\ c_inv c' /\ counts p (map wk (shuffles u v)).
    Proof.
      intros Hu Hv Hl Hc Hop. unfold shuffle_with. rewrite !(wkey_deg w N) by (auto; lia).
      destruct u as [|x u].
      - cbn [length]. change (Z.of_nat 0 =? 0) with true. cbv iota. exists [(wk v, 1)], c. split; [reflexivity|]. split; [auto|]. rewrite shuffles_nil_l. apply counts_single.
      - destruct (Z.eqb_spec (len (x :: u)) 0) as [E|_]; [cbn [length] in E; lia|].
        destruct v as [|y v].
        + cbn [length]. change (Z.of_nat 0 =? 0) with true. cbv iota. exists [(wk (x :: u), 1)], c. split; [reflexivity|]. split; [auto|]. rewrite shuffles_nil_r. apply counts_single.
        + destruct (Z.eqb_spec (len (y :: v)) 0) as [E|_]; [cbn [length] in E; lia|].
          specialize (Hop ltac:(discriminate) ltac:(discriminate)).
          destruct (Hop _ _ c (or_introl (conj eq_refl eq_refl)) Hc) as (p1 & c1 & -> & Hc1 & P1). cbn [bind].
          destruct (Hop _ _ c1 (or_intror (conj eq_refl eq_refl)) Hc1) as (p2 & c2 & -> & Hc2 & P2). cbn [bind].
          assert (C := count33 (x :: u) (y :: v) ltac:(lia)). rewrite (Permutation_length (shuffles_halves x u y v)), app_length in C.
          destruct (prod_add_ok p1 p2 _ _ P1 P2) as (m & -> & Hm); [rewrite !map_length; lia|]. cbn [bind].
          exists m, c2. split; [reflexivity|]. split; [auto|]. eapply counts_perm; [|exact Hm]. rewrite <- map_app. apply Permutation_map. symmetry. apply shuffles_halves.
    Qed.
    Lemma half_op_ok fuel : forall u v c, letters_ok w u -> letters_ok w v -> len u + len v <= N -> (length u + length v < fuel)%nat -> c_inv c ->
      exists p c', half_op B fuel (wk u) (wk v) c = Ok (p, c') /\ c_inv c' /\ counts p (map wk (halves u v)).
    Proof.
      induction fuel as [|fuel IH]; intros u v c Hu Hv Hl Hf Hc; [lia|]. cbn [half_op].
      rewrite !(wkey_deg w N) by (auto; lia). rewrite depthB. rewrite Z.gtb_ltb. destruct (Z.ltb_spec N (len u + len v)); [lia|].
      destruct (ShufModel.c_find (wk u) (wk v) c) as [p|] eqn:Ef.
      - exists p, c. split; [reflexivity|]. split; [auto|]. destruct (Hc _ _ _ Ef) as (N' & u' & v' & HP' & Hu' & Hv' & Hl' & E1 & E2 & Hp).
        rewrite (wkey_inj2 N N' u u') by (auto; lia). rewrite (wkey_inj2 N N' v v') by (auto; lia). exact Hp.
      - cut (exists p c', key_prod_with B (half_op B fuel) (wk u) (wk v) c = Ok (p, c') /\ c_inv c' /\ counts p (map wk (halves u v))).
        { intros (p & c' & -> & Hc' & Hp). cbn [bind]. exists p, (((wk u, wk v), p) :: c'). split; [reflexivity|]. split; [|auto].
          apply (c_inv_cons N); auto. }
        unfold key_prod_with. rewrite !(wkey_deg w N) by (auto; lia). rewrite depthB. destruct (Z.leb_spec (len u + len v) N); [|lia].
        destruct u as [|x u].
        + exists [], c. split; [reflexivity|]. split; [auto|]. apply counts_nil.
        + destruct (Z.eqb_spec (len (x :: u)) 0) as [E|_]; [cbn [length] in E; lia|].
          destruct v as [|y v].
          * exists [(wk (x :: u), 1)], c. split; [reflexivity|]. split; [auto|]. cbn [halves]. rewrite shuffles_nil_r. apply counts_single.
          * destruct (Z.eqb_spec (len (y :: v)) 0) as [E|_]; [cbn [length] in E; lia|].
            assert (Hlu : len (x :: u) <= N) by lia.
            destruct (lparent_ok w N B x u HP HT Hu Hlu) as (-> & ->). cbn [bind].
            assert (Hu' : letters_ok w u) by (inversion Hu; auto). assert (Hx : 0 <= x < w) by (inversion Hu; auto).
            cbn [length] in Hf. rewrite zlen_cons in Hl.
            destruct (shuffle_with_ok (half_op B fuel) u (y :: v) c Hu' Hv ltac:(lia) Hc) as (p & c' & -> & Hc' & Hp).
            { intros _ _ a b c0 [[-> ->]|[-> ->]] Hc0; apply IH; auto; cbn [length] in *; lia. }
            cbn [bind]. assert (C := count33 u (y :: v) ltac:(cbn [length] in *; lia)).
            assert (Fp := flat_counts _ _ Hp).
            assert (Kin : forall e, In e p -> exists s, In s (shuffles u (y :: v)) /\ fst e = wk s).
            { intros e He. assert (Hin : In (fst e) (map wk (shuffles u (y :: v)))).
              { destruct Hp as (S & P & G). apply (count_occ_In Z.eq_dec). assert (0 < m_get (fst e) p); [|rewrite G in *; lia].
                apply m_get_in; auto. apply in_map; auto. }
              apply in_map_iff in Hin. destruct Hin as (s & E & Hs). exists s. auto. }
            assert (Hshuf : forall s, In s (shuffles u (y :: v)) -> letters_ok w (x :: s) /\ len (x :: s) <= N).
            { intros s Hs. split; [constructor; [auto|apply (shuffles_Forall _ u (y :: v)); auto]|]. apply shuffles_length in Hs. rewrite zlen_cons. cbn [length] in *. lia. }
            set (f := fun k => match concat_product B (wk [x]) k with Ok k => k | _ => 0 end).
            destruct (add_all (fun item m => let! k := concat_product B (wk [x]) (fst item) in m_add k (snd item) m) f p) with (m := @nil (Z * Z)) (L := @nil Z) as (m & Em & Hm).
            -- apply Hp.
            -- intros e m He. destruct (Kin e He) as (s & Hs & ->). destruct (Hshuf s Hs). unfold f. rewrite concat_letter by auto. reflexivity.
            -- apply counts_nil.
            -- rewrite (Permutation_length Fp), map_length. cbn [length]. lia.
            -- unfold kprod in *. rewrite Em. cbn [bind]. exists m, c'. split; [reflexivity|]. split; [auto|]. rewrite app_nil_r in Hm. eapply counts_perm; [|exact Hm].
               rewrite (Permutation_map f Fp). cbn [halves]. rewrite !map_map.
               erewrite map_ext_in; [reflexivity|]. intros s Hs. destruct (Hshuf s Hs). cbn beta. unfold f. rewrite concat_letter by auto. reflexivity.
    Qed.
    Lemma half_mult_ok u v c : letters_ok w u -> letters_ok w v -> len u + len v <= N -> c_inv c ->
      exists p c', half_mult B (wk u) (wk v) c = Ok (p, c') /\ c_inv c' /\ counts p (map wk (halves u v)).
    Proof.
      intros Hu Hv Hl Hc. unfold half_mult. apply half_op_ok; auto. unfold half_fuel. rewrite !(wkey_deg w N) by (auto; lia). lia.
    Qed.
    Lemma shuffle_mult_ok u v c : letters_ok w u -> letters_ok w v -> len u + len v <= N -> c_inv c ->
      exists p c', shuffle_mult B (wk u) (wk v) c = Ok (p, c') /\ c_inv c' /\ counts p (map wk (shuffles u v)).
    Proof.
      intros Hu Hv Hl Hc. unfold shuffle_mult. rewrite !(wkey_deg w N) by (auto; lia). rewrite depthB, Z.gtb_ltb. destruct (Z.ltb_spec N (len u + len v)); [lia|].
      apply shuffle_with_ok; auto. intros _ _ a b c0 [[-> ->]|[-> ->]] Hc0; apply half_mult_ok; auto; lia.
    Qed.
  End OneBasis.
End Keys.
