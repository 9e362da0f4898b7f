(** Products of vectors by a multiplier that lists words with multiplicity. *)
From Verif Require Export ShufFma.
From Coq Require Import Permutation.
Local Notation wdec := (list_eq_dec Z.eq_dec).
Local Notation wpdec := (pdec Z.eq_dec).

(** The product of two series given by the ways [Sp s] to split a word. *)
Definition bil {R : cring} (Sp : list Z -> list (list Z * list Z)) (a b : tens R Z) : tens R Z :=
  fun s => sum (Sp s) (fun p => rmul (a (fst p)) (b (snd p))).

Section Vec.
  Variable R : cring.
  Add Ring Rr : (rth R).
  Variable req : R -> R -> bool.
  Hypothesis Hreq : forall x y, req x y = true <-> x = y.
  Variables (w N N2 : Z) (B B2 : tbasis).
  Hypothesis HP : packs w N.
  Hypothesis HS : sized w N.
  Hypothesis HT : tb_ok w N B.
  Hypothesis HP2 : packs w N2.
  Hypothesis HS2 : sized w N2.
  Hypothesis HT2 : tb_ok w N2 B2.
  Hypothesis HNN : N <= N2.
  Notation V := (tensor_vb B).
  Notation V2 := (tensor_vb B2).
  Notation n := (Z.to_nat N).
  Notation n2 := (Z.to_nat N2).
  Notation dim := (tdim w N).
  Notation dim2 := (tdim w N2).
  Notation key := (tkey B).
  Notation key2 := (tkey B2).
  Notation wk := (wkey w).
  Let W : 0 < w := Hw w N HP.
  Let XN : 0 <= N < 255 := HN w N HP.
  Let XN2 : 0 <= N2 < 255 := HN w N2 HP2.
  Notation HBt := (tensor_basis_ok' w N B HP HS HT).
  Notation HBt2 := (tensor_basis_ok' w N2 B2 HP2 HS2 HT2).

  Variable C : Type.
  Variable Inv : C -> Prop.
  Variable mult : Z -> Z -> C -> outcome (list (Z * Z) * C).
  Variables (L : list Z -> list Z -> list (list Z)) (Sp : list Z -> list (list Z * list Z)).
  Hypothesis Hm : forall u v c, letters_ok w u -> letters_ok w v -> Z.of_nat (length u) + Z.of_nat (length v) <= N -> Inv c ->
    exists p c', mult (wk u) (wk v) c = Ok (p, c') /\ Inv c' /\ counts p (map wk (L u v)).
  Hypothesis HLlen : forall u v s, In s (L u v) -> length s = (length u + length v)%nat.
  Hypothesis HLok : forall u v s, letters_ok w u -> letters_ok w v -> In s (L u v) -> letters_ok w s.
  Hypothesis HLsp : forall u v s, count_occ wdec (L u v) s = count_occ wpdec (Sp s) (u, v).
  Hypothesis HSlen : forall s p, In p (Sp s) -> (length (fst p) + length (snd p))%nat = length s.
  Hypothesis HSok : forall s p, letters_ok w s -> In p (Sp s) -> letters_ok w (fst p) /\ letters_ok w (snd p).

  Definition St (i j m : Z) : R := rz R (Z.of_nat (count_occ wdec (L (word w B i) (word w B2 j)) (word w B m))).
  Lemma rz_nat m : rz R (Z.of_nat m) = rnat m.
  Proof. destruct m; [reflexivity|]. unfold rz. change (Z.of_nat (Datatypes.S m)) with (Zpos (Pos.of_succ_nat m)). cbv iota. rewrite SuccNat2Pos.id_succ. reflexivity. Qed.
  Lemma count_map_wk (l : list (list Z)) s : (forall t, In t l -> letters_ok w t /\ (length t <= n)%nat) -> letters_ok w s -> (length s <= n)%nat ->
    count_occ Z.eq_dec (map wk l) (wk s) = count_occ wdec l s.
  Proof.
    intros Hl Hs Ls. induction l as [|t l IH]; [reflexivity|]. cbn [map count_occ]. destruct (Hl t (or_introl eq_refl)) as [Ht Lt].
    rewrite IH by (intros; apply Hl; right; auto). destruct (wdec t s) as [->|E]; [destruct (Z.eq_dec (wk s) (wk s)); congruence|].
    destruct (Z.eq_dec (wk t) (wk s)) as [E2|]; [|reflexivity]. exfalso. apply E. apply (wkey_inj w N); auto; lia.
  Qed.
  Lemma mult_positions i j c : 0 <= i < dim -> 0 <= j < dim2 -> k_degree (key i) + k_degree (key2 j) <= N -> Inv c ->
    exists p c', mult (key i) (key2 j) c = Ok (map (fun e => (key (fst e), snd e)) p, c') /\ Inv c' /\
      (forall e, In e p -> 0 <= fst e < dim /\ k_degree (key (fst e)) = k_degree (key i) + k_degree (key2 j)) /\
      forall m, 0 <= m < dim -> sum p (fun e => if fst e =? m then rz R (snd e) else r0) = St i j m.
  Proof.
    intros Hi Hj. destruct (tpos w N HP i Hi) as (u & Hu & Hl & ->). destruct (tpos w N2 HP2 j Hj) as (v & Hv & Hlv & ->).
    rewrite (tdeg_pos w N B HP HS HT) by auto. rewrite (tdeg_pos w N2 B2 HP2 HS2 HT2) by auto. intros Hd Hc.
    rewrite (tkey_pos w N B HP HS HT) by auto. rewrite (tkey_pos w N2 B2 HP2 HS2 HT2) by auto.
    destruct (Hm u v c Hu Hv Hd Hc) as (q & c' & Eq & Hc' & Hq).
    assert (HLs : forall s, In s (L u v) -> letters_ok w s /\ (length s <= n)%nat).
    { intros s Hs. assert (Q1 := HLlen u v s Hs). split; [apply (HLok u v s); auto|lia]. }
    assert (Kin : forall e, In e q -> exists s, In s (L u v) /\ fst e = wk s).
    { intros e He. assert (Hin : In (fst e) (map wk (L u v))).
      { destruct Hq as (S & P & G). apply (count_occ_In Z.eq_dec). assert (0 < m_get (fst e) q); [|rewrite G in *; lia].
        apply m_get_in; auto. apply in_map; auto. }
      apply in_map_iff in Hin. destruct Hin as (s & E & Hs). exists s. auto. }
    set (un := fun k => pos w (unidx w (Z.to_nat (k_degree k)) (k_index k))).
    assert (Hun : forall s, letters_ok w s -> (length s <= n)%nat -> un (wk s) = pos w s).
    { intros s Hs Ls. unfold un. rewrite (wkey_deg w N), (wkey_idx w N) by (auto; lia). rewrite Nat2Z.id. f_equal. apply unidx_idx; auto. }
    exists (map (fun e => (un (fst e), snd e)) q), c'. split; [|split; [auto|split]].
    - rewrite Eq. do 2 f_equal. rewrite map_map. cbn [fst snd]. symmetry. rewrite <- (map_id q) at 2. apply map_ext_in. intros [k y] He. cbn [fst snd].
      destruct (Kin _ He) as (s & Hs & E). cbn in E. subst k. destruct (HLs s Hs). rewrite Hun, (tkey_pos w N B HP HS HT) by auto. reflexivity.
    - intros e He. apply in_map_iff in He. destruct He as ([k y] & <- & He). cbn [fst]. destruct (Kin _ He) as (s & Hs & E). cbn in E. subst k. destruct (HLs s Hs) as [Os Ls].
      rewrite Hun by auto. split; [apply (pos_dim w N HP), inside_iff; auto|]. rewrite (tdeg_pos w N B HP HS HT) by auto. rewrite (HLlen u v s Hs). lia.
    - intros m Hmm. destruct (tpos w N HP m Hmm) as (s & Hs & Ls & ->). unfold St. rewrite !(word_pos w N B HP HS HT) by auto. rewrite (word_pos w N2 B2 HP2 HS2 HT2) by auto.
      rewrite <- (count_map_wk (L u v) s HLs Hs Ls). destruct Hq as (Sq & Pq & Gq). rewrite <- Gq.
      rewrite sum_map. cbn [fst snd].
      rewrite (sum_ext R q _ (fun e => if fst e =? wk s then rz R (snd e) else r0)).
      + clear Gq Kin Eq Pq. induction q as [|[k y] q IH]; cbn [sum m_get fst snd]; [reflexivity|]. apply Sorted.StronglySorted_inv in Sq. destruct Sq as [Sq F].
        destruct (Z.eqb_spec k (wk s)) as [->|E]; [|rewrite IH by auto; ring].
        rewrite sum_zero; [ring|]. intros e He. rewrite Forall_forall in F. specialize (F e He). cbn in F. destruct (Z.eqb_spec (fst e) (wk s)); [lia|reflexivity].
      + intros e He. destruct (Kin e He) as (t & Ht & E). destruct (HLs t Ht) as [Ot Lt]. rewrite E, Hun by auto.
        destruct (Z.eqb_spec (wk t) (wk s)) as [E2|E2].
        * assert (t = s) by (apply (wkey_inj w N); auto; lia). subst t. rewrite Z.eqb_refl. reflexivity.
        * destruct (Z.eqb_spec (pos w t) (pos w s)) as [E3|]; [|reflexivity]. exfalso. apply E2. f_equal. eapply pos_inj; eauto.
  Qed.
  Lemma St_out i j m : 0 <= i < dim -> 0 <= j < dim2 -> 0 <= m < dim -> N < k_degree (key i) + k_degree (key2 j) -> St i j m = r0.
  Proof.
    intros Hi Hj Hmm. destruct (tpos w N HP i Hi) as (u & Hu & Hl & ->). destruct (tpos w N2 HP2 j Hj) as (v & Hv & Hlv & ->). destruct (tpos w N HP m Hmm) as (s & Hs & Ls & ->).
    rewrite (tdeg_pos w N B HP HS HT) by auto. rewrite (tdeg_pos w N2 B2 HP2 HS2 HT2) by auto. intros Hd. unfold St.
    rewrite !(word_pos w N B HP HS HT) by auto. rewrite (word_pos w N2 B2 HP2 HS2 HT2) by auto.
    assert (E : count_occ wdec (L u v) s = O); [|rewrite E; reflexivity]. apply count_occ_not_In. intros Hin. apply HLlen in Hin. lia.
  Qed.
  Lemma bil_sum (F : Z -> Z -> R) s : inside w n s = true ->
    sum (zrange dim) (fun i => sum (zrange dim2) (fun j => rmul (St i j (pos w s)) (F i j)))
    = sum (Sp s) (fun p => F (pos w (fst p)) (pos w (snd p))).
  Proof.
    intros Hs. apply inside_iff in Hs. destruct Hs as [Hs Ls].
    assert (HSp : forall p, In p (Sp s) -> (letters_ok w (fst p) /\ (length (fst p) <= n)%nat) /\ letters_ok w (snd p) /\ (length (snd p) <= n2)%nat).
    { intros p Hp. assert (Q := HSlen s p Hp). destruct (HSok s p Hs Hp). repeat split; auto; lia. }
    assert (HE : forall i j, 0 <= i < dim -> 0 <= j < dim2 -> St i j (pos w s) = rnat (count_occ wpdec (Sp s) (word w B i, word w B2 j))).
    { intros i j Hi Hj. unfold St. rewrite rz_nat, (word_pos w N B HP HS HT s) by auto. rewrite HLsp. reflexivity. }
    rewrite (sum_ext R (zrange dim) _ (fun i => sum (zrange dim2) (fun j => rmul (rnat (count_occ wpdec (Sp s) (word w B i, word w B2 j))) (F i j)))).
    2:{ intros i Hi. apply zrange_In in Hi. apply sum_ext. intros j Hj. apply zrange_In in Hj. rewrite HE by auto. reflexivity. }
    clear HE HLsp HSok HSlen. revert HSp. generalize (Sp s). intros l HSp. induction l as [|p l IH]; cbn [sum count_occ].
    - apply sum_zero. intros i _. apply sum_zero. intros j _. cbn [rnat]. ring.
    - destruct (HSp p (or_introl eq_refl)) as ([H1 H2] & H3 & H4). rewrite <- IH by (intros; apply HSp; right; auto).
      assert (I1 : inside w n (fst p) = true) by (apply inside_iff; auto). assert (I2 : inside w n2 (snd p) = true) by (apply inside_iff; auto).
      assert (D1 := pos_dim w N HP _ I1). assert (D2 := pos_dim w N2 HP2 _ I2).
      rewrite (sum_ext R (zrange dim) _ (fun i => radd (if i =? pos w (fst p) then F i (pos w (snd p)) else r0)
          (sum (zrange dim2) (fun j => rmul (rnat (count_occ wpdec l (word w B i, word w B2 j))) (F i j))))).
      + rewrite sum_add. f_equal. rewrite (sum_single R (zrange dim) _ (pos w (fst p))); [rewrite Z.eqb_refl; reflexivity|apply zrange_NoDup|apply zrange_In; auto|].
        intros i _ Hne. destruct (Z.eqb_spec i (pos w (fst p))); [congruence|reflexivity].
      + intros i Hi. apply zrange_In in Hi.
        rewrite (sum_ext R (zrange dim2) _ (fun j => radd (if (i =? pos w (fst p)) && (j =? pos w (snd p)) then F i j else r0) (rmul (rnat (count_occ wpdec l (word w B i, word w B2 j))) (F i j)))).
        * rewrite sum_add. f_equal. destruct (i =? pos w (fst p)); cbn [andb]; [|apply sum_zero; auto].
          rewrite (sum_single R (zrange dim2) _ (pos w (snd p))); [rewrite Z.eqb_refl; reflexivity|apply zrange_NoDup|apply zrange_In; auto|].
          intros j _ Hne. destruct (Z.eqb_spec j (pos w (snd p))); [congruence|reflexivity].
        * intros j Hj. apply zrange_In in Hj. destruct (tpos w N HP i Hi) as (u & Hu & Hl & ->). destruct (tpos w N2 HP2 j Hj) as (v & Hv & Hlv & ->).
          rewrite (word_pos w N B HP HS HT) by auto. rewrite (word_pos w N2 B2 HP2 HS2 HT2) by auto.
          destruct (wpdec p (u, v)) as [->|E]; cbn [fst snd].
          -- rewrite !Z.eqb_refl. cbn [andb rnat]. ring.
          -- destruct (Z.eqb_spec (pos w u) (pos w (fst p))) as [E1|]; cbn [andb]; [|ring]. destruct (Z.eqb_spec (pos w v) (pos w (snd p))) as [E2|]; [|ring].
             exfalso. apply E. destruct p as [p1 p2]. cbn [fst snd] in *. f_equal; symmetry; eapply pos_inj; eauto.
  Qed.

  Section Storages.
    Variables (X Y : Type) (O : vops R X) (O2 : vops R Y) (ok : X -> Prop) (cf : X -> Z -> R) (bnd : X -> Z -> Prop)
      (ok2 : Y -> Prop) (cf2 : Y -> Z -> R) (bnd2 : Y -> Z -> Prop).
    Hypothesis HV : vgood R X O (vb_depth V) dim key ok cf bnd.
    Hypothesis HV2 : vgood R Y O2 (vb_depth V2) dim2 key2 ok2 cf2 bnd2.
    Variables P Q : X -> Prop.
    Hypothesis HPQ : forall v i f v', ok v -> P v -> 0 <= i < dim -> vo_upd O v (key i) f = Ok v' -> Q v'.
    Hypothesis HQP : forall v, Q v -> P v.
    Hypothesis HP0 : forall d, 0 <= d <= N -> P (vo_update_degree O d (vo_new O)).
    Lemma mixed_ok lhs rhs c : ok lhs -> ok2 rhs -> Inv c ->
      exists z c', mixed_multiply R X Y O O2 (tb_depth B) (tb_depth B2) C mult lhs rhs c = Ok (z, c') /\ Inv c' /\ ok z /\ P z /\
        (forall li ri, vo_items O lhs = Ok li -> vo_items O2 rhs = Ok ri -> In (mk_key 0 0) (map fst li) -> In (mk_key 0 0) (map fst ri) -> @r1 R <> r0 -> L [] [] = [[]] -> Q z) /\
        (forall u, wcf R w N cf z u = if inside w n u then bil Sp (wcf R w N cf lhs) (wcf R w N2 cf2 rhs) u else r0) /\
        ((exists u, wcf R w N cf z u <> r0) -> Q z \/ vo_empty O z = false).
    Proof.
      intros Hl Hr Hc. unfold mixed_multiply.
      destruct (g_new _ _ _ _ _ _ _ _ _ HV) as (N1 & N3 & N4 & N5).
      assert (Dl := g_degree _ _ _ _ _ _ _ _ _ HV lhs Hl). assert (Dr := g_degree _ _ _ _ _ _ _ _ _ HV2 rhs Hr).
      cbn [tensor_vb vb_depth] in Dl, Dr. rewrite (depth_N w N B HT) in Dl. rewrite (depth_N w N2 B2 HT2) in Dr.
      assert (Hdim := dim_pos w N HP). assert (Hdim2 := dim_pos w N2 HP2).
      destruct (mixed_fma_ok R X Y O O2 V V2 dim dim2 key key2 (tcnt w) (tcnt w) HBt HBt2 ok cf bnd ok2 cf2 bnd2 HV HV2) with (C := C) (mult := mult) (Inv := Inv) (St := St) (P := P) (Q := Q)
        (out := vo_new O) (lhs := lhs) (rhs := rhs) (fn := fun x : R => x) (c := c) as (z & c' & E & Oz & Iz & Pz & Qz & Cz); auto.
      - cbn [tensor_vb vb_depth]. rewrite (depth_N w N B HT), (depth_N w N2 B2 HT2). auto.
      - intros i j c0 Hi Hj Hd Hc0. cbn [tensor_vb vb_depth] in Hd. rewrite (depth_N w N B HT) in Hd. apply mult_positions; auto.
      - intros i j m Hi Hj Hmm Hd. cbn [tensor_vb vb_depth] in Hd. rewrite (depth_N w N B HT) in Hd. apply St_out; auto.
      - apply N4. cbn [tensor_vb vb_depth]. rewrite (depth_N w N B HT). lia.
      - apply HP0. cbn [tensor_vb vb_depth]. rewrite (depth_N w N B HT). lia.
      - exists z, c'. split; [exact E|]. do 3 (split; [auto|]). split; [|split].
        + intros li ri Eli Eri Hli Hri H10 HLn. apply (Qz 0 0 0 li ri); auto; try lia; rewrite ?tkey0; auto.
          * rewrite key_deg by lia. cbn [tensor_vb vb_depth]. rewrite (depth_N w N B HT). lia.
          * unfold St. change (word w B 0) with (@nil Z). change (word w B2 0) with (@nil Z). rewrite HLn. cbn [count_occ].
            destruct (wdec [] []) as [_|Ne]; [|congruence]. change (rz R (Z.of_nat 1)) with (radd (@r1 R) r0). intros Q0. apply H10. rewrite <- Q0. ring.
        + intros u. unfold wcf at 1. destruct (inside w n u) eqn:Hu; [|reflexivity]. rewrite Cz by (apply (pos_dim w N HP); auto). rewrite N3 by (apply (pos_dim w N HP); auto).
          rewrite bil_sum by auto. rewrite (Radd_0_l (rth R)). unfold bil. apply sum_ext. intros p Hp.
          apply inside_iff in Hu. destruct Hu as [Hu Lu]. assert (Q1 := HSlen u p Hp). destruct (HSok u p Hu Hp).
          rewrite (wcf_in R w N cf lhs) by (auto; lia). rewrite (wcf_in R w N2 cf2 rhs) by (auto; lia). reflexivity.
        + intros (u & Hu). right. destruct (vo_empty O z) eqn:Ez; [|reflexivity]. exfalso. apply Hu. unfold wcf. destruct (inside w n u) eqn:Iu; [|reflexivity].
          apply (g_empty _ _ _ _ _ _ _ _ _ HV z Oz Ez). apply (pos_dim w N HP); auto.
    Qed.
  End Storages.
End Vec.
