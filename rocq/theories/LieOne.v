(** Stored Lie elements and tensors of one context. *)
From Coq Require Import ZArith List Bool Lia ZifyBool.
From Verif Require Import LieObjModel Alg Words Series Shuffle LalBasis LalFma LalTensor LalDense LhSpec ShufFma KeyProofs KeyProofs2 LhProofs HallModel HallSpec HallTab HallDim HallTrees HsProofs HsLemmas BracketModel BracketProofs BracketSem LieSpec L2tProofs Dynkin T2lLemmas L2tLemmas HallIndep LieTab LieBasis LieProd LieMult LieMaps LieVec.
Import ListNotations.
Open Scope Z_scope.

Lemma letters_dec w (v : list Z) : {letters_ok w v} + {~ letters_ok w v}.
Proof. apply Forall_dec. intros x. destruct (Z_le_dec 0 x), (Z_lt_dec x w); (left; lia) || (right; lia). Defined.
Lemma In_firstn {A} (l : list A) k x : In x (firstn k l) -> In x l.
Proof. intros H. rewrite <- (firstn_skipn k l). apply in_or_app. auto. Qed.
(** ** The Dynkin map *)
Section Dyn.
  Variable R : qalg.
  Add Ring Rdy : (rth R).
  Variables w N : Z.
  Hypothesis Hw : 0 < w.
  Hypothesis HN : 0 <= N.
  Notation n := (Z.to_nat N).
  Notation dyn := (dyn R w N).
  Notation tr := (trunc R w n).
  Lemma upto_in u : In u (words_upto w N) -> inside w n u = true /\ u <> [].
  Proof.
    unfold words_upto. rewrite in_flat_map. intros (k & Hk & Hu). apply in_seq in Hk. apply all_words_ok in Hu. destruct Hu as [A Bu]. split; [|intros ->; cbn in Bu; lia].
    apply inside_iff. split; [auto|lia].
  Qed.
  Lemma dyn_ext x y : (forall u, inside w n u = true -> x u = y u) -> forall v, dyn x v = dyn y v.
  Proof. intros H v. apply sum_ext. intros u Hu. rewrite H by (apply upto_in; auto). reflexivity. Qed.
  Lemma dyn_tr x v : dyn (tr x) v = dyn x v.
  Proof. apply dyn_ext. intros u Hu. unfold trunc. rewrite Hu. reflexivity. Qed.
  Lemma rnorm_letters u : letters_ok w u -> forall v, ~ letters_ok w v -> rnorm R u v = r0.
  Proof.
    induction u as [|x u IH]; intros Hu v Hv; [destruct v; [exfalso; apply Hv; constructor|reflexivity]|]. assert (Hx : 0 <= x < w) by (inversion Hu; auto). assert (Hu' : letters_ok w u) by (inversion Hu; auto).
    assert (L : forall v, ~ letters_ok w v -> texpand R (Leaf (x + 1)) v = r0).
    { intros v' Hv'. cbn. destruct v' as [|y [|]]; auto. destruct (Z.eqb_spec y (x + 1 - 1)); auto. exfalso. apply Hv'. constructor; [lia|constructor]. }
    cbn [rnorm]. destruct u as [|y u]; [apply L; auto|].
    assert (C : forall a b : tens R Z, (forall v, ~ letters_ok w v -> a v = r0) -> (forall v, ~ letters_ok w v -> b v = r0) -> conv a b v = r0).
    { intros a b Ha Hb. unfold conv. apply sum_zero. intros k _. destruct (letters_dec w (firstn k v)) as [H1|H1]; [|rewrite Ha by auto; ring].
      rewrite Hb; [ring|]. intros H2. apply Hv. rewrite <- (firstn_skipn k v). apply Forall_app. split; auto. }
    unfold comm, tsub. rewrite !C; auto; ring.
  Qed.
  Theorem dyn_fix x v : primitive n x -> dyn x v = tr x v.
  Proof.
    intros Hp. unfold dyn, words_upto. rewrite sum_flat_map. unfold trunc.
    assert (Hz : forall k, k <> length v -> (1 <= k)%nat -> sum (all_words w k) (fun u => rmul (x u) (rmul (qinv (length u)) (rnorm R u v))) = r0).
    { intros k Hk H1. apply sum_zero. intros u Hu. apply all_words_ok in Hu. destruct Hu as [_ Hu]. rewrite (rnorm_homog R u); [ring|intros ->; cbn in Hu; lia|lia]. }
    destruct (inside w n v) eqn:Hv.
    - apply inside_iff in Hv. destruct Hv as [Hv Hl]. destruct Hp as [Hp0 Hp]. destruct v as [|y v].
      + rewrite Hp0. apply sum_zero. intros k Hk. apply in_seq in Hk. apply Hz; cbn; lia.
      + rewrite (sum_single _ _ _ (length (y :: v))); [|apply seq_NoDup|apply in_seq; cbn [length] in *; lia|intros k Hk Hne; apply in_seq in Hk; apply Hz; auto; lia].
        rewrite (sum_ext _ _ _ (fun u => rmul (qinv (length (y :: v))) (rmul (x u) (rnorm R u (y :: v))))).
        2:{ intros u Hu. apply all_words_ok in Hu. destruct Hu as [_ ->]. ring. }
        assert (Hva : vanishes R w n x) by (intros u u' _ _ H1 H2 H3; apply Hp; auto).
        rewrite sum_mul_l, (dynkin R w n x (y :: v) Hva Hv ltac:(discriminate) Hl).
        transitivity (rmul (rmul (rnat (length (y :: v))) (qinv (length (y :: v)))) (x (y :: v))); [ring|]. rewrite qinv_ok by (cbn [length]; lia). ring.
    - apply sum_zero. intros k Hk. apply in_seq in Hk. apply sum_zero. intros u Hu. apply all_words_ok in Hu. destruct Hu as [Hu Hlu].
      destruct (letters_dec w v) as [Hlv|Hlv].
      + rewrite (rnorm_homog R u); [ring|intros ->; cbn in Hlu; lia|]. intros E. assert (inside w n v = true) by (apply inside_iff; split; [auto|lia]). congruence.
      + rewrite rnorm_letters by auto. ring.
  Qed.
End Dyn.

Section One.
  Variable R : qalg.
  Add Ring Ro : (rth R).
  Variable req : R -> R -> bool.
  Hypothesis Hreq : forall x y, req x y = true <-> x = y.
  Hypothesis R10 : @r1 R <> r0.
  Variables (w N : Z) (L : lctx).
  Hypothesis HC : ctx_ok w N L.
  Notation M := (nM w N). Notation H := (lc_h L). Notation B := (lc_t L). Notation n := (Z.to_nat N).
  Let Hw : 1 <= w := c_w w N L HC.
  Let HN : 1 <= N <= 254 := c_N w N L HC.
  Let HP : packs w N := c_packs w N L HC.
  Let HT : tb_ok w N B := c_tb w N L HC.
  Let HS : sized w N := proj1 (proj2 HC).
  Let HN1 : 1 <= N := proj1 HN.
  Notation tensor := (tens R Z).
  Notation tr := (trunc R w n).
  Notation HB := (hall_basis_ok w N L HC).
  Notation LD := (dense_good R req Hreq (hall_vb L) M (lkey w) (lcnt w) HB).
  Notation LS := (sparse_good R req Hreq (hall_vb L) M (lkey w) (lcnt w) HB).
  Notation TD := (dense_tgood R req Hreq w N B HP HS HT).
  Notation TS := (sparse_tgood R req Hreq w N B HP HS HT).
  Notation lval := (lval R w N).
  Notation minv := (minv w N).
  Definition kd (dense : bool) : kind := if dense then KDense else KSparse.
  (** Stored Lie elements and tensors *)
  Definition lrep (d : tdata R) (t : tensor) : Prop :=
    match d with
    | LhModel.Dn v => d_ok R (hall_vb L) (lcnt w) v /\ forall u, lval (dv_at R v) u = t u
    | LhModel.Sp v => s_ok R M (lkey w) v /\ forall u, lval (s_cf R (lkey w) v) u = t u
    end.
  Definition trep (d : tdata R) (t : tensor) : Prop := drep R w N B (kd (is_dense R d)) d t.
  Lemma lrep_ext d t t' : (forall u, t u = t' u) -> lrep d t -> lrep d t'.
  Proof. intros E. destruct d; intros [A C]; (split; [auto|]); intros u; rewrite C; auto. Qed.
  Lemma trep_ext d t t' : (forall u, t u = t' u) -> trep d t -> trep d t'.
  Proof. intros E. apply drep_ext; auto. Qed.
  Lemma trep_out d t u : trep d t -> inside w n u = false -> t u = r0.
  Proof. intros Hd Hu. eapply drep_out; eauto. Qed.
  Lemma lrep_lval d t : lrep d t -> exists c, forall u, t u = lval c u.
  Proof. destruct d; intros [_ C]; eexists; intros u; rewrite <- C; reflexivity. Qed.
  Lemma lrep_out d t u : lrep d t -> inside w n u = false -> t u = r0.
  Proof. intros Hd Hu. destruct (lrep_lval d t Hd) as (c & C). rewrite C. apply (lval_out R w N L HC); auto. Qed.
  Lemma lrep_tr d t : lrep d t -> forall u, tr t u = t u.
  Proof. intros Hd u. unfold trunc. destruct (inside w n u) eqn:E; [reflexivity|]. symmetry. eapply lrep_out; eauto. Qed.
  Lemma lrep_prim d t : lrep d t -> primitive n t.
  Proof. intros Hd. destruct (lrep_lval d t Hd) as (c & C). apply (primitive_local R Z n (lval c)); [intros; symmetry; auto|]. apply lval_prim. Qed.
  Lemma lrep_nil d t : lrep d t -> t [] = r0.
  Proof. intros Hd. destruct (lrep_prim d t Hd) as [X _]. exact X. Qed.
  Lemma trep_kind k d t : drep R w N B k d t -> k <> KCleared -> trep d t.
  Proof. intros Hd Hk. unfold trep. destruct k; [destruct Hd| | |congruence]; assert (Hd' := Hd); destruct Hd' as (v & -> & _); exact Hd. Qed.
  Lemma kd_fresh b : fresh (kd b) = kd b. Proof. destruct b; reflexivity. Qed.
  Lemma kd_clear b : kd b <> KCleared. Proof. destruct b; discriminate. Qed.
  Lemma kd_null b : kd b <> KNull. Proof. destruct b; discriminate. Qed.
  Lemma kd_dense b d t : drep R w N B (kd b) d t -> is_dense R d = b.
  Proof. destruct b; intros (v & -> & _); reflexivity. Qed.
  Lemma lconstruct_td_ok dense keys data :
    match keys with None => True | Some ks => length ks = length data /\ Forall (fun i => 0 <= i < M) ks end ->
    exists d, lie_construct_td R req L dense keys data = Ok d /\ is_dense R d = dense /\ lrep d (lval (fun i => match keys with
        | None => nth (Z.to_nat i) data r0
        | Some ks => fold_left (fun acc e => if fst e =? i then snd e else acc) (firstn (Z.to_nat M) (combine ks data)) r0 end)).
  Proof.
    intros Hk. unfold lie_construct_td. destruct dense.
    - destruct (lconstruct_ok R w N L HC _ _ _ _ _ LD keys data Hk) as (v & -> & Ov & Cv). cbn [bind]. exists (LhModel.Dn v). split; [reflexivity|]. split; [reflexivity|]. split; [auto|].
      intros u. apply lval_ext. auto.
    - destruct (lconstruct_ok R w N L HC _ _ _ _ _ LS keys data Hk) as (v & -> & Ov & Cv). cbn [bind]. exists (LhModel.Sp v). split; [reflexivity|]. split; [reflexivity|]. split; [auto|].
      intros u. apply lval_ext. auto.
  Qed.
  Lemma l2t_td_ok d t m : lrep d t -> minv m -> exists d' m', l2t_td R req Ok L d m = Ok (d', m') /\ minv m' /\ is_dense R d' = is_dense R d /\ trep d' t.
  Proof.
    intros Hd Hm. destruct d as [v|v]; destruct Hd as [Ov Cv]; unfold l2t_td.
    - destruct (l2t_ok R w N L HC _ _ _ _ _ LD _ _ _ _ _ _ TD v m Ov Hm) as (y & m' & -> & Im & Fy & Cy). cbn [bind]. exists (LhModel.Dn y), m'. split; [reflexivity|]. split; [auto|]. split; [reflexivity|].
      exists y. split; [reflexivity|]. split; [auto|]. intros u. rewrite Cy, Cv. reflexivity.
    - destruct (l2t_ok R w N L HC _ _ _ _ _ LS _ _ _ _ _ _ TS v m Ov Hm) as (y & m' & -> & Im & Fy & Cy). cbn [bind]. exists (LhModel.Sp y), m'. split; [reflexivity|]. split; [auto|]. split; [reflexivity|].
      exists y. split; [reflexivity|]. split; [auto|]. intros u. rewrite Cy, Cv. reflexivity.
  Qed.
  Lemma t2l_td_ok d t m : trep d t -> minv m -> exists d' m', t2l_td R req Ok L d m = Ok (d', m') /\ minv m' /\ is_dense R d' = is_dense R d /\ lrep d' (dyn R w N t).
  Proof.
    intros Hd Hm. unfold trep in Hd. destruct d as [v|v]; cbn in Hd; destruct Hd as (v' & E & Ov & Cv); injection E as <-; unfold t2l_td.
    - destruct (t2l_ok R w N L HC _ _ _ _ _ LD _ _ _ _ _ _ TD v m (fr_st R w N HP v Ov) Hm) as (y & m' & -> & Im & Fy & Cy). cbn [bind]. exists (LhModel.Dn y), m'. split; [reflexivity|]. split; [auto|]. split; [reflexivity|].
      split; [auto|]. intros u. rewrite Cy. apply dyn_ext. intros x _. apply Cv.
    - destruct (t2l_ok R w N L HC _ _ _ _ _ LS _ _ _ _ _ _ TS v m Ov Hm) as (y & m' & -> & Im & Fy & Cy). cbn [bind]. exists (LhModel.Sp y), m'. split; [reflexivity|]. split; [auto|]. split; [reflexivity|].
      split; [auto|]. intros u. rewrite Cy. apply dyn_ext. intros x _. apply Cv.
  Qed.
End One.

(** ** A tensor of one context in another of the same width *)
Section Conv.
  Variable R : qalg.
  Add Ring Rcv : (rth R).
  Variable req : R -> R -> bool.
  Hypothesis Hreq : forall x y, req x y = true <-> x = y.
  Variables (w N1 N2 : Z) (L1 L2 : lctx).
  Hypothesis H1 : ctx_ok w N1 L1.
  Hypothesis H2 : ctx_ok w N2 L2.
  Notation n1 := (Z.to_nat N1). Notation n2 := (Z.to_nat N2).
  Let HP1 : packs w N1 := c_packs w N1 L1 H1.
  Let HT1 : tb_ok w N1 (lc_t L1) := c_tb w N1 L1 H1.
  Let HS1 : sized w N1 := proj1 (proj2 H1).
  Let HP2 : packs w N2 := c_packs w N2 L2 H2.
  Let HT2 : tb_ok w N2 (lc_t L2) := c_tb w N2 L2 H2.
  Let HS2 : sized w N2 := proj1 (proj2 H2).
  Let A1 : 1 <= N1 <= 254 := c_N w N1 L1 H1.
  Let A2 : 1 <= N2 <= 254 := c_N w N2 L2 H2.
  Let Aw : 1 <= w := c_w w N1 L1 H1.
  Notation dim1 := (tdim w N1). Notation dim2 := (tdim w N2).
  Lemma dim_mono : N1 <= N2 -> dim1 <= dim2.
  Proof. intros. unfold tdim. apply words_below_mono; lia. Qed.
  Lemma conv_tensor_ok dense d t : trep R w N1 L1 d t -> is_dense R d = true \/ N1 <= N2 ->
    exists d', conv_tensor R req L2 (lc_t L1) dense d = Ok d' /\ is_dense R d' = dense /\ trep R w N2 L2 d' (trunc R w n2 t).
  Proof.
    intros Hd Hor. unfold conv_tensor.
    destruct (populate_ok R req Hreq w N1 (lc_t L1) HP1 HS1 HT1 (proj1 A1) _ _ _ Hd) as (ks & data & Ep & Hk & Cp). rewrite Ep. cbn [bind].
    assert (Out : forall u, inside w n1 u = false -> t u = r0) by (intros u Hu; destruct d; destruct Hd as (v' & _ & _ & C); rewrite <- C; unfold wcf; rewrite Hu; reflexivity).
    assert (Hk2 : match ks with None => True | Some ks => length ks = length data /\ Forall (fun i => 0 <= i < dim2) ks end).
    { destruct ks as [ks|]; [|exact I]. destruct Hk as [Hl Hf]. split; [auto|]. destruct d as [v|v]; [cbn in Ep; discriminate|]. destruct Hor as [Hor|Hor]; [discriminate|].
      assert (Q := dim_mono Hor). eapply Forall_impl; [|exact Hf]. cbv beta. intros; lia. }
    assert (Main : forall u, trunc R w n2 (fun u => given R w n2 ks data (pos w u)) u = trunc R w n2 t u).
    { intros u. unfold trunc. destruct (inside w n2 u) eqn:I2; [|reflexivity].
      assert (Small : inside w n1 u = true -> (forall u, given R w n2 ks data (pos w u) = given R w n1 ks data (pos w u)) -> given R w n2 ks data (pos w u) = t u).
      { intros I1 E. rewrite E, <- Cp. unfold trunc. rewrite I1. reflexivity. }
      assert (Big : inside w n1 u = false -> dim1 <= pos w u /\ N1 <= N2).
      { intros I1. apply inside_iff in I2. destruct I2 as [Iu Il].
        assert (X : (n1 < length u)%nat) by (destruct (Nat.ltb_spec n1 (length u)); auto; assert (inside w n1 u = true) by (apply inside_iff; split; auto; lia); congruence).
        split; [|lia]. unfold pos. assert (Q := idx_bound w ltac:(lia) u Iu). unfold tdim. assert (Q2 : words_below w (S n1) <= words_below w (length u)) by (apply words_below_mono; lia). lia. }
      destruct ks as [ks|].
      - assert (Sp : N1 <= N2) by (destruct d as [v|v]; [cbn in Ep; discriminate|]; destruct Hor as [Hor|Hor]; [discriminate|auto]).
        assert (Ln : Z.of_nat (length data) <= dim1).
        { destruct d as [v|v]; [cbn in Ep; discriminate|]. destruct Hd as (v' & E & Sv & _). injection E as <-. destruct Sv as [S1 S2].
          unfold populate in Ep. destruct (omap _ v) as [l| | |] eqn:Eo; try discriminate. cbn [bind] in Ep. injection Ep as E1 <-.
          assert (S3 := sparse_items R req Hreq w N1 (lc_t L1) HP1 HS1 HT1 v (conj S1 S2)). destruct S3 as (li & -> & Hl & Hs & _). rewrite !map_length.
          assert (Q := sorted_length (map (fun e : list Z * R => pos w (fst e)) li) dim1). rewrite map_length in Q. assert (D := dim_pos w N1 HP1).
          cut (Z.of_nat (length li) <= Z.max 0 dim1); [lia|]. apply Q.
          - intros a b l1 l2 E Hb. apply map_eq_app in E. destruct E as (m1 & m2 & Em & Ea & E2). apply map_eq_cons in E2. destruct E2 as (x & m3 & -> & <- & <-).
            apply in_map_iff in Hb. destruct Hb as (y & <- & Hy). apply (Hs x y m1 m3 Em Hy).
          - intros i Hi. apply in_map_iff in Hi. destruct Hi as (e & <- & He). apply (pos_dim w N1 HP1). auto. }
        assert (Qd := dim_mono Sp). destruct Hk as [Hl Hf].
        assert (Eg : forall u, given R w n2 (Some ks) data (pos w u) = given R w n1 (Some ks) data (pos w u)).
        { intros v. cbn [given]. change (words_below w (S n2)) with dim2. change (words_below w (S n1)) with dim1. rewrite !firstn_all2; [reflexivity| |]; rewrite combine_length; lia. }
        destruct (inside w n1 u) eqn:I1; [apply Small; auto|]. destruct (Big eq_refl) as [B1 _].
        rewrite Out by auto. cbn [given]. rewrite Forall_forall in Hf.
        apply (fold_put_none (R := R)). intros e He. apply In_firstn in He. destruct e as [i x]. apply in_combine_l in He. specialize (Hf i He). cbn [fst]. lia.
      - destruct (inside w n1 u) eqn:I1; [apply Small; auto|]. destruct (Big eq_refl) as [B1 B2]. rewrite Out by auto. cbn [given].
        apply nth_overflow. destruct d as [v|v]; cbn in Ep.
        + injection Ep as <-. destruct Hd as (v' & E & Fv & _). injection E as <-. rewrite map_length.
          assert (Lz : length (zrange (blen (dv_data v))) = Z.to_nat (blen (dv_data v))) by (unfold zrange; generalize 0; induction (Z.to_nat (blen (dv_data v))); intros; cbn [zseq length]; auto).
          rewrite Lz. assert (Lv : blen (dv_data v) <= dim1); [|lia]. destruct Fv as [F1 [F2|[F2 _]]]; [|assert (D := dim_pos w N1 HP1); lia].
          rewrite F2. unfold tcnt, tdim. apply words_below_mono; lia.
        + destruct (omap _ v) as [l| | |]; try discriminate. cbn [bind] in Ep. destruct v as [|e v]; [injection Ep as <-; cbn; lia|cbn in Ep; discriminate]. }
    destruct dense.
    - destruct (LhProofs.construct_ok R w N2 (lc_t L2) HP2 HS2 HT2 ltac:(lia) _ _ _ _ _ _ _ (dense_tgood R req Hreq w N2 (lc_t L2) HP2 HS2 HT2) ks data Hk2) as (v & -> & Fv & Cv).
      cbn [bind]. exists (LhModel.Dn v). split; [reflexivity|]. split; [reflexivity|]. exists v. split; [reflexivity|]. split; [auto|]. intros u. rewrite Cv. apply Main.
    - destruct (LhProofs.construct_ok R w N2 (lc_t L2) HP2 HS2 HT2 ltac:(lia) _ _ _ _ _ _ _ (sparse_tgood R req Hreq w N2 (lc_t L2) HP2 HS2 HT2) ks data Hk2) as (v & -> & Fv & Cv).
      cbn [bind]. exists (LhModel.Sp v). split; [reflexivity|]. split; [reflexivity|]. exists v. split; [reflexivity|]. split; [auto|]. intros u. rewrite Cv. apply Main.
  Qed.
End Conv.
