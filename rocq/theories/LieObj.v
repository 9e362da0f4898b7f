(** Programs over Lie and tensor objects compute as specified. *)
From Coq Require Import ZArith List Bool Lia ZifyBool.
From Verif Require Import LieObjModel Alg PowerSeries Words Series Shuffle Dual Dexp LalBasis LalFma LalTensor LalDense LalFun LhSpec ShufFma KeyProofs KeyProofs2 LhProofs HallModel HallSpec HallTab HallDim HallTrees HsProofs HsLemmas BracketModel BracketProofs BracketSem LieSpec L2tProofs Dynkin T2lLemmas L2tLemmas HallIndep LieTab LieBasis LieProd LieMult LieMaps LieVec LieOne LieTwo LieThree.
From Verif Require Import Cbh LieObjSpec.
Import ListNotations.
Open Scope Z_scope.

(** ** Trees named by a Hall set *)
Section Named.
  Variables (w N : Z) (L : lctx).
  Hypothesis HC : ctx_ok w N L.
  Let Hw : 1 <= w := c_w w N L HC.
  Let HN : 1 <= N <= 254 := c_N w N L HC.
  Lemma named_tr : forall m k t, (Z.to_nat k <= m)%nat -> 1 <= k <= nM w N -> named (lc_h L) (UK w k) t -> t = HallTrees.tr (nL w N) (nR w N) k.
  Proof.
    assert (HU := UH w Hw). assert (HH := nH w Hw N HN). assert (HM := nM_le w Hw N HN).
    induction m as [|m IH]; intros k t Hm Hk Ht; [lia|].
    destruct (uk_read w N L HC k Hk) as [Ed Ei]. assert (Gi := ug_in w Hw N HN k Hk). destruct (dg_level _ _ _ _ _ _ HU k ltac:(lia)) as [A1 A2]. fold (ug w k) in A1, A2.
    inversion Ht as [k' D1 E1 E2|k' a b s t' D1 P Hs Ht' E1 E2]; subst.
    - rewrite Ed in D1. rewrite D1 in *. rewrite Ei, (hd_1 _ _ _ _ _ _ HU) in *. rewrite (level_letter _ _ _ _ _ _ HU) in A2 || (rewrite <- (hd_1 _ _ _ _ _ _ HU) in A2 at 1; apply (level_letter _ _ _ _ _ _ HU) in A2).
      rewrite (tr_letter _ _ _ _ _ _ HH) by lia. f_equal. lia.
    - rewrite Ed in D1. assert (Kw : w < k).
      { destruct (Z_le_gt_dec k w) as [Hkw|]; [|lia]. exfalso. apply D1. apply (dg_eq _ _ _ _ _ _ HU); [assert (Q := UN_eq); lia|]. apply (level_letter _ _ _ _ _ _ HU). lia. }
      rewrite (uk_parents w N L HC k Hk Kw) in P. injection P as <- <-.
      destruct (node_dg _ _ _ _ _ _ HH k Hk ltac:(lia)) as (B1 & B2 & B3 & B4 & B5 & B6). destruct (dg_level _ _ _ _ _ _ HH k Hk) as [D2 D3].
      assert (D4 : dg N (ndb w N) k <> 1) by (rewrite (ng_eq w Hw N HN) by auto; exact D1).
      rewrite (tr_node _ _ _ _ _ _ HH (dg N (ndb w N) k) k) by (auto; lia). f_equal; apply IH; auto; lia.
  Qed.
End Named.

Section Programs.
  Variable R : qalg.
  Add Ring Rpr : (rth R).
  Variable req : R -> R -> bool.
  Hypothesis Hreq : forall x y, req x y = true <-> x = y.
  Hypothesis R10 : @r1 R <> r0.
  Variables (width depth dims : Z -> Z) (trees : Z -> Z -> tree) (ctxs : Z -> lctx).
  Notation good := (lie_context width depth dims trees ctxs).
  Notation dn c := (Z.to_nat (depth c)).
  Notation tensor := (tens R Z).
  Notation vobj := (vobj R). Notation lobj := (lobj R).
  Notation lrp c := (lrep R (width c) (depth c) (ctxs c)).
  Notation trp c := (trep R (width c) (depth c) (ctxs c)).
  Notation cut c := (cutc R width depth c).
  Lemma good_ok c : good c -> ctx_ok (width c) (depth c) (ctxs c).
  Proof. intros (A1 & A2 & A3 & A4 & A5 & _). unfold ctx_ok. auto. Qed.
  Lemma good_dims c : good c -> dims c = nM (width c) (depth c).
  Proof. intros G. assert (E := c_size _ _ _ (good_ok c G)). destruct G as (_ & _ & _ & _ & _ & A & _). rewrite A in E. injection E as ->. reflexivity. Qed.
  Lemma good_trees c i : good c -> 0 <= i < dims c -> trees c i = HallTrees.tr (UL (width c)) (UR (width c)) (i + 1).
  Proof.
    intros G Hi. assert (HC := good_ok c G). rewrite <- (ntr (width c) (c_w _ _ _ HC) (depth c) (c_N _ _ _ HC)) by (rewrite <- good_dims by auto; lia).
    assert (E := good_dims c G). destruct G as (_ & _ & _ & _ & _ & _ & A). destruct (A i Hi) as (k & Ek & Nk). rewrite (c_key _ _ _ HC) in Ek by lia. injection Ek as <-.
    apply (named_tr _ _ _ HC (Z.to_nat (i + 1))); [lia|lia|exact Nk].
  Qed.
  Lemma combo_ok c co u : good c -> combo R dims trees c co u = lval R (width c) (depth c) co u.
  Proof. intros G. unfold combo, lval. rewrite (good_dims c G). apply sum_ext. intros i Hi. apply zrange_In in Hi. rewrite good_trees by (auto; rewrite good_dims by auto; lia). reflexivity. Qed.
  Lemma lrep_any c d t m : lrp c d t -> primitive m t.
  Proof.
    intros Hd. destruct (lrep_lval _ _ _ _ _ _ Hd) as (co & E). apply (primitive_local R Z m (lval R (width c) (depth c) co)); [intros u _; auto|].
    unfold lval. induction (zrange (nM (width c) (depth c))) as [|i l IH]; cbn [sum]; [apply primitive_zero|].
    apply (primitive_add R Z m (tscal (co i) (texpand R (HallTrees.tr (UL (width c)) (UR (width c)) (i + 1)))) (fun u => sum l (fun i => rmul (co i) (texpand R (HallTrees.tr (UL (width c)) (UR (width c)) (i + 1)) u)))); [|exact IH].
    apply primitive_scal, texpand_primitive.
  Qed.

  (** ** States *)
  Definition orep (o : lobj) (v : vobj) : Prop := lo_ctx o = v_ctx R v /\ lo_lie o = v_lie R v /\ is_dense R (lo_data o) = v_dense R v /\ good (v_ctx R v) /\
    if v_lie R v then lrp (v_ctx R v) (lo_data o) (v_val R v) else trp (v_ctx R v) (lo_data o) (v_val R v).
  Definition crep (cs : lcaches) : Prop := (forall w, cinv w (lie_c cs w)) /\ forall c, good c -> xinv (width c) (depth c) (exp_c cs c) /\ rinv (width c) (depth c) (fun _ => False) (rbr_c cs c).
  Definition erep (e : lenv R) (t : venv R) : Prop := forall x, match e x, t x with Some o, Some v => orep o v | None, None => True | _, _ => False end.
  Notation minv c := (LieVec.minv (width c) (depth c)).
  Lemma erep_set e t x o v : erep e t -> orep o v -> erep (lset R e x o) (vset R t x v).
  Proof. intros He Ho y. unfold lset, vset. destruct (y =? x); [exact Ho|apply He]. Qed.
  Lemma lget_ok cs c : good c -> crep cs -> minv c (lget ctxs cs c).
  Proof. intros G [C1 C2]. destruct (C2 c G). unfold lget. rewrite (c_width _ _ _ (good_ok c G)). split; [apply C1|]. auto. Qed.
  Lemma lput_ok cs c m : good c -> crep cs -> minv c m -> crep (lput ctxs cs c m).
  Proof.
    intros G [C1 C2] (M1 & M2 & M3). unfold lput. rewrite (c_width _ _ _ (good_ok c G)). split; cbn [lie_c exp_c rbr_c]; unfold put.
    - intros w. destruct (Z.eqb_spec w (width c)) as [->|]; auto.
    - intros c' G'. destruct (Z.eqb_spec c' c) as [->|]; auto.
  Qed.
  Lemma within_ok {A} c (f : mcache -> outcome (A * mcache)) cs (P : A -> Prop) : good c -> crep cs ->
    (forall m, minv c m -> exists a m', f m = Ok (a, m') /\ minv c m' /\ P a) -> exists a cs', within ctxs c f cs = Ok (a, cs') /\ crep cs' /\ P a.
  Proof.
    intros G Hc Hf. unfold within. destruct (Hf _ (lget_ok cs c G Hc)) as (a & m' & -> & Im & Pa). cbn [bind]. exists a, (lput ctxs cs c m'). split; [reflexivity|]. split; [apply lput_ok; auto|auto].
  Qed.

  (** ** Conversions *)
  Lemma same_width c c' : good c -> width c = width c' -> ctx_ok (width c') (depth c) (ctxs c).
  Proof. intros G <-. apply good_ok; auto. Qed.
  Lemma conv_c c c' dense d t : good c -> good c' -> width c' = width c -> is_dense R d = true \/ depth c' <= depth c -> trp c' d t ->
    exists d', conv_tensor R req (ctxs c) (lc_t (ctxs c')) dense d = Ok d' /\ is_dense R d' = dense /\ trp c d' (cut c t).
  Proof.
    intros G G' Ew Hd Ht. rewrite Ew in Ht. exact (conv_tensor_ok R req Hreq (width c) (depth c') (depth c) (ctxs c') (ctxs c) (same_width c' c G' Ew) (good_ok c G) dense d t Ht Hd).
  Qed.
  Lemma l2t_impl_ok c dense a va cs : good c -> orep a va -> v_lie R va = true -> usable R width depth c va -> (v_ctx R va = c -> v_dense R va = dense) -> crep cs ->
    exists t cs', l2t_impl R req Ok ctxs c dense a cs = Ok (t, cs') /\ crep cs' /\ is_dense R t = dense /\ trp c t (cut c (v_val R va)).
  Proof.
    intros G (E1 & E2 & E3 & G' & Hd) El Hu Hs Hc. rewrite El in Hd. unfold l2t_impl. rewrite E1, E3. destruct (Z.eqb_spec (v_ctx R va) c) as [Ec|Ec].
    - rewrite (Hs Ec), Bool.eqb_reflx. rewrite Ec in *.
      destruct (within_ok c (l2t_td R req Ok (ctxs c) (lo_data a)) cs (fun t => is_dense R t = dense /\ trp c t (cut c (v_val R va))) G Hc) as (t & cs' & -> & Hc' & Pt); [|exists t, cs'; auto].
      intros m Hm. destruct (l2t_td_ok R req Hreq _ _ _ (good_ok c G) _ _ m Hd Hm) as (t & m' & -> & Im & Et & Tt). exists t, m'. split; [reflexivity|]. split; [auto|]. split; [rewrite Et, E3; auto|].
      eapply trep_ext; [|exact Tt]. intros u. symmetry. apply (lrep_tr R _ _ _ (good_ok c G) _ _ Hd).
    - destruct Hu as [Hu|[Hw Hu]]; [contradiction|]. rewrite (c_width _ _ _ (good_ok _ G')), (c_width _ _ _ (good_ok _ G)), Hw, Z.eqb_refl. cbn [negb].
      destruct (within_ok (v_ctx R va) (l2t_td R req Ok (ctxs (v_ctx R va)) (lo_data a)) cs (fun t => is_dense R t = v_dense R va /\ trp (v_ctx R va) t (v_val R va)) G' Hc) as (t & cs' & -> & Hc' & Dt & Tt).
      + intros m Hm. destruct (l2t_td_ok R req Hreq _ _ _ (good_ok _ G') _ _ m Hd Hm) as (t & m' & -> & Im & Et & Tt). exists t, m'. split; [reflexivity|]. split; [auto|]. split; [congruence|auto].
      + cbn [bind]. destruct (conv_c c (v_ctx R va) dense t (v_val R va) G G' Hw) as (d' & -> & D' & T'); [rewrite Dt; auto|auto|]. cbn [bind]. exists d', cs'. auto.
  Qed.
  Lemma to_tensor_ok c a va cs : good c -> orep a va -> v_lie R va = true -> usable R width depth c va -> crep cs ->
    exists o cs', ctx_lie_to_tensor R req Ok ctxs c a cs = Ok (o, cs') /\ crep cs' /\ orep o (mkV R c false (v_dense R va) (cut c (v_val R va))).
  Proof.
    intros G Ho El Hu Hc. unfold ctx_lie_to_tensor. assert (E3 := proj1 (proj2 (proj2 Ho))). rewrite E3. destruct (l2t_impl_ok c (v_dense R va) a va cs G Ho El Hu ltac:(auto) Hc) as (t & cs' & -> & Hc' & Dt & Tt).
    cbn [bind]. eexists. exists cs'. split; [reflexivity|]. split; [auto|]. split; [reflexivity|]. split; [reflexivity|]. split; [auto|]. split; auto.
  Qed.
  Lemma to_lie_ok c a va cs : good c -> orep a va -> v_lie R va = false -> usable R width depth c va -> crep cs ->
    exists o cs', ctx_tensor_to_lie R req Ok ctxs c a cs = Ok (o, cs') /\ crep cs' /\ orep o (mkV R c true (v_dense R va) (project R width depth c (v_val R va))).
  Proof.
    intros G (E1 & E2 & E3 & G' & Hd) El Hu Hc. rewrite El in Hd. unfold ctx_tensor_to_lie. rewrite E1.
    assert (Main : forall d t, trp c d t -> is_dense R d = v_dense R va -> (forall v, dyn R (width c) (depth c) t v = dyn R (width c) (depth c) (v_val R va) v) ->
      exists t' cs', within ctxs c (t2l_td R req Ok (ctxs c) d) cs = Ok (t', cs') /\ crep cs' /\ is_dense R t' = v_dense R va /\ lrp c t' (project R width depth c (v_val R va))).
    { intros d t Td Dd Et. apply (within_ok c (t2l_td R req Ok (ctxs c) d) cs (fun t' => is_dense R t' = v_dense R va /\ lrp c t' (project R width depth c (v_val R va))) G Hc).
      intros m Hm. destruct (t2l_td_ok R req Hreq _ _ _ (good_ok c G) d t m Td Hm) as (t' & m' & -> & Im & Et' & Tt'). exists t', m'. split; [reflexivity|]. split; [auto|]. split; [congruence|].
      eapply lrep_ext; [|exact Tt']. exact Et. }
    destruct (Z.eqb_spec (v_ctx R va) c) as [Ec|Ec].
    - rewrite Ec in Hd. destruct (Main _ _ Hd E3 ltac:(reflexivity)) as (t' & cs' & -> & Hc' & D' & T'). cbn [bind]. eexists. exists cs'. split; [reflexivity|]. split; [auto|]. split; [reflexivity|]. split; [reflexivity|]. auto.
    - destruct Hu as [Hu|[Hw Hu]]; [contradiction|]. rewrite (c_width _ _ _ (good_ok _ G')), (c_width _ _ _ (good_ok _ G)), Hw, Z.eqb_refl. cbn [negb].
      destruct (conv_c c (v_ctx R va) (is_dense R (lo_data a)) _ _ G G' Hw ltac:(rewrite E3; exact Hu) Hd) as (d' & -> & D' & T'). cbn [bind].
      destruct (Main _ _ T' ltac:(congruence) ltac:(intros v; apply (dyn_tr R (width c) (depth c)))) as (t' & cs' & -> & Hc' & D2 & T2). cbn [bind]. eexists. exists cs'. split; [reflexivity|]. split; [auto|]. split; [reflexivity|]. split; [reflexivity|]. auto.
  Qed.
  Lemma convert_lie_ok c dense a va cs : good c -> orep a va -> v_lie R va = true -> usable R width depth c va -> crep cs ->
    exists o cs', ctx_convert_lie R req Ok ctxs c dense a cs = Ok (o, cs') /\ crep cs' /\ orep o (mkV R c true dense (cut c (v_val R va))).
  Proof.
    intros G (E1 & E2 & E3 & G' & Hd) El Hu Hc. rewrite El in Hd. unfold ctx_convert_lie. rewrite E1.
    assert (Hw : width (v_ctx R va) = width c) by (destruct Hu as [->|[Hw _]]; auto).
    destruct (within_ok (v_ctx R va) (l2t_td R req Ok (ctxs (v_ctx R va)) (lo_data a)) cs (fun t => is_dense R t = v_dense R va /\ trp (v_ctx R va) t (v_val R va)) G' Hc) as (t & cs' & -> & Hc' & Dt & Tt).
    { intros m Hm. destruct (l2t_td_ok R req Hreq _ _ _ (good_ok _ G') _ _ m Hd Hm) as (t & m' & -> & Im & Et & Tt). exists t, m'. split; [reflexivity|]. split; [auto|]. split; [congruence|auto]. }
    cbn [bind]. destruct (conv_c c (v_ctx R va) dense t (v_val R va) G G' Hw) as (d' & -> & D' & T'); [rewrite Dt; destruct Hu as [->|[_ Hu]]; [right; lia|exact Hu]|auto|]. cbn [bind].
    destruct (within_ok c (t2l_td R req Ok (ctxs c) d') cs' (fun t' => is_dense R t' = dense /\ lrp c t' (cut c (v_val R va))) G Hc') as (t' & cs2 & -> & Hc2 & D2 & T2).
    { intros m Hm. destruct (t2l_td_ok R req Hreq _ _ _ (good_ok c G) d' _ m T' Hm) as (t' & m' & -> & Im & Et' & Tt'). exists t', m'. split; [reflexivity|]. split; [auto|]. split; [congruence|].
      eapply lrep_ext; [|exact Tt']. intros u. unfold cutc. rewrite dyn_tr. apply dyn_fix. eapply lrep_any; eauto. }
    cbn [bind]. eexists. exists cs2. split; [reflexivity|]. split; [auto|]. split; [reflexivity|]. split; [reflexivity|]. auto.
  Qed.

  (** ** Products of exponentials *)
  Lemma cut_in c (f g : tensor) u : (forall v, inside (width c) (dn c) v = true -> f v = g v) -> cut c f u = cut c g u.
  Proof. intros E. unfold cutc, LhSpec.trunc. destruct (inside (width c) (dn c) u) eqn:Iu; auto. Qed.
  Lemma cut_val c (f : tensor) v : inside (width c) (dn c) v = true -> cut c f v = f v.
  Proof. intros H. unfold cutc, LhSpec.trunc. rewrite H. reflexivity. Qed.
  Lemma cut_nil c (f : tensor) : cut c f [] = f []. Proof. reflexivity. Qed.
  Lemma orep_nil a va : orep a va -> v_lie R va = true -> v_val R va [] = r0.
  Proof. intros (_ & _ & _ & G & Hd) El. rewrite El in Hd. exact (lrep_nil R _ _ _ _ _ Hd). Qed.
  Lemma orep_prim a va m : orep a va -> v_lie R va = true -> primitive m (v_val R va).
  Proof. intros (_ & _ & _ & _ & Hd) El. rewrite El in Hd. eapply lrep_any; eauto. Qed.
  Lemma one_cut c : forall u, tone u = cut c (@tone R Z) u.
  Proof. intros u. unfold cutc, LhSpec.trunc. destruct (inside (width c) (dn c) u) eqn:Iu; [reflexivity|]. destruct u; [discriminate|reflexivity]. Qed.
  Lemma conv_texp_cut c (g x : tensor) u : cut c (conv (cut c g) (texp (dn c) (cut c x))) u = cut c (conv g (texp (dn c) x)) u.
  Proof.
    apply cut_in. intros v Hv. apply (conv_in R (width c) (dn c)); auto; intros v' Hv' _; [apply cut_val; auto|]. apply (tpoly_in R (width c) (dn c)); auto. intros v2 H2. apply cut_val; auto.
  Qed.
  Lemma texp_cut c (x : tensor) u : cut c (texp (dn c) (cut c x)) u = cut c (texp (dn c) x) u.
  Proof. apply cut_in. intros v Hv. apply (tpoly_in R (width c) (dn c)); auto. intros v2 H2. apply cut_val; auto. Qed.
  Lemma texp_zero n (u : list Z) : texp n (@tzero R Z) u = tone u.
  Proof.
    unfold texp, tpoly. rewrite (sum_seq_S _ 0), (sum_zero _ (seq 1 n)).
    - cbn [tpow]. change (invfact R 0) with (@r1 R). ring.
    - intros k Hk. apply in_seq in Hk. destruct k as [|k]; [lia|]. cbn [tpow]. rewrite (conv_zero_l R Z _ u). unfold tzero. ring.
  Qed.
  Definition lies_ok c (lies : list lobj) (vs : list vobj) := Forall2 (fun a va => orep a va /\ v_lie R va = true /\ usable R width depth c va) lies vs.
  Lemma log_lie c d g cs : good c -> grouplike (dn c) g -> trp c d (cut c g) -> crep cs ->
    exists o cs', (let! l := td_log R req (lc_t (ctxs c)) d in ctx_tensor_to_lie R req Ok ctxs c (mkLO c false l) cs) = Ok (o, cs') /\ crep cs' /\ orep o (mkV R c true (is_dense R d) (cut c (tlog (dn c) g))).
  Proof.
    intros G Gg Td Hc. destruct (log_ok_ R req Hreq _ _ _ (good_ok c G) d g (lget ctxs cs c) Gg Td (lget_ok cs c G Hc)) as (l & -> & El & Tl & d' & m' & Et & Im & Ed & Ld).
    cbn [bind]. unfold ctx_tensor_to_lie. cbn [lo_ctx lo_data]. rewrite Z.eqb_refl. unfold within. rewrite Et. cbn [bind]. eexists. eexists. split; [reflexivity|]. split; [apply lput_ok; auto|].
    split; [reflexivity|]. split; [reflexivity|]. split; [exact Ed|]. split; [exact G|exact Ld].
  Qed.
  Lemma exps_vals_gl c lies vs : lies_ok c lies vs -> grouplike (dn c) (exps (dn c) (map (v_val R) vs)).
  Proof.
    intros H. unfold exps. apply exps_grouplike; [|apply grouplike_one]. apply Forall_forall. intros x Hx. apply in_map_iff in Hx. destruct Hx as (v & <- & Hv).
    induction H as [|a va l l' (Ho & El & _) H IH]; [destruct Hv|]. destruct Hv as [<-|Hv]; [eapply orep_prim; eauto|auto].
  Qed.
  Lemma cbh_ok c lies vs dense cs : good c -> lies_ok c lies vs -> crep cs ->
    exists o cs', ctx_cbh R req Ok ctxs c lies dense cs = Ok (o, cs') /\ crep cs' /\ orep o (mkV R c true dense (cut c (tlog (dn c) (exps (dn c) (map (v_val R) vs))))).
  Proof.
    intros G HL Hc. assert (Gl := exps_vals_gl c lies vs HL).
    assert (Main : exists o cs', (let! collector := td_unit R req (ctxs c) dense in
        let! (collector, cs) := for_ lies (collector, cs) (fun alie s =>
          let '(collector, cs) := s in
          if td_dimension R (lo_data alie) =? 0 then Ok (collector, cs) else
          let! (t, cs) := ctx_lie_to_tensor R req Ok ctxs c alie cs in
          let! collector := td_fmexp R req (lc_t (ctxs c)) collector (lo_data t) in Ok (collector, cs)) in
        let! l := td_log R req (lc_t (ctxs c)) collector in
        ctx_tensor_to_lie R req Ok ctxs c (mkLO c false l) cs) = Ok (o, cs') /\ crep cs' /\ orep o (mkV R c true dense (cut c (tlog (dn c) (exps (dn c) (map (v_val R) vs)))))).
    { destruct (unit_ok R req Hreq _ _ _ (good_ok c G) dense) as (d & -> & Ed & Td). cbn [bind]. match goal with |- context [for_ _ _ ?b] => set (body := b) end.
      assert (Loop : forall lies vs, lies_ok c lies vs -> forall d cs g, crep cs -> is_dense R d = dense -> trp c d (cut c g) -> exists d' cs', for_ lies (d, cs) body = Ok (d', cs') /\ crep cs' /\ is_dense R d' = dense /\
        trp c d' (cut c (fold_left (fun g x => conv g (texp (dn c) x)) (map (v_val R) vs) g))).
      { clear - G Hreq. intros lies vs H. induction H as [|a va lies vs (Ho & El & Hu) H IH]; intros d cs g Hc Ed Td; cbn [for_ map fold_left]; [exists d, cs; auto|].
        unfold body at 1. destruct (Z.eqb_spec (td_dimension R (lo_data a)) 0) as [Z0|_].
        - cbn [bind]. apply IH; auto. eapply trep_ext; [|exact Td]. intros u. apply cut_in. intros v Hv. destruct Ho as (_ & _ & _ & _ & Hd). rewrite El in Hd.
          assert (Z1 := dimension_zero R _ _ _ _ _ Hd Z0). transitivity (conv g tone v); [symmetry; apply (conv_one_r R Z)|]. apply LieSpec.conv_ext; [intros w; reflexivity|]. intros w.
          transitivity (texp (dn c) (@tzero R Z) w); [symmetry; apply texp_zero|]. apply (tpoly_local R Z). intros w' _. symmetry. apply Z1.
        - destruct (to_tensor_ok c a va cs G Ho El Hu Hc) as (o & cs' & -> & Hc' & (_ & _ & _ & _ & To)). cbn [bind v_lie v_ctx v_val] in *.
          destruct (fmexp_step R req Hreq _ _ _ (good_ok c G) d g (lo_data o) _ Td To) as (d' & -> & Ed' & Td'); [rewrite cut_nil; eapply orep_nil; eauto|]. cbn [bind]. apply IH; [auto|congruence|].
          eapply trep_ext; [|exact Td']. intros u. apply cut_in. intros v Hv. apply (conv_in R (width c) (dn c)); auto. intros v' Hv' _. apply (tpoly_in R (width c) (dn c)); auto. intros v2 H2. apply cut_val; auto. }
      destruct (Loop lies vs HL d cs tone Hc Ed) as (d' & cs' & -> & Hc' & Ed' & Td'); [eapply trep_ext; [|exact Td]; intros u; apply one_cut|]. cbn [bind]. destruct (log_lie c d' (exps (dn c) (map (v_val R) vs)) cs' G Gl Td' Hc') as (o & cs2 & -> & Hc2 & Ho). exists o, cs2. rewrite Ed' in Ho. auto. }
    unfold ctx_cbh. destruct lies as [|a [|b lies]]; [exact Main| |exact Main]. inversion HL as [|? va ? ? (Ho & El & Hu) H2]; subst. inversion H2; subst. cbn [map].
    destruct (convert_lie_ok c dense a va cs G Ho El Hu Hc) as (o & cs' & -> & Hc' & (A1 & A2 & A3 & A4 & A5)). exists o, cs'. split; [reflexivity|]. split; [auto|]. split; [auto|]. split; [auto|]. split; [auto|]. split; [auto|].
    eapply lrep_ext; [|exact A5]. intros u. apply cut_in. intros v Hv. unfold exps. cbn [fold_left]. rewrite <- (tlog_texp R Z (dn c) (v_val R va) v) at 1; [|eapply orep_nil; eauto|apply inside_iff in Hv; tauto].
    apply (tpoly_local R Z). intros w' _. unfold tsub. f_equal. symmetry. apply (conv_one_l R Z).
  Qed.
  Lemma gl_two c (x y : tensor) : primitive (dn c) x -> primitive (dn c) y -> grouplike (dn c) (conv (texp (dn c) x) (texp (dn c) y)).
  Proof. intros. apply grouplike_conv; apply grouplike_exp; auto. Qed.
  Lemma exp_c_ok c d t : good c -> trp c d t -> exists d', td_exp R req (lc_t (ctxs c)) d = Ok d' /\ is_dense R d' = is_dense R d /\ trp c d' (cut c (texp (dn c) t)).
  Proof.
    intros G Td. assert (HC := good_ok c G). destruct (td_exp_ok R req Hreq R10 (width c) (depth c) (lc_t (ctxs c)) (c_packs _ _ _ HC) (proj1 (proj2 HC)) (c_tb _ _ _ HC) (proj1 (c_N _ _ _ HC)) _ _ _ Td) as (d' & -> & Td').
    rewrite kd_fresh in Td'. assert (E := kd_dense _ _ _ _ _ _ _ Td'). exists d'. split; [reflexivity|]. split; [exact E|]. unfold LieOne.trep. rewrite E. exact Td'.
  Qed.
  Lemma cbh2_ok c a b va vb cs : good c -> orep a va -> v_lie R va = true -> usable R width depth c va -> orep b vb -> v_lie R vb = true -> usable R width depth c vb -> crep cs ->
    exists o cs', ctx_cbh2 R req Ok ctxs c a b cs = Ok (o, cs') /\ crep cs' /\ orep o (mkV R c true (v_dense R va) (cut c (tlog (dn c) (conv (texp (dn c) (v_val R va)) (texp (dn c) (v_val R vb)))))).
  Proof.
    intros G Ha Ea Ua Hb Eb Ub Hc. unfold ctx_cbh2. destruct (to_tensor_ok c a va cs G Ha Ea Ua Hc) as (l & cs1 & -> & Hc1 & (_ & _ & Dl & _ & Tl)). cbn [bind v_lie v_ctx v_val v_dense] in *.
    destruct (exp_c_ok c _ _ G Tl) as (d & -> & Ed & Td). cbn [bind]. destruct (to_tensor_ok c b vb cs1 G Hb Eb Ub Hc1) as (r & cs2 & -> & Hc2 & (_ & _ & _ & _ & Tr)). cbn [bind v_lie v_ctx v_val] in *.
    destruct (fmexp_step R req Hreq _ _ _ (good_ok c G) d _ (lo_data r) _ Td Tr) as (d' & -> & Ed' & Td'); [rewrite cut_nil; eapply orep_nil; eauto|]. cbn [bind].
    assert (Td2 : trp c d' (cut c (conv (texp (dn c) (v_val R va)) (texp (dn c) (v_val R vb))))).
    { eapply trep_ext; [|exact Td']. intros u. apply cut_in. intros v Hv. apply (conv_in R (width c) (dn c)); auto; intros v' Hv' _; apply (tpoly_in R (width c) (dn c)); auto; intros v2 H2; apply cut_val; auto. }
    destruct (log_lie c d' _ cs2 G (gl_two c _ _ (orep_prim _ _ _ Ha Ea) (orep_prim _ _ _ Hb Eb)) Td2 Hc2) as (o & cs3 & -> & Hc3 & Ho). exists o, cs3. rewrite Ed', Ed, Dl in Ho. auto.
  Qed.
  Lemma rows_eq c rows : good c -> Forall (row_ok R (dims c)) rows -> Forall (rok R (width c) (depth c)) rows.
  Proof. intros G. rewrite (good_dims c G). auto. Qed.
  Lemma rowval_eq c row u : good c -> rowval R dims trees c row u = lval R (width c) (depth c) (rcoords R (width c) (depth c) row) u.
  Proof. intros G. unfold rowval. rewrite combo_ok by auto. unfold coords, rcoords. rewrite (good_dims c G). reflexivity. Qed.
  Lemma exps_ext n (f g : option (list Z) * list R -> tensor) rows : (forall r u, f r u = g r u) -> forall h h' u, (forall u, h u = h' u) ->
    fold_left (fun g x => conv g (texp n x)) (map f rows) h u = fold_left (fun g x => conv g (texp n x)) (map g rows) h' u.
  Proof.
    intros E. induction rows as [|r rows IH]; intros h h' u Hh; cbn [map fold_left]; [auto|]. apply IH. intros v. apply LieSpec.conv_ext; [exact Hh|]. intros v'. apply (tpoly_local R Z). auto.
  Qed.
  Lemma rows_gl c rows : good c -> grouplike (dn c) (exps (dn c) (map (rowval R dims trees c) rows)).
  Proof.
    intros G. unfold exps. apply exps_grouplike; [|apply grouplike_one]. apply Forall_forall. intros x Hx. apply in_map_iff in Hx. destruct Hx as (r & <- & _).
    apply (primitive_local R Z (dn c) (lval R (width c) (depth c) (rcoords R (width c) (depth c) r))); [intros; symmetry; apply rowval_eq; auto|]. apply (lval_prim R).
  Qed.
  Lemma signature_c_ok c dense rows cs : good c -> Forall (row_ok R (dims c)) rows -> crep cs ->
    exists o cs', ctx_signature R req Ok ctxs c dense rows cs = Ok (o, cs') /\ crep cs' /\ orep o (mkV R c false dense (cut c (exps (dn c) (map (rowval R dims trees c) rows)))).
  Proof.
    intros G Hr Hc. unfold ctx_signature. destruct (within_ok c (compute_signature R req Ok (ctxs c) dense rows) cs (fun t => is_dense R t = dense /\ trp c t (cut c (exps (dn c) (map (rowval R dims trees c) rows)))) G Hc) as (t & cs' & -> & Hc' & Dt & Tt).
    - intros m Hm. destruct (signature_ok R req Hreq _ _ _ (good_ok c G) dense rows m (rows_eq c rows G Hr) Hm) as (d & m' & -> & Im & Ed & Td). exists d, m'. split; [reflexivity|]. split; [auto|]. split; [auto|].
      eapply trep_ext; [|exact Td]. intros u. apply cut_in. intros v _. apply exps_ext; [intros; symmetry; apply rowval_eq; auto|auto].
    - cbn [bind]. eexists. exists cs'. split; [reflexivity|]. split; [auto|]. split; [reflexivity|]. split; [reflexivity|]. auto.
  Qed.
  Lemma log_signature_c_ok c dense rows cs : good c -> Forall (row_ok R (dims c)) rows -> crep cs ->
    exists o cs', ctx_log_signature R req Ok ctxs c dense rows cs = Ok (o, cs') /\ crep cs' /\ orep o (mkV R c true dense (cut c (tlog (dn c) (exps (dn c) (map (rowval R dims trees c) rows))))).
  Proof.
    intros G Hr Hc. unfold ctx_log_signature. destruct (signature_c_ok c dense rows cs G Hr Hc) as (o & cs' & -> & Hc' & (_ & _ & Do & _ & To)). cbn [bind v_lie v_ctx v_val v_dense] in *.
    destruct (log_lie c _ _ cs' G (rows_gl c rows G) To Hc') as (o' & cs2 & -> & Hc2 & Ho). exists o', cs2. rewrite Do in Ho. auto.
  Qed.
  (** ** Derivatives *)
  Definition dpair_ok c dense (ab : lobj * lobj) (vw : vobj * vobj) : Prop :=
    (orep (fst ab) (fst vw) /\ v_lie R (fst vw) = true /\ usable R width depth c (fst vw) /\ (v_ctx R (fst vw) = c -> v_dense R (fst vw) = dense)) /\
    (orep (snd ab) (snd vw) /\ v_lie R (snd vw) = true /\ usable R width depth c (snd vw) /\ (v_ctx R (snd vw) = c -> v_dense R (snd vw) = dense)).
  Lemma dexp1_in w n (x x' y y' : tensor) u : inside w n u = true -> (forall v, inside w n v = true -> x v = x' v) -> (forall v, inside w n v = true -> y v = y' v) -> dexp1 R n x y u = dexp1 R n x' y' u.
  Proof. intros Hu Hx Hy. unfold dexp1. f_equal. apply (tpoly_in (dual R) w n); auto. intros v Hv. rewrite Hx, Hy by auto. reflexivity. Qed.
  Lemma derivative_ok c dense info vws cs : good c -> Forall2 (dpair_ok c dense) info vws -> crep cs ->
    exists o cs', ctx_sig_derivative R req Ok ctxs c dense info cs = Ok (o, cs') /\ crep cs' /\
      orep o (mkV R c false dense (cut c (dsteps R (dn c) (map (fun vw : vobj * vobj => (v_val R (fst vw), v_val R (snd vw))) vws)))).
  Proof.
    intros G HL Hc. assert (HC := good_ok c G). unfold ctx_sig_derivative. cbv zeta. match goal with |- context [for_ _ _ ?b] => set (body := b) end.
    assert (Z0 : exists d, (if dense then LhModel.Dn (vo_new (dense_ops R req (tensor_vb (lc_t (ctxs c))))) else LhModel.Sp (vo_new (sparse_ops R req))) = d /\ is_dense R d = dense /\ trp c d (cut c tzero)).
    { eexists. split; [reflexivity|]. destruct dense; (split; [reflexivity|]).
      - destruct (t_new _ _ _ _ _ _ _ _ _ _ (dense_tgood R req Hreq (width c) (depth c) (lc_t (ctxs c)) (c_packs _ _ _ HC) (proj1 (proj2 HC)) (c_tb _ _ _ HC))) as (F0 & C0 & _). eexists. split; [reflexivity|]. split; [exact F0|]. intros u. rewrite C0. unfold cutc, LhSpec.trunc, tzero. destruct (inside _ _ u); reflexivity.
      - destruct (t_new _ _ _ _ _ _ _ _ _ _ (sparse_tgood R req Hreq (width c) (depth c) (lc_t (ctxs c)) (c_packs _ _ _ HC) (proj1 (proj2 HC)) (c_tb _ _ _ HC))) as (F0 & C0 & _). eexists. split; [reflexivity|]. split; [exact F0|]. intros u. rewrite C0. unfold cutc, LhSpec.trunc, tzero. destruct (inside _ _ u); reflexivity. }
    destruct Z0 as (d & -> & Ed & Td).
    assert (Loop : forall info vws, Forall2 (dpair_ok c dense) info vws -> forall d cs g, crep cs -> is_dense R d = dense -> trp c d (cut c g) -> exists d' cs', for_ info (d, cs) body = Ok (d', cs') /\ crep cs' /\ is_dense R d' = dense /\
      trp c d' (cut c (fold_left (fun r (xy : tensor * tensor) u => radd (conv r (texp (dn c) (fst xy)) u) (dexp1 R (dn c) (fst xy) (snd xy) u)) (map (fun vw : vobj * vobj => (v_val R (fst vw), v_val R (snd vw))) vws) g))).
    { clear - G Hreq HC R10. intros info vws H. induction H as [|[a b] [va vb] info vws ((Ha & La & Ua & Sa) & (Hb & Lb & Ub & Sb)) H IH]; intros d cs g Hc Ed Td; cbn [for_ map fold_left fst snd] in *; [exists d, cs; auto|].
      unfold body at 1. cbn [fst snd]. destruct (l2t_impl_ok c dense a va cs G Ha La Ua Sa Hc) as (t & cs1 & -> & Hc1 & Dt & Tt). cbn [bind fst snd]. destruct (l2t_impl_ok c dense b vb cs1 G Hb Lb Ub Sb Hc1) as (t2 & cs2 & -> & Hc2 & Dt2 & Tt2). cbn [bind].
      assert (X0 := orep_nil _ _ Ha La). assert (Y0 := orep_nil _ _ Hb Lb).
      destruct (deriv_td_ok R req Hreq R10 _ _ _ HC d t t2 g _ _ ltac:(congruence) ltac:(congruence) Td Tt Tt2 ltac:(rewrite cut_nil; auto)) as (z & -> & Dz & Tz). cbn [bind].
      apply IH; [auto|congruence|]. eapply trep_ext; [|exact Tz]. intros u. apply cut_in. intros v Hv. f_equal.
      - apply (conv_in R (width c) (dn c)); auto. intros v' Hv' _. apply (tpoly_in R (width c) (dn c)); auto. intros v2 H2. apply cut_val; auto.
      - rewrite <- (dexp_eq R Z (cut c (v_val R va)) (cut c (v_val R vb)) X0 Y0 (dn c) v) by (apply inside_iff in Hv; tauto).
        transitivity (dexp1 R (dn c) (cut c (v_val R va)) (cut c (v_val R vb)) v); [reflexivity|]. apply (dexp1_in (width c)); auto; intros; apply cut_val; auto. }
    destruct (Loop info vws HL d cs tzero Hc Ed Td) as (d' & cs' & -> & Hc' & Ed' & Td'). cbn [bind]. eexists. exists cs'. split; [reflexivity|]. split; [auto|]. split; [reflexivity|]. split; [reflexivity|]. split; [exact Ed'|]. split; [exact G|exact Td'].
  Qed.
  (** Over at most one interval this is the derivative. *)
  Lemma dsteps_one n (xys : list (tensor * tensor)) u : (length xys <= 1)%nat -> dsteps R n xys u = dexps R n xys u.
  Proof.
    intros H. destruct xys as [|[x y] [|? ?]]; [destruct u; reflexivity| |cbn in H; lia]. unfold dsteps, dexps, exps. cbn [map fold_left fst snd].
    rewrite (conv_zero_l R Z _ u). unfold tzero. unfold dexp1. transitivity (snd (texp (R := dual R) n (fun v => (x v, y v)) u)); [ring|]. f_equal. symmetry. apply (conv_one_l (dual R) Z).
  Qed.
  (** ** Steps *)
  Lemma sum_add (l : list Z) (f g : Z -> R) : sum l (fun i => radd (f i) (g i)) = radd (sum l f) (sum l g).
  Proof. induction l as [|i l IH]; cbn [sum]; [ring|]. rewrite IH. ring. Qed.
  Lemma sum_sub (l : list Z) (f g : Z -> R) : sum l (fun i => rsub (f i) (g i)) = rsub (sum l f) (sum l g).
  Proof. induction l as [|i l IH]; cbn [sum]; [ring|]. rewrite IH. ring. Qed.
  Definition srep (st : lstate R) (t : venv R) : Prop := erep (fst st) t /\ crep (snd st).
  Lemma get_rep e t y a : erep e t -> t y = Some a -> exists o, e y = Some o /\ orep o a.
  Proof. intros He E. specialize (He y). rewrite E in He. destruct (e y) as [o|]; [|destruct He]. eauto. Qed.
  Lemma fetch_ok e t y a : erep e t -> t y = Some a -> exists o, fetch R (v_lie R a) e y = Ok o /\ orep o a.
  Proof. intros He E. destruct (get_rep e t y a He E) as (o & Eo & Ho). exists o. split; [|auto]. unfold fetch. rewrite Eo. destruct Ho as (_ & -> & _). rewrite Bool.eqb_reflx. reflexivity. Qed.
  Lemma stored_ok e t x cs o cs' v (r : outcome (lobj * lcaches)) : r = Ok (o, cs') -> erep e t -> crep cs -> crep cs' -> orep o v -> exists st', stored R e x r = Ok st' /\ srep st' (vset R t x v).
  Proof. intros -> He _ Hc Ho. eexists. split; [reflexivity|]. split; [apply erep_set; auto|auto]. Qed.
  Lemma omap_lies e t c ys : erep e t -> Forall (fun y => is_lie R t y (usable R width depth c)) ys -> exists lies vs, omap (fetch R true e) ys = Ok lies /\ lies_ok c lies vs /\ map (v_val R) vs = map (val R t) ys.
  Proof.
    intros He. induction 1 as [|y ys (a & Ea & La & Ua) H IH]; [exists [], []; repeat constructor|]. destruct IH as (lies & vs & E1 & E2 & E3). destruct (fetch_ok e t y a He Ea) as (o & Eo & Ho). rewrite La in Eo.
    exists (o :: lies), (a :: vs). cbn [omap map]. rewrite Eo. cbn [bind]. rewrite E1. cbn [bind]. split; [reflexivity|]. split; [constructor; auto|]. f_equal; [|auto]. unfold val. rewrite Ea. reflexivity.
  Qed.
  Lemma omap_pairs e t c dense info : erep e t ->
    Forall (fun yz => is_lie R t (fst yz) (fun a => usable R width depth c a /\ (v_ctx R a = c -> v_dense R a = dense)) /\ is_lie R t (snd yz) (fun a => usable R width depth c a /\ (v_ctx R a = c -> v_dense R a = dense))) info ->
    exists abs vws, omap (fun yz => let! a := fetch R true e (fst yz) in let! b := fetch R true e (snd yz) in Ok (a, b)) info = Ok abs /\ Forall2 (dpair_ok c dense) abs vws /\
      map (fun vw : vobj * vobj => (v_val R (fst vw), v_val R (snd vw))) vws = map (fun yz => (val R t (fst yz), val R t (snd yz))) info.
  Proof.
    intros He. induction 1 as [|[y z] info ((a & Ea & La & Ua & Sa) & (b & Eb & Lb & Ub & Sb)) H IH]; [exists [], []; repeat constructor|]. cbn [fst snd] in *. destruct IH as (abs & vws & E1 & E2 & E3).
    destruct (fetch_ok e t y a He Ea) as (o & Eo & Ho). rewrite La in Eo. destruct (fetch_ok e t z b He Eb) as (o2 & Eo2 & Ho2). rewrite Lb in Eo2.
    exists ((o, o2) :: abs), ((a, b) :: vws). cbn [omap map fst snd]. rewrite Eo. cbn [bind]. rewrite Eo2. cbn [bind]. rewrite E1. cbn [bind]. split; [reflexivity|]. split.
    - constructor; [|auto]. split; cbn [fst snd]; auto.
    - f_equal; [|auto]. unfold val. rewrite Ea, Eb. reflexivity.
  Qed.
  Lemma orep_lie c d dense t : good c -> is_dense R d = dense -> lrp c d t -> orep (mkLO c true d) (mkV R c true dense t).
  Proof. intros G E Hd. split; [reflexivity|]. split; [reflexivity|]. auto. Qed.
  Lemma orep_tens c d dense k t : good c -> k <> KCleared -> kdense k = dense -> drep R (width c) (depth c) (lc_t (ctxs c)) k d t -> orep (mkLO c false d) (mkV R c false dense t).
  Proof.
    intros G Kc E Hd. split; [reflexivity|]. split; [reflexivity|]. assert (T := trep_kind R _ _ _ _ _ _ Hd Kc). split; [|split; [exact G|exact T]]. cbn [lo_data v_dense].
    destruct k; [destruct Hd|..]; destruct Hd as (v & -> & _); exact E.
  Qed.
  Lemma kd_kdense b : kdense (kd b) = b. Proof. destruct b; reflexivity. Qed.
  Lemma step_ok k st t : vmay R width depth dims good k t -> srep st t -> exists st', lie_step R req Ok ctxs k st = Ok st' /\ srep st' (vstep R width depth dims trees k t).
  Proof.
    destruct st as [e cs]. intros Hk [He Hc]. cbn [fst snd] in *.
    destruct k as [x c lie dense keys data|x o y|x o y z|x y z|x y|x y|x c y|x c y|x c ys dense|x c y z|x c dense rows|x c dense rows|x c dense info]; cbn [lie_step vstep vmay] in *.
    - destruct Hk as [G Hk]. assert (HC := good_ok c G). destruct lie.
      + rewrite (good_dims c G) in Hk. destruct (lconstruct_td_ok R req Hreq _ _ _ HC dense keys data Hk) as (d & -> & Ed & Ld). cbn [bind]. eexists. split; [reflexivity|]. split; [|auto]. apply erep_set; auto.
        apply orep_lie; auto. eapply lrep_ext; [|exact Ld]. intros u. rewrite combo_ok by auto. unfold coords. rewrite (good_dims c G). reflexivity.
      + destruct dense.
        * destruct (LhProofs.construct_ok R (width c) (depth c) (lc_t (ctxs c)) (c_packs _ _ _ HC) (proj1 (proj2 HC)) (c_tb _ _ _ HC) (proj1 (c_N _ _ _ HC)) _ _ _ _ _ _ _ (dense_tgood R req Hreq (width c) (depth c) (lc_t (ctxs c)) (c_packs _ _ _ HC) (proj1 (proj2 HC)) (c_tb _ _ _ HC)) keys data Hk) as (v & E & Fv & Cv).
          rewrite E. cbn [bind]. eexists. split; [reflexivity|]. split; [|auto]. apply erep_set; auto. apply (orep_tens c (LhModel.Dn v) true KDense); auto; [discriminate|]. exists v. auto.
        * destruct (LhProofs.construct_ok R (width c) (depth c) (lc_t (ctxs c)) (c_packs _ _ _ HC) (proj1 (proj2 HC)) (c_tb _ _ _ HC) (proj1 (c_N _ _ _ HC)) _ _ _ _ _ _ _ (sparse_tgood R req Hreq (width c) (depth c) (lc_t (ctxs c)) (c_packs _ _ _ HC) (proj1 (proj2 HC)) (c_tb _ _ _ HC)) keys data Hk) as (v & E & Fv & Cv).
          rewrite E. cbn [bind]. eexists. split; [reflexivity|]. split; [|auto]. apply erep_set; auto. apply (orep_tens c (LhModel.Sp v) false KSparse); auto; [discriminate|]. exists v. auto.
    - destruct (t y) as [a|] eqn:Ey; [|congruence]. destruct (get_rep e t y a He Ey) as (o1 & -> & (E1 & E2 & E3 & G & Hd)). unfold von1. rewrite Ey, E1, E2. assert (HC := good_ok _ G). destruct (v_lie R a) eqn:La.
      + destruct o as [|s].
        * destruct (ld_un_ok R req Hreq _ _ _ HC (fun v => ropp v) (lo_data o1) (v_val R a) ltac:(cbv beta; ring)) as [D1 D2]; [intros; unfold lval; symmetry; induction (zrange (nM (width (v_ctx R a)) (depth (v_ctx R a)))) as [|i l IH]; cbn [sum]; [ring|rewrite <- IH; ring]|exact Hd|].
          eexists. split; [reflexivity|]. split; [|auto]. apply erep_set; auto. apply orep_lie; [auto|congruence|exact D2].
        * destruct (ld_un_ok R req Hreq _ _ _ HC (fun v => rmul v s) (lo_data o1) (v_val R a) ltac:(cbv beta; ring)) as [D1 D2]; [intros; unfold lval; symmetry; induction (zrange (nM (width (v_ctx R a)) (depth (v_ctx R a)))) as [|i l IH]; cbn [sum]; [ring|rewrite <- IH; ring]|exact Hd|].
          eexists. split; [reflexivity|]. split; [|auto]. apply erep_set; auto. apply orep_lie; [auto|congruence|exact D2].
      + destruct o as [|s].
        * destruct (td_neg_ok R req Hreq _ _ _ (c_packs _ _ _ HC) (proj1 (proj2 HC)) (c_tb _ _ _ HC) _ _ _ (kd_null _) Hd) as (d & -> & Hd'). cbn [bind]. eexists. split; [reflexivity|]. split; [|auto]. apply erep_set; auto.
          eapply orep_tens; [auto|apply kd_clear| |exact Hd']. rewrite kd_kdense. exact E3.
        * destruct (td_smul_ok R req Hreq _ _ _ (c_packs _ _ _ HC) (proj1 (proj2 HC)) (c_tb _ _ _ HC) s _ _ _ (kd_null _) Hd) as (d & -> & Hd'). cbn [bind]. eexists. split; [reflexivity|]. split; [|auto]. apply erep_set; auto.
          eapply orep_tens; [auto|apply kd_clear| |exact Hd']. rewrite kd_kdense. exact E3.
    - destruct Hk as (a & b & Ey & Ez & Ec & El). destruct (get_rep e t y a He Ey) as (o1 & -> & (E1 & E2 & E3 & G & Hd)). destruct (get_rep e t z b He Ez) as (o2 & -> & (F1 & F2 & F3 & _ & Hd2)). assert (HC := good_ok _ G).
      unfold lalike, von2. rewrite Ey, Ez, E1, E2, F1, F2, <- Ec, <- El, Z.eqb_refl, Bool.eqb_reflx in *. cbn [andb]. destruct (v_lie R a) eqn:La.
      + assert (Main : forall op : R -> R -> R, (forall x, op x r0 = x) -> (forall y, op r0 y = r0 -> y = r0) -> (forall c c' u, lval R (width (v_ctx R a)) (depth (v_ctx R a)) (fun i => op (c i) (c' i)) u = op (lval R (width (v_ctx R a)) (depth (v_ctx R a)) c u) (lval R (width (v_ctx R a)) (depth (v_ctx R a)) c' u)) ->
          exists d cs', within ctxs (v_ctx R a) (ld_bin R req Ok (ctxs (v_ctx R a)) op (lo_data o1) (lo_data o2)) cs = Ok (d, cs') /\ crep cs' /\ is_dense R d = v_dense R a /\ lrp (v_ctx R a) d (fun u => op (v_val R a u) (v_val R b u))).
        { intros op O1 O2 O3. apply (within_ok (v_ctx R a) _ cs (fun d => is_dense R d = v_dense R a /\ lrp (v_ctx R a) d (fun u => op (v_val R a u) (v_val R b u))) G Hc). intros m Hm.
          destruct (ld_bin_ok R req Hreq _ _ _ HC op _ _ _ _ m O1 O2 O3 Hd Hd2 Hm) as (d & m' & Em & Im & D1 & D2). exists d, m'. split; [exact Em|]. split; [auto|]. split; [congruence|auto]. }
        destruct o.
        * destruct (Main (fun x y => radd x y) (add_r0 R) (add_0r R)) as (d & cs' & E & Hc' & D1 & D2); [intros; unfold lval; rewrite <- sum_add; apply sum_ext; intros; ring|]. unfold in_lie. rewrite E. cbn [bind]. eexists. split; [reflexivity|]. split; [|auto]. apply erep_set; auto. apply orep_lie; auto.
        * destruct (Main (fun x y => rsub x y) (sub_r0 R) (sub_0r R)) as (d & cs' & E & Hc' & D1 & D2); [intros; unfold lval; rewrite <- sum_sub; apply sum_ext; intros; ring|]. unfold in_lie. rewrite E. cbn [bind]. eexists. split; [reflexivity|]. split; [|auto]. apply erep_set; auto. apply orep_lie; auto.
      + assert (Main : forall op : R -> R -> R, (forall x, op x r0 = x) -> (forall y, op r0 y = r0 -> y = r0) ->
          exists d, bin R req (lc_t (ctxs (v_ctx R a))) (fun x y => Ok (vo_binary (dense_ops R req (tensor_vb (lc_t (ctxs (v_ctx R a))))) op x y)) (fun x y => Ok (vo_binary (sparse_ops R req) op x y)) (lo_data o1) (lo_data o2) = Ok d /\
            orep (mkLO (v_ctx R a) false d) (mkV R (v_ctx R a) false (v_dense R a) (fun u => op (v_val R a u) (v_val R b u)))).
        { intros op O1 O2. destruct (td_binary_ok R req Hreq _ _ _ (c_packs _ _ _ HC) (proj1 (proj2 HC)) (c_tb _ _ _ HC) (proj1 (c_N _ _ _ HC)) op _ _ _ _ _ _ O1 O2 (kd_clear _) (fun _ => kd_clear _) Hd Hd2) as (d & E & D).
          exists d. split; [exact E|]. eapply orep_tens; [auto|apply kd_clear| |exact D]. rewrite kd_kdense. exact E3. }
        destruct o.
        * destruct (Main (fun x y => radd x y) (add_r0 R) (add_0r R)) as (d & E & D). unfold td_add, v_add. rewrite E. cbn [bind]. eexists. split; [reflexivity|]. split; [|auto]. apply erep_set; auto.
        * destruct (Main (fun x y => rsub x y) (sub_r0 R) (sub_0r R)) as (d & E & D). unfold td_sub, v_sub. rewrite E. cbn [bind]. eexists. split; [reflexivity|]. split; [|auto]. apply erep_set; auto.
    - destruct Hk as (a & b & Ey & Ez & Ec & El). destruct (get_rep e t y a He Ey) as (o1 & -> & (E1 & E2 & E3 & G & Hd)). destruct (get_rep e t z b He Ez) as (o2 & -> & (F1 & F2 & F3 & _ & Hd2)). assert (HC := good_ok _ G).
      unfold lalike, von2. rewrite Ey, Ez, E1, E2, F1, F2, <- Ec, <- El, Z.eqb_refl, Bool.eqb_reflx in *. cbn [andb]. destruct (v_lie R a) eqn:La.
      + destruct (within_ok (v_ctx R a) (ld_mul R req Ok (ctxs (v_ctx R a)) (lo_data o1) (lo_data o2)) cs (fun d => is_dense R d = v_dense R a /\ lrp (v_ctx R a) d (cut (v_ctx R a) (comm (v_val R a) (v_val R b)))) G Hc) as (d & cs' & E & Hc' & D1 & D2).
        { intros m Hm. destruct (ld_mul_ok R req Hreq _ _ _ HC _ _ _ _ m Hd Hd2 Hm) as (d & m' & Em & Im & D1 & D2). exists d, m'. split; [exact Em|]. split; [auto|]. split; [congruence|auto]. }
        unfold in_lie. rewrite E. cbn [bind]. eexists. split; [reflexivity|]. split; [|auto]. apply erep_set; auto. apply orep_lie; auto.
      + destruct (td_mul_ok R req Hreq _ _ _ (c_packs _ _ _ HC) (proj1 (proj2 HC)) (c_tb _ _ _ HC) (proj1 (c_N _ _ _ HC)) _ _ _ _ _ _ Hd Hd2) as (d & -> & Hd'). rewrite kd_fresh in Hd'. cbn [bind]. eexists. split; [reflexivity|]. split; [|auto]. apply erep_set; auto.
        eapply orep_tens; [auto|apply kd_clear| |exact Hd']. rewrite kd_kdense. exact E3.
    - destruct Hk as (a & Ey & La). destruct (fetch_ok e t y a He Ey) as (o1 & Eo & (E1 & E2 & E3 & G & Hd)). rewrite La in *. rewrite Eo. cbn [bind]. unfold von1. rewrite Ey, E1.
      destruct (exp_c_ok _ _ _ G Hd) as (d & -> & Ed & Td). cbn [bind]. eexists. split; [reflexivity|]. split; [|auto]. apply erep_set; auto. split; [reflexivity|]. split; [reflexivity|]. split; [cbn [lo_data v_dense]; congruence|]. split; [exact G|exact Td].
    - destruct Hk as (a & Ey & La). destruct (fetch_ok e t y a He Ey) as (o1 & Eo & (E1 & E2 & E3 & G & Hd)). rewrite La in *. rewrite Eo. cbn [bind]. unfold von1. rewrite Ey, E1. assert (HC := good_ok _ G).
      destruct (td_log_ok R req Hreq _ _ _ (c_packs _ _ _ HC) (proj1 (proj2 HC)) (c_tb _ _ _ HC) (proj1 (c_N _ _ _ HC)) _ _ _ Hd) as (d & -> & Hd'). rewrite kd_fresh in Hd'. cbn [bind]. eexists. split; [reflexivity|]. split; [|auto]. apply erep_set; auto.
      eapply orep_tens; [auto|apply kd_clear| |exact Hd']. rewrite kd_kdense. exact E3.
    - destruct Hk as (G & a & Ey & La & Ua). destruct (fetch_ok e t y a He Ey) as (o1 & Eo & Ho). rewrite La in Eo. rewrite Eo. cbn [bind]. unfold von1. rewrite Ey.
      destruct (to_tensor_ok c o1 a cs G Ho La Ua Hc) as (o & cs' & E & Hc' & Ho'). eapply stored_ok; eauto.
    - destruct Hk as (G & a & Ey & La & Ua). destruct (fetch_ok e t y a He Ey) as (o1 & Eo & Ho). rewrite La in Eo. rewrite Eo. cbn [bind]. unfold von1. rewrite Ey.
      destruct (to_lie_ok c o1 a cs G Ho La Ua Hc) as (o & cs' & E & Hc' & Ho'). eapply stored_ok; eauto.
    - destruct Hk as (G & Hy). destruct (omap_lies e t c ys He Hy) as (lies & vs & -> & HL & <-). cbn [bind]. destruct (cbh_ok c lies vs dense cs G HL Hc) as (o & cs' & E & Hc' & Ho'). eapply stored_ok; eauto.
    - destruct Hk as (G & (a & Ey & La & Ua) & (b & Ez & Lb & Ub)). destruct (fetch_ok e t y a He Ey) as (o1 & Eo & Ho). rewrite La in Eo. rewrite Eo. cbn [bind]. destruct (fetch_ok e t z b He Ez) as (o2 & Eo2 & Ho2). rewrite Lb in Eo2. rewrite Eo2. cbn [bind].
      unfold von1, val. rewrite Ey, Ez. destruct (cbh2_ok c o1 o2 a b cs G Ho La Ua Ho2 Lb Ub Hc) as (o & cs' & E & Hc' & Ho'). eapply stored_ok; eauto.
    - destruct Hk as (G & Hr). destruct (signature_c_ok c dense rows cs G Hr Hc) as (o & cs' & E & Hc' & Ho'). eapply stored_ok; eauto.
    - destruct Hk as (G & Hr). destruct (log_signature_c_ok c dense rows cs G Hr Hc) as (o & cs' & E & Hc' & Ho'). eapply stored_ok; eauto.
    - destruct Hk as (G & Hlen & Hi). destruct (omap_pairs e t c dense info He Hi) as (abs & vws & -> & HL & Em). cbn [bind]. destruct (derivative_ok c dense abs vws cs G HL Hc) as (o & cs' & E & Hc' & (A1 & A2 & A3 & A4 & A5)).
      eapply (stored_ok e t x cs o cs'); eauto. split; [auto|]. split; [auto|]. split; [auto|]. split; [auto|]. cbn [v_lie v_ctx v_val] in *. eapply trep_ext; [|exact A5]. intros u. apply cut_in. intros v _. rewrite Em. apply dsteps_one. rewrite map_length. exact Hlen.
  Qed.
  Theorem run_ok p : forall st t, vcovered R width depth dims trees good p t -> srep st t -> exists st', lie_run R req Ok ctxs p st = Ok st' /\ srep st' (vrun R width depth dims trees p t).
  Proof.
    unfold lie_run, vrun. induction p as [|k p IH]; intros st t Hc H; cbn [for_ fold_left]; [exists st; auto|].
    destruct Hc as [Hm Hc]. destruct (step_ok k st t Hm H) as (st' & E & H'). rewrite E. cbn [bind]. apply IH; auto.
  Qed.
  Lemma srep_start : srep (lie_start R) (vstart R).
  Proof. split; [intros x; exact I|]. split; [intros w; apply cinv_nil|]. intros c _. split; [apply xinv_nil|apply rinv_nil]. Qed.
  Lemma sees_ok o v : orep o v -> vsees R width depth dims trees req ctxs o v.
  Proof.
    intros (E1 & E2 & E3 & G & Hd). assert (HC := good_ok _ G). split; [auto|]. split; [auto|]. split; [auto|]. destruct (v_lie R v).
    - destruct (ld_shows_ok R req Hreq _ _ _ HC _ _ Hd) as (co & A1 & A2 & A3). exists co. rewrite (good_dims _ G). split; [intros u; rewrite combo_ok by auto; apply A1|]. auto.
    - rewrite E1. assert (Hr : LhProofs.rep R (width (v_ctx R v)) (depth (v_ctx R v)) (lc_t (ctxs (v_ctx R v))) (v_ctx R v) (kd (is_dense R (lo_data o))) (Some (mkImpl (v_ctx R v) (lo_data o))) (v_val R v)) by (apply some_rep; [apply kd_null|exact Hd]).
      split; [|split].
      + destruct (items_ok R req Hreq _ _ _ (c_packs _ _ _ HC) (proj1 (proj2 HC)) (c_tb _ _ _ HC) (proj1 (c_N _ _ _ HC)) (fun c => lc_t (ctxs c)) (v_ctx R v) eq_refl _ _ _ Hr) as (l & E & A1 & A2 & A3). exists l. split; [exact E|]. split; [auto|]. split; [|auto].
        intros i x Hi. destruct (A2 i x Hi) as (u & B1 & B2 & B3 & _). eauto.
      + intros u Hu Hd'. eapply (get_ok R req _ _ _ (c_packs _ _ _ HC) (proj1 (proj2 HC)) (c_tb _ _ _ HC) (proj1 (c_N _ _ _ HC)) (fun c => lc_t (ctxs c)) _ eq_refl); eauto. rewrite <- (dense_flag _ _ _ _ (c_packs _ _ _ HC) _ _ _ _ Hr). auto.
      + eapply (is_zero_ok R req Hreq _ _ _ (c_packs _ _ _ HC) (proj1 (proj2 HC)) (c_tb _ _ _ HC) (proj1 (c_N _ _ _ HC))); eauto.
  Qed.
  Lemma eqb_obj o o' v v' cs : crep cs -> orep o v -> orep o' v' -> v_ctx R v = v_ctx R v' -> v_lie R v = v_lie R v' ->
    exists r cs', obj_eqb R req Ok ctxs o o' cs = Ok (r, cs') /\ crep cs' /\ (r = true <-> forall u, v_val R v u = v_val R v' u).
  Proof.
    intros Hc (E1 & E2 & E3 & G & Hd) (F1 & F2 & F3 & _ & Hd2) Ec El. rewrite <- Ec in *. rewrite <- El in *. assert (HC := good_ok _ G). unfold obj_eqb. rewrite E1, F1, E2, !Z.eqb_refl. cbn [negb]. destruct (v_lie R v).
    - destruct (within_ok (v_ctx R v) (ld_eqb R req Ok (ctxs (v_ctx R v)) (lo_data o) (lo_data o')) cs (fun r => r = true <-> forall u, v_val R v u = v_val R v' u) G Hc) as (r & cs' & E & Hc' & Hr); [|eauto].
      intros m Hm. destruct (ld_eqb_ok R req Hreq _ _ _ HC _ _ _ _ m Hd Hd2 Hm) as (r & m' & Em & Im & Hr). exists r, m'. auto.
    - destruct (eqb_ok R req Hreq _ _ _ (c_packs _ _ _ HC) (proj1 (proj2 HC)) (c_tb _ _ _ HC) (proj1 (c_N _ _ _ HC)) (fun c => lc_t (ctxs c)) (v_ctx R v) eq_refl (kd (is_dense R (lo_data o))) (kd (is_dense R (lo_data o'))) (Some (mkImpl (v_ctx R v) (lo_data o))) (Some (mkImpl (v_ctx R v) (lo_data o'))) (v_val R v) (v_val R v')) as (r & E & Hr);
        [apply some_rep; [apply kd_null|exact Hd]|apply some_rep; [apply kd_null|exact Hd2]|].
      unfold h_eqb in E. cbn [im_ctx im_data] in E. rewrite !Z.eqb_refl in E. cbn [negb] in E. rewrite E. cbn [bind]. eauto.
  Qed.
  Theorem programs p : vcovered R width depth dims trees good p (vstart R) ->
    exists e cs, lie_run R req Ok ctxs p (lie_start R) = Ok (e, cs) /\
    (forall x, match e x, vrun R width depth dims trees p (vstart R) x with
       | Some o, Some v => vsees R width depth dims trees req ctxs o v | None, None => True | _, _ => False end) /\
    (forall x y o o' v v', e x = Some o -> e y = Some o' -> vrun R width depth dims trees p (vstart R) x = Some v -> vrun R width depth dims trees p (vstart R) y = Some v' -> v_ctx R v = v_ctx R v' -> v_lie R v = v_lie R v' ->
       exists r cs', obj_eqb R req Ok ctxs o o' cs = Ok (r, cs') /\ (r = true <-> forall u, v_val R v u = v_val R v' u)).
  Proof.
    intros Hc. destruct (run_ok p (lie_start R) (vstart R) Hc srep_start) as ([e cs] & E & [He Hcs]). exists e, cs. split; [exact E|]. cbn [fst snd] in *. split.
    - intros x. specialize (He x). destruct (e x) as [o|], (vrun R width depth dims trees p (vstart R) x) as [v|]; try exact He. apply sees_ok. exact He.
    - intros x y o o' v v' E1 E2 E3 E4 Ec El. assert (H1 := He x). assert (H2 := He y). rewrite E1, E3 in H1. rewrite E2, E4 in H2. destruct (eqb_obj o o' v v' cs Hcs H1 H2 Ec El) as (r & cs' & Er & _ & Hr). eauto.
  Qed.
  (** ** Derivatives outside the covered programs *)
  Definition dusable (c : Z) (dense : bool) (a : vobj) : Prop := usable R width depth c a /\ (v_ctx R a = c -> v_dense R a = dense).
  Theorem derivative_any p x c dense info : vcovered R width depth dims trees good p (vstart R) -> good c ->
    let t := vrun R width depth dims trees p (vstart R) in
    Forall (fun yz => is_lie R t (fst yz) (dusable c dense) /\ is_lie R t (snd yz) (dusable c dense)) info ->
    exists e cs o, lie_run R req Ok ctxs (p ++ [LDeriv R x c dense info]) (lie_start R) = Ok (e, cs) /\ e x = Some o /\
      vsees R width depth dims trees req ctxs o (mkV R c false dense (cut c (dsteps R (dn c) (map (fun yz => (val R t (fst yz), val R t (snd yz))) info)))).
  Proof.
    intros Hc G t Hi. destruct (run_ok p (lie_start R) (vstart R) Hc srep_start) as ([e cs] & E & [He Hcs]). unfold lie_run in *. rewrite for_app, E. cbn [bind for_ lie_step fst snd] in *.
    destruct (omap_pairs e t c dense info He Hi) as (abs & vws & -> & HL & Em). cbn [bind]. destruct (derivative_ok c dense abs vws cs G HL Hcs) as (o & cs' & -> & Hc' & Ho). cbn [stored bind].
    exists (lset R e x o), cs', o. split; [reflexivity|]. split; [unfold lset; rewrite Z.eqb_refl; reflexivity|]. rewrite <- Em. apply sees_ok. exact Ho.
  Qed.
  (** An operand of the context itself with another storage: the object is read as what it is not. *)
  Theorem derivative_storage p x c dense y z info a b : vcovered R width depth dims trees good p (vstart R) ->
    let t := vrun R width depth dims trees p (vstart R) in
    t y = Some a -> v_lie R a = true -> v_ctx R a = c -> v_dense R a <> dense -> t z = Some b -> v_lie R b = true -> Forall (fun yz => is_lie R t (fst yz) (fun _ => True) /\ is_lie R t (snd yz) (fun _ => True)) info ->
    lie_run R req Ok ctxs (p ++ [LDeriv R x c dense ((y, z) :: info)]) (lie_start R) = UB.
  Proof.
    intros Hc t Ey La Ec Ed Ez Lb Hi. destruct (run_ok p (lie_start R) (vstart R) Hc srep_start) as ([e cs] & E & [He Hcs]). unfold lie_run in *. rewrite for_app, E. cbn [bind for_ lie_step fst snd] in *.
    destruct (fetch_ok e t y a He Ey) as (o & Eo & Ho). rewrite La in Eo. destruct (fetch_ok e t z b He Ez) as (o2 & Eo2 & Ho2). rewrite Lb in Eo2. cbn [omap fst snd]. rewrite Eo. cbn [bind]. rewrite Eo2. cbn [bind].
    assert (Hi' : exists abs, omap (fun yz => let! a := fetch R true e (fst yz) in let! b := fetch R true e (snd yz) in Ok (a, b)) info = Ok abs).
    { clear - He Hi. induction Hi as [|[y z] info ((a & Ea & La & _) & (b & Eb & Lb & _)) H IH]; [eexists; reflexivity|]. cbn [fst snd] in *. destruct IH as (abs & E). destruct (fetch_ok e t y a He Ea) as (o & Eo & _). rewrite La in Eo. destruct (fetch_ok e t z b He Eb) as (o2 & Eo2 & _). rewrite Lb in Eo2.
      cbn [omap fst snd]. rewrite Eo. cbn [bind]. rewrite Eo2. cbn [bind]. rewrite E. eexists. reflexivity. }
    destruct Hi' as (abs & ->). cbn [bind]. unfold ctx_sig_derivative. cbn [for_ fst]. destruct Ho as (E1 & _ & E3 & _). unfold l2t_impl at 1. rewrite E1, Ec, Z.eqb_refl, E3.
    destruct (Bool.eqb (v_dense R a) dense) eqn:Q; [apply Bool.eqb_prop in Q; contradiction|]. reflexivity.
  Qed.
  (** Operands of another width are refused. *)
  Theorem to_tensor_width p x c y a : vcovered R width depth dims trees good p (vstart R) -> good c -> vrun R width depth dims trees p (vstart R) y = Some a -> v_lie R a = true -> width (v_ctx R a) <> width c ->
    lie_run R req Ok ctxs (p ++ [LToTensor R x c y]) (lie_start R) = Throw.
  Proof.
    intros Hc G Ey La Hw. destruct (run_ok p (lie_start R) (vstart R) Hc srep_start) as ([e cs] & E & [He Hcs]). unfold lie_run in *. rewrite for_app, E. cbn [bind for_ lie_step fst snd] in *.
    destruct (fetch_ok e _ y a He Ey) as (o & Eo & (E1 & _ & E3 & G' & _)). rewrite La in Eo. rewrite Eo. cbn [bind]. unfold ctx_lie_to_tensor, l2t_impl. rewrite E1.
    destruct (Z.eqb_spec (v_ctx R a) c) as [Q|_]; [congruence|]. rewrite (c_width _ _ _ (good_ok _ G')), (c_width _ _ _ (good_ok _ G)). apply Z.eqb_neq in Hw. rewrite Hw. reflexivity.
  Qed.
  Theorem to_lie_width p x c y a : vcovered R width depth dims trees good p (vstart R) -> good c -> vrun R width depth dims trees p (vstart R) y = Some a -> v_lie R a = false -> width (v_ctx R a) <> width c ->
    lie_run R req Ok ctxs (p ++ [LToLie R x c y]) (lie_start R) = Throw.
  Proof.
    intros Hc G Ey La Hw. destruct (run_ok p (lie_start R) (vstart R) Hc srep_start) as ([e cs] & E & [He Hcs]). unfold lie_run in *. rewrite for_app, E. cbn [bind for_ lie_step fst snd] in *.
    destruct (fetch_ok e _ y a He Ey) as (o & Eo & (E1 & _ & E3 & G' & _)). rewrite La in Eo. rewrite Eo. cbn [bind]. unfold ctx_tensor_to_lie. rewrite E1.
    destruct (Z.eqb_spec (v_ctx R a) c) as [Q|_]; [congruence|]. rewrite (c_width _ _ _ (good_ok _ G')), (c_width _ _ _ (good_ok _ G)). apply Z.eqb_neq in Hw. rewrite Hw. reflexivity.
  Qed.
End Programs.
