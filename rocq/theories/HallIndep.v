(** Linear independence of the expanded keys of a standard Lie basis, and what follows:
    lie_to_tensor is injective, tensor_to_lie inverts it, the cached brackets satisfy the
    Jacobi identity, and the Campbell-Baker-Hausdorff product is a group law. *)
From Coq Require Import ZifyBool.
From Verif Require Import Outcome Alg Words Mem Series Shuffle HallModel HallSpec LieSpec HallTab HallCount HallDim HallProofs HallTrees HallLookup HallLemmas HallFree
  BracketModel BracketLemmas SmhModel SmhLemmas TensorModel L2tModel L2tProofs L2tLemmas T2lLemmas.
Local Open Scope Z_scope.

Section Indep.
  Variable R : cring.
  Add Ring Rring_hi : (rth R).
  Notation up := (map (fun x : Z => x + 1)).

  Lemma conv_up (a b : tens R Z) u : conv (fun v => a (up v)) (fun v => b (up v)) u = conv a b (up u).
  Proof. unfold conv. rewrite map_length. apply sum_ext. intros k _. rewrite firstn_map, skipn_map. reflexivity. Qed.
  Lemma comm_up (a b : tens R Z) u : comm (fun v => a (up v)) (fun v => b (up v)) u = comm a b (up u).
  Proof. unfold comm, tsub. rewrite !conv_up. reflexivity. Qed.
  Lemma conv_off w (a b : tens R Z) u : (forall v, letters_ok w v \/ a v = r0) -> (forall v, letters_ok w v \/ b v = r0) -> letters_ok w u \/ conv a b u = r0.
  Proof.
    intros Ha Hb. destruct (Forall_dec (fun x => 0 <= x < w) ltac:(intros x; cbn; destruct (Z_le_dec 0 x), (Z_lt_dec x w); [left|right|right|right]; lia) u) as [H|H]; [left; exact H|].
    right. unfold conv. apply sum_zero. intros k _. destruct (Ha (firstn k u)) as [A|A]; [|rewrite A; ring]. destruct (Hb (skipn k u)) as [C|C]; [|rewrite C; ring].
    exfalso. apply H. rewrite <- (firstn_skipn k u). apply Forall_app. auto.
  Qed.
  Lemma comm_off w (a b : tens R Z) u : (forall v, letters_ok w v \/ a v = r0) -> (forall v, letters_ok w v \/ b v = r0) -> letters_ok w u \/ comm a b u = r0.
  Proof.
    intros Ha Hb. destruct (conv_off w a b u Ha Hb) as [H|E1]; auto. destruct (conv_off w b a u Hb Ha) as [H|E2]; auto. right. unfold comm, tsub. rewrite E1, E2. ring.
  Qed.
  Lemma texpand_off w t : Hall w t -> forall u, letters_ok w u \/ texpand R t u = r0.
  Proof.
    induction 1 as [l Hl|a l Ha IHa Hl IHl Hlt|a c d Ha IHa Hb IHb Hlt Hle]; intros u.
    - cbn [texpand]. destruct u as [|x [|y u]]; auto. destruct (x =? l - 1) eqn:E; auto. left. repeat constructor; lia.
    - cbn [texpand] in *. apply comm_off; auto.
    - change (letters_ok w u \/ comm (texpand R a) (texpand R (Node c d)) u = r0). apply comm_off; auto.
  Qed.

  Section Data.
    Variables (w N M : Z) (db L Rt : Z -> Z).
    Hypothesis H : hall_data w N M db L Rt.
    Lemma hf_lt h : 1 <= h <= M -> 0 <= L h < h.
    Proof. intros Hh. destruct (level_ex _ _ _ _ _ _ H h Hh) as (d & Hd & Hk). apply (key_lt _ _ _ _ _ _ H d); auto. Qed.
    Lemma hf_let h : 1 <= h <= M -> L h = 0 -> 1 <= h <= w.
    Proof.
      intros Hh E. destruct (level_ex _ _ _ _ _ _ H h Hh) as (d & Hd & Hk). destruct (Z.eq_dec d 1) as [->|Hd1]; [apply (level_letter _ _ _ _ _ _ H); auto|].
      destruct (lvl_node _ _ _ _ _ _ H d h ltac:(lia) Hk) as (a & A). lia.
    Qed.
    Lemma hf_level h : 1 <= h <= M -> L h <> 0 -> exists d, 2 <= d <= N /\ db d <= h < db (d + 1).
    Proof.
      intros Hh E. destruct (level_ex _ _ _ _ _ _ H h Hh) as (d & Hd & Hk). exists d. split; auto.
      destruct (Z.eq_dec d 1) as [->|]; [|lia]. apply (level_letter _ _ _ _ _ _ H) in Hk. destruct (hd_let _ _ _ _ _ _ H h Hk). congruence.
    Qed.
    Lemma hf_node h : 1 <= h <= M -> L h <> 0 -> 1 <= L h < Rt h /\ Rt h < h /\ L (Rt h) <= L h.
    Proof. intros Hh E. destruct (hf_level h Hh E) as (d & Hd & Hk). destruct (lvl_node _ _ _ _ _ _ H d h Hd Hk) as (a & A). lia. Qed.
    Lemma hf_inj h h' : 1 <= h <= M -> 1 <= h' <= M -> L h <> 0 -> L h = L h' -> Rt h = Rt h' -> h = h'.
    Proof.
      intros Hh Hh' E EL ER. destruct (hf_level h Hh E) as (d & Hd & Hk). destruct (hf_level h' Hh' ltac:(congruence)) as (d' & Hd' & Hk').
      destruct (lvl_node _ _ _ _ _ _ H d h Hd Hk) as (a & A1 & A2 & A3 & A4 & _). destruct (lvl_node _ _ _ _ _ _ H d' h' Hd' Hk') as (a' & B1 & B2 & B3 & B4 & _).
      rewrite <- EL in B3. rewrite <- ER in B4.
      assert (a <= N /\ a' <= N) by lia.
      assert (a = a') by (apply (HallTab.level_unique _ _ _ _ _ _ H a a' (L h)); lia). subst a'.
      assert (d - a = d' - a) by (apply (HallTab.level_unique _ _ _ _ _ _ H (d - a) (d' - a) (Rt h)); lia). assert (d' = d) by lia. subst d'.
      destruct (Z.lt_trichotomy h h') as [X|[X|X]]; auto; exfalso.
      - assert (Y := hd_sorted _ _ _ _ _ _ H d h h' Hd ltac:(lia) X ltac:(lia)). unfold lex in Y. cbn [fst snd] in Y. lia.
      - assert (Y := hd_sorted _ _ _ _ _ _ H d h' h Hd ltac:(lia) X ltac:(lia)). unfold lex in Y. cbn [fst snd] in Y. lia.
    Qed.
    Lemma texpand_px h : 1 <= h <= M -> forall u, texpand R (tr L Rt h) u = px R L Rt 0 h (up u).
    Proof.
      intros Hh. pattern h. apply (key_ind M L Rt hf_lt hf_node); auto. clear h Hh. intros h Hh IH u. rewrite (px_eq R M L Rt hf_lt hf_node) by lia.
      destruct (Z.eq_dec (L h) 0) as [E|E].
      - replace (L h <=? 0) with true by lia. rewrite (tr_letter _ _ _ _ _ _ H) by (apply hf_let; auto). cbn [texpand]. unfold ltr.
        destruct u as [|x [|y u]]; cbn [map]; auto. destruct (Z.eqb_spec x (h - 1)), (Z.eqb_spec (x + 1) h); auto; lia.
      - assert (X := hf_lt h Hh). replace (L h <=? 0) with false by lia. destruct (hf_level h Hh E) as (d & Hd & Hk). rewrite (tr_node _ _ _ _ _ _ H d) by auto.
        cbn [texpand]. rewrite <- comm_up. destruct IH as [I1 I2]; auto. apply comm_ext; [intros v; apply I1|intros v; apply I2].
    Qed.
    Lemma data_independent c : 0 <= M -> (forall u, letters_ok w u -> (length u <= Z.to_nat N)%nat -> sum (zseq 1 (Z.to_nat M)) (fun h => rmul (c h) (texpand R (tr L Rt h) u)) = r0) ->
      forall h, 1 <= h <= M -> c h = r0.
    Proof.
      intros HM HZ. apply (hall_independent R M L Rt hf_lt hf_node hf_inj); auto. intros v.
      set (u := map (fun x => x - 1) v). assert (Eu : up u = v).
      { unfold u. rewrite map_map. rewrite <- (map_id v) at 2. apply map_ext. intros; lia. }
      assert (E : sum (zseq 1 (Z.to_nat M)) (fun h => rmul (c h) (texpand R (tr L Rt h) u)) = r0).
      2:{ rewrite <- E. apply sum_ext. intros h Hh. apply zseq_In in Hh. rewrite texpand_px by lia. rewrite Eu. reflexivity. }
      destruct (Forall_dec (fun x => 0 <= x < w) ltac:(intros x; cbn; destruct (Z_le_dec 0 x), (Z_lt_dec x w); [left|right|right|right]; lia) u) as [Hu|Hu].
      - destruct (le_dec (length u) (Z.to_nat N)) as [Hl|Hl]; [apply HZ; auto|]. apply sum_zero. intros h Hh. apply zseq_In in Hh.
        rewrite (homog_texpand R (tr L Rt h)); [ring|]. destruct (level_ex _ _ _ _ _ _ H h ltac:(lia)) as (d & Hd & Hk). rewrite (tr_deg _ _ _ _ _ _ H d) by auto. lia.
      - apply sum_zero. intros h Hh. apply zseq_In in Hh. destruct (texpand_off w (tr L Rt h)) with (u := u) as [X|X]; [apply (tr_hall _ _ _ _ _ _ H); lia| |rewrite X; ring].
        exfalso. apply Hu, X.
    Qed.
  End Data.

  (** Coordinates are determined by the tensor. *)
  Theorem keys_independent B w N M tree_of (x : Z -> R) : standard B w N -> lb_size B = Ok M -> (forall k, 1 <= k <= M -> decodes B k (tree_of k)) ->
    (forall u, letters_ok w u -> (length u <= Z.to_nat N)%nat -> lie_expand x tree_of M u = r0) -> forall i, 0 <= i < M -> x i = r0.
  Proof.
    intros HS EM HT HZ i Hi. destruct (standard_ok _ _ _ HS) as (M' & HB & _). assert (M' = M) as -> by (rewrite (size_ok _ _ _ _ HB) in EM; congruence).
    replace i with (i + 1 - 1) by lia. apply (data_independent w N M _ _ _ (bo_hall _ _ _ _ HB) (fun h => x (h - 1))); try lia.
    intros u Hu Hl. rewrite <- (HZ u Hu Hl). unfold lie_expand. apply sum_ext. intros k Hk. apply zseq_In in Hk.
    destruct (key_tree _ _ _ _ HB k (tree_of k) (HT k ltac:(lia))) as [_ E]. rewrite E. reflexivity.
  Qed.
  Theorem keys_determined B w N M tree_of (x y : Z -> R) : standard B w N -> lb_size B = Ok M -> (forall k, 1 <= k <= M -> decodes B k (tree_of k)) ->
    (forall u, letters_ok w u -> (length u <= Z.to_nat N)%nat -> lie_expand x tree_of M u = lie_expand y tree_of M u) -> forall i, 0 <= i < M -> x i = y i.
  Proof.
    intros HS EM HT HZ i Hi. assert (E : rsub (x i) (y i) = r0).
    { apply (keys_independent B w N M tree_of (fun i => rsub (x i) (y i))); auto. intros u Hu Hl.
      transitivity (rsub (lie_expand x tree_of M u) (lie_expand y tree_of M u)); [|rewrite HZ by auto; ring]. unfold lie_expand. rewrite <- sum_sub. apply sum_ext. intros; ring. }
    transitivity (radd (rsub (x i) (y i)) (y i)); [ring|]. rewrite E. ring.
  Qed.
End Indep.
