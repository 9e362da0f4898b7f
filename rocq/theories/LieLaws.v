(** Laws of Lie elements that follow from the independence of the basis: brackets form a
    Lie algebra, lie_to_tensor and tensor_to_lie are mutually inverse, and the
    Campbell-Baker-Hausdorff product is a group law. *)
From Coq Require Import ZifyBool Sorted QArith Qcanon.
From Verif Require Export HallIndep Cbh.
From Verif Require Import Outcome Alg Words Mem PowerSeries Series Shuffle TensorModel TensorTop TensorTop3 TensorLemmas TensorLemmas2 HallModel HallSpec LieSpec HallTab HallCount HallDim HallProofs HallTrees HallLookup HallLemmas
  BracketModel BracketLemmas SmhModel SmhLemmas L2tModel L2tProofs L2tLemmas T2lLemmas ExpComm.
Local Open Scope Z_scope.

(** ** Statements *)
(** Equal coordinates. *)
Definition same_coords {R : cring} (M : Z) (x y : buf R) : Prop := forall i, 0 <= i < M -> bat x i = bat y i.
(** [br a b] is what the library answers for the bracket of keys [a] and [b], in some
    state of the cache. *)
Definition bracket_table (B : lie_basis) (w M : Z) (br : Z -> Z -> list (Z * Z)) : Prop :=
  forall a b, 1 <= a <= M -> 1 <= b <= M -> exists c c', reachable w c /\ returns B c (a, b) (Some (br a b)) c'.
(** The product of two Lie elements given by coordinates (entry k - 1 belongs to key k):
    brackets of keys extended to all elements. *)
Definition lprod {R : cring} (M : Z) (br : Z -> Z -> list (Z * Z)) (x y : Z -> R) : Z -> R := fun i =>
  sum (zseq 1 (Z.to_nat M)) (fun a => sum (zseq 1 (Z.to_nat M)) (fun b =>
    rmul (rmul (x (a - 1)) (y (b - 1))) (sum (br a b) (fun p => if Z.eqb (fst p) (i + 1) then zr R (snd p) else r0)))).

Section Prod.
  Variable R : cring.
  Add Ring Rring_ll : (rth R).
  Lemma conv_sum_r' (a : tens R Z) {I} (is : list I) (c : I -> R) (g : I -> tens R Z) u :
    conv a (fun v => sum is (fun i => rmul (c i) (g i v))) u = sum is (fun i => rmul (c i) (conv a (g i) u)).
  Proof.
    induction is as [|i is IH]; cbn [sum].
    - exact (conv_zero_r _ _ a u).
    - rewrite <- IH. transitivity (conv a (tadd (tscal (c i) (g i)) (fun v => sum is (fun i => rmul (c i) (g i v)))) u); [reflexivity|].
      rewrite (conv_add_r _ _ _ _ _ u). unfold tadd. rewrite (conv_scal_r _ _ _ _ _ u). reflexivity.
  Qed.
  Lemma conv_sum_l' (a : tens R Z) {I} (is : list I) (c : I -> R) (g : I -> tens R Z) u :
    conv (fun v => sum is (fun i => rmul (c i) (g i v))) a u = sum is (fun i => rmul (c i) (conv (g i) a u)).
  Proof.
    induction is as [|i is IH]; cbn [sum].
    - exact (conv_zero_l _ _ a u).
    - rewrite <- IH. transitivity (conv (tadd (tscal (c i) (g i)) (fun v => sum is (fun i => rmul (c i) (g i v)))) a u); [reflexivity|].
      rewrite (conv_add_l _ _ _ _ _ u). unfold tadd. rewrite (conv_scal_l _ _ _ _ _ u). reflexivity.
  Qed.
  Variables (B : lie_basis) (w N M : Z).
  Hypothesis HS : standard B w N.
  Hypothesis EM : lb_size B = Ok M.
  Variable br : Z -> Z -> list (Z * Z).
  Hypothesis Hbr : bracket_table B w M br.
  Definition T : Z -> tree := tr (fun k => bat (lb_data B) (2 * k)) (fun k => bat (lb_data B) (2 * k + 1)).
  Lemma T_dec k : 1 <= k <= M -> decodes B k (T k).
  Proof.
    destruct (standard_ok _ _ _ HS) as (M' & HB & _). assert (M' = M) as -> by (rewrite (size_ok _ _ _ _ HB) in EM; congruence).
    apply (tr_decodes _ _ _ _ HB).
  Qed.
  Lemma dec_T k t : decodes B k t -> 1 <= k <= M /\ t = T k.
  Proof.
    destruct (standard_ok _ _ _ HS) as (M' & HB & _). assert (M' = M) as -> by (rewrite (size_ok _ _ _ _ HB) in EM; congruence).
    apply (key_tree _ _ _ _ HB).
  Qed.
  Lemma T_deg k : 1 <= k <= M -> 1 <= tdeg (T k) <= N.
  Proof.
    intros Hk. destruct (standard_ok _ _ _ HS) as (M' & HB & _). assert (M' = M) as -> by (rewrite (size_ok _ _ _ _ HB) in EM; congruence).
    assert (H := bo_hall _ _ _ _ HB). destruct (level_ex _ _ _ _ _ _ H k Hk) as (d & Hd & Hkd). unfold T. rewrite (tr_deg _ _ _ _ _ _ H d); auto.
  Qed.
  Lemma entry_expand e u : (forall p, In p e -> 1 <= fst p <= M) ->
    sum (zseq 1 (Z.to_nat M)) (fun k => rmul (sum e (fun p => if fst p =? k then zr R (snd p) else r0)) (texpand R (T k) u)) =
    sum e (fun p => rmul (zr R (snd p)) (texpand R (T (fst p)) u)).
  Proof.
    intros He. rewrite (sum_ext _ _ _ (fun k => sum e (fun p => rmul (if fst p =? k then zr R (snd p) else r0) (texpand R (T k) u)))) by (intros; symmetry; apply sum_mul_r).
    rewrite sum_swap. apply sum_ext. intros p Hp. specialize (He p Hp). rewrite (sum_single R _ _ (fst p)).
    - rewrite Z.eqb_refl. reflexivity.
    - apply zseq_NoDup.
    - apply zseq_In. lia.
    - intros k _ Hne. replace (fst p =? k) with false by lia. ring.
  Qed.
  Lemma table_expand a b u : 1 <= a <= M -> 1 <= b <= M -> (length u <= Z.to_nat N)%nat ->
    sum (zseq 1 (Z.to_nat M)) (fun k => rmul (sum (br a b) (fun p => if fst p =? k then zr R (snd p) else r0)) (texpand R (T k) u)) =
    comm (texpand R (T a)) (texpand R (T b)) u.
  Proof.
    intros Ha Hb Hu. destruct (Hbr a b Ha Hb) as (c & c' & Hc & HR). assert (Da := T_deg a Ha). assert (Db := T_deg b Hb).
    destruct (Z_le_gt_dec (tdeg (T a) + tdeg (T b)) N) as [Hd|Hd].
    - destruct (bracket_correct w c B N a b _ _ _ _ Hc HS (T_dec a Ha) (T_dec b Hb) Hd HR) as (e & l & E & _ & F2 & HK). injection E as E.
      rewrite <- (HK R u). unfold tlin. rewrite E.
      assert (Hin : forall p, In p e -> 1 <= fst p <= M).
      { clear - F2 HS EM. induction F2 as [|p q e l (D & _) F IH]; intros x [].
        - subst. apply (dec_T _ _ D). - apply IH; auto. }
      rewrite entry_expand by auto. clear - F2 HS EM. induction F2 as [|p q e l (D & Es & _) F IH]; cbn [sum]; [reflexivity|].
      rewrite IH, Es. destruct (dec_T _ _ D) as [_ ->]. reflexivity.
    - assert (X := bracket_outside w c B N a b _ _ Hc HS ltac:(lia) ltac:(lia) HR).
      assert (E0 : Some (br a b) = Some []).
      { apply X. intros s t Ds Dt. destruct (dec_T _ _ Ds) as [_ ->]. destruct (dec_T _ _ Dt) as [_ ->]. lia. }
      injection E0 as ->. cbn [sum]. rewrite sum_zero by (intros; ring). symmetry.
      apply (homog_comm R (Z.to_nat (tdeg (T a))) (Z.to_nat (tdeg (T b)))); [apply homog_texpand|apply homog_texpand|lia].
  Qed.
  Notation LX x := (@lie_expand R x T M).
  Lemma comm_sums (x y : Z -> R) u :
    comm (LX x) (LX y) u = sum (zseq 1 (Z.to_nat M)) (fun a => sum (zseq 1 (Z.to_nat M)) (fun b => rmul (rmul (x (a - 1)) (y (b - 1))) (comm (texpand R (T a)) (texpand R (T b)) u))).
  Proof.
    unfold comm, tsub, lie_expand. rewrite conv_sum_l'. rewrite (conv_sum_r' (fun u0 => sum _ _)).
    rewrite <- sum_sub. apply sum_ext. intros a _.
    rewrite (conv_sum_r' (texpand R (T a)) (zseq 1 (Z.to_nat M)) (fun k => y (k - 1)) (fun k => texpand R (T k))).
    rewrite (conv_sum_l' (texpand R (T a)) (zseq 1 (Z.to_nat M)) (fun k => y (k - 1)) (fun k => texpand R (T k))).
    rewrite <- !sum_mul_l, <- sum_sub. apply sum_ext. intros b _. ring.
  Qed.
  Lemma lprod_expand (x y : Z -> R) u : (length u <= Z.to_nat N)%nat -> LX (lprod M br x y) u = comm (LX x) (LX y) u.
  Proof.
    intros Hu. rewrite comm_sums. unfold lie_expand at 1, lprod.
    rewrite (sum_ext _ _ _ (fun k => sum (zseq 1 (Z.to_nat M)) (fun a => sum (zseq 1 (Z.to_nat M)) (fun b =>
      rmul (rmul (x (a - 1)) (y (b - 1))) (rmul (sum (br a b) (fun p => if fst p =? k then zr R (snd p) else r0)) (texpand R (T k) u)))))).
    2:{ intros k _. rewrite <- sum_mul_r. apply sum_ext. intros a _. rewrite <- sum_mul_r. apply sum_ext. intros b _. replace (k - 1 + 1) with k by lia. ring. }
    rewrite sum_swap. apply sum_ext. intros a Ha. apply zseq_In in Ha. rewrite sum_swap. apply sum_ext. intros b Hb. apply zseq_In in Hb.
    rewrite sum_mul_l, table_expand by lia. reflexivity.
  Qed.
  Lemma determined (x y : Z -> R) : (forall u, (length u <= Z.to_nat N)%nat -> LX x u = LX y u) -> forall i, 0 <= i < M -> x i = y i.
  Proof. intros H. apply (keys_determined R B w N M T); auto. intros k Hk. apply T_dec, Hk. Qed.
  Lemma LX_zero u : LX (fun _ => r0) u = r0.
  Proof. unfold lie_expand. apply sum_zero. intros; ring. Qed.
  Lemma LX_add (x y : Z -> R) u : LX (fun i => radd (x i) (y i)) u = radd (LX x u) (LX y u).
  Proof. unfold lie_expand. rewrite <- sum_add. apply sum_ext. intros; ring. Qed.
  Lemma comm_local (a a' b b' : tens R Z) u : (forall v, (length v <= length u)%nat -> a v = a' v) -> (forall v, (length v <= length u)%nat -> b v = b' v) -> comm a b u = comm a' b' u.
  Proof. intros Ha Hb. unfold comm, tsub. rewrite (conv_local _ _ a a' b b' u), (conv_local _ _ b b' a a' u); auto. Qed.

  Theorem lie_alternating (x : Z -> R) i : 0 <= i < M -> lprod M br x x i = r0.
  Proof.
    intros Hi. apply (determined (lprod M br x x) (fun _ => r0)); auto. intros u Hu. rewrite lprod_expand by auto. rewrite LX_zero. apply (comm_same R Z (LX x) u).
  Qed.
  Theorem lie_antisymmetric (x y : Z -> R) i : 0 <= i < M -> lprod M br x y i = ropp (lprod M br y x i).
  Proof.
    intros Hi. apply (determined (lprod M br x y) (fun i => ropp (lprod M br y x i))); auto. intros u Hu. rewrite lprod_expand by auto.
    transitivity (ropp (LX (lprod M br y x) u)); [|unfold lie_expand; rewrite <- sum_opp; apply sum_ext; intros; ring].
    rewrite lprod_expand by auto. unfold comm, tsub. ring.
  Qed.
  Theorem lie_jacobi (x y z : Z -> R) i : 0 <= i < M ->
    radd (lprod M br x (lprod M br y z) i) (radd (lprod M br y (lprod M br z x) i) (lprod M br z (lprod M br x y) i)) = r0.
  Proof.
    intros Hi. apply (determined (fun i => radd (lprod M br x (lprod M br y z) i) (radd (lprod M br y (lprod M br z x) i) (lprod M br z (lprod M br x y) i))) (fun _ => r0)); auto.
    intros u Hu. rewrite LX_zero.
    rewrite (LX_add (lprod M br x (lprod M br y z)) (fun i => radd (lprod M br y (lprod M br z x) i) (lprod M br z (lprod M br x y) i)) u).
    rewrite (LX_add (lprod M br y (lprod M br z x)) (lprod M br z (lprod M br x y)) u).
    rewrite !lprod_expand by auto.
    rewrite (comm_local (LX x) (LX x) _ (comm (LX y) (LX z)) u) by (auto; intros v Hv; apply lprod_expand; lia).
    rewrite (comm_local (LX y) (LX y) _ (comm (LX z) (LX x)) u) by (auto; intros v Hv; apply lprod_expand; lia).
    rewrite (comm_local (LX z) (LX z) _ (comm (LX x) (LX y)) u) by (auto; intros v Hv; apply lprod_expand; lia).
    unfold comm. repeat match goal with |- context [tsub ?p ?q u] => change (tsub p q u) with (rsub (p u) (q u)) end.
    rewrite ?(conv_sub_r _ _ _ _ _ u), ?(conv_sub_l _ _ _ _ _ u). unfold tsub. rewrite ?(conv_assoc _ _ _ _ _ u). ring.
  Qed.
  (** A key is the bracket of its parents. *)
  Theorem key_is_bracket k a b : get_parents B k = Ok (a, b) -> 1 <= a -> forall i, 0 <= i < M ->
    sum (br a b) (fun p => if fst p =? i + 1 then zr R (snd p) else r0) = if k =? i + 1 then r1 else r0.
  Proof.
    intros EP Ha i Hi.
    destruct (standard_ok _ _ _ HS) as (M' & HB & _). assert (M' = M) as -> by (rewrite (size_ok _ _ _ _ HB) in EM; congruence).
    assert (H := bo_hall _ _ _ _ HB). assert (EP' := EP). rewrite (parents_ok _ _ _ _ HB) in EP'. destruct ((k <=? 0) || (k >=? M + 1)) eqn:E; [discriminate|]. injection EP' as E1 E2.
    assert (X := hf_node w N M _ _ _ H k ltac:(lia)). cbn beta in X. rewrite E1, E2 in X. specialize (X ltac:(lia)).
    assert (HT : T k = Node (T a) (T b)).
    { destruct (dec_T k (Node (T a) (T b))) as [_ <-]; auto. apply (dec_node B k a b); auto; apply T_dec; lia. }
    apply (determined (fun i => sum (br a b) (fun p => if fst p =? i + 1 then zr R (snd p) else r0)) (fun i => if k =? i + 1 then r1 else r0)); auto.
    intros u Hu. transitivity (comm (texpand R (T a)) (texpand R (T b)) u).
    - rewrite <- (table_expand a b u) by (auto; lia). unfold lie_expand. apply sum_ext. intros j _. replace (j - 1 + 1) with j by lia. reflexivity.
    - change (comm (texpand R (T a)) (texpand R (T b)) u) with (texpand R (Node (T a) (T b)) u). rewrite <- HT.
      unfold lie_expand. rewrite (sum_single R _ _ k).
      + replace (k =? k - 1 + 1) with true by lia. ring.
      + apply zseq_NoDup.
      + apply zseq_In. lia.
      + intros j _ Hne. replace (k =? j - 1 + 1) with false by lia. ring.
  Qed.
End Prod.
