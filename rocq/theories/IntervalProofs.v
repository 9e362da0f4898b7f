(** Proofs about intervals and partitions. *)
From Verif Require Export IntervalModel.
Open Scope Q_scope.

Lemma qle_true x y : qle x y = true <-> x <= y.
Proof. apply Qle_bool_iff. Qed.
Lemma qle_false x y : qle x y = false <-> y < x.
Proof. split; intros H; [apply Qnot_le_lt; intros K; apply qle_true in K; congruence|].
  destruct (qle x y) eqn:E; [|reflexivity]. apply qle_true in E. lra. Qed.
Lemma qlt_true x y : qlt x y = true <-> x < y.
Proof. unfold qlt. fold (qle y x). rewrite negb_true_iff. apply qle_false. Qed.
Lemma qlt_false x y : qlt x y = false <-> y <= x.
Proof. unfold qlt. fold (qle y x). rewrite negb_false_iff. apply qle_true. Qed.
Lemma qeq_true x y : qeq x y = true <-> x == y. Proof. apply Qeq_bool_iff. Qed.
Lemma qeq_false x y : qeq x y = false <-> ~ x == y.
Proof. split; [apply Qeq_bool_neq|]. intros H. destruct (qeq x y) eqn:E; [apply qeq_true in E; contradiction|reflexivity]. Qed.
Ltac qb := repeat match goal with
  | H : qle _ _ = true |- _ => apply qle_true in H
  | H : qle _ _ = false |- _ => apply qle_false in H
  | H : qlt _ _ = true |- _ => apply qlt_true in H
  | H : qlt _ _ = false |- _ => apply qlt_false in H
  | H : qeq _ _ = true |- _ => apply qeq_true in H
  | H : qeq _ _ = false |- _ => apply qeq_false in H
  | H : ~ (?x == ?y) |- _ => assert (x < y \/ y < x) by (destruct (Q_dec x y) as [[?|?]|?]; [left|right|contradiction]; assumption); clear H
  end.
Ltac qd := match goal with
  | |- context [qle ?x ?y] => destruct (qle x y) eqn:?
  | |- context [qlt ?x ?y] => destruct (qlt x y) eqn:?
  | |- context [qeq ?x ?y] => destruct (qeq x y) eqn:?
  end.

Lemma qmax_spec a b : a <= qmax a b /\ b <= qmax a b /\ (qmax a b = a \/ qmax a b = b).
Proof. unfold qmax. qd; qb; repeat split; auto; lra. Qed.
Lemma qmin_spec a b : qmin a b <= a /\ qmin a b <= b /\ (qmin a b = a \/ qmin a b = b).
Proof. unfold qmin. qd; qb; repeat split; auto; lra. Qed.

(** ** Intervals as point sets *)
Definition in_set (i : ri) (x : Q) : Prop :=
  match ri_t i with Clopen => ri_inf i <= x /\ x < ri_sup i | Opencl => ri_inf i < x /\ x <= ri_sup i end.

Lemma contains_point_spec i x : contains_point i x = true <-> in_set i x.
Proof. unfold contains_point, in_set. destruct (ri_t i); rewrite andb_true_iff, ?qle_true, ?qlt_true; tauto. Qed.
Lemma contains_spec i j : ri_inf i < ri_sup i -> ri_inf j < ri_sup j -> ri_t i = ri_t j ->
  (contains i j = true <-> forall x, in_set j x -> in_set i x).
Proof.
  intros Hi Hj Ht. unfold contains. rewrite andb_true_iff, !qle_true. unfold in_set. rewrite <- Ht. split.
  - intros [H1 H2] x. destruct (ri_t i); lra.
  - intros H. destruct (ri_t i).
    + assert (A := H (ri_inf j)). split; [lra|]. destruct (Qlt_le_dec (ri_sup i) (ri_sup j)) as [C|C]; [|auto].
      assert (B := H (ri_sup i)). assert (B' := H (ri_inf j)). lra.
    + assert (A := H (ri_sup j)). split; [|lra]. destruct (Qlt_le_dec (ri_inf j) (ri_inf i)) as [C|C]; [|auto].
      assert (B := H (ri_inf i)). assert (B' := H (ri_sup j)). lra.
Qed.
(** Sharing a point, for every combination of types. *)
Lemma intersects_spec i j : ri_inf i < ri_sup i -> ri_inf j < ri_sup j ->
  (intersects_with i j = true <-> exists x, in_set i x /\ in_set j x).
Proof.
  intros Hi Hj. unfold intersects_with, in_set. split.
  - destruct ((qle (ri_inf i) (ri_inf j) && qlt (ri_inf j) (ri_sup i)) || (qle (ri_inf j) (ri_inf i) && qlt (ri_inf i) (ri_sup j))) eqn:E.
    + intros _. assert (H : (ri_inf i <= ri_inf j /\ ri_inf j < ri_sup i) \/ (ri_inf j <= ri_inf i /\ ri_inf i < ri_sup j)).
      { apply orb_prop in E. destruct E as [E|E]; apply andb_prop in E; destruct E; qb; auto. }
      clear E.
      exists ((qmax (ri_inf i) (ri_inf j) + qmin (ri_sup i) (ri_sup j)) / 2).
      assert (X : qmax (ri_inf i) (ri_inf j) < (qmax (ri_inf i) (ri_inf j) + qmin (ri_sup i) (ri_sup j)) / 2 < qmin (ri_sup i) (ri_sup j)).
      { assert (Y : qmax (ri_inf i) (ri_inf j) < qmin (ri_sup i) (ri_sup j)) by (unfold qmax, qmin; repeat qd; qb; lra).
        assert (Z : forall a b, a < b -> a < (a + b) / 2 < b). { intros a b L. assert ((a + b) / 2 == a * (1#2) + b * (1#2)) by field. lra. }
        apply Z; auto. }
      destruct (qmax_spec (ri_inf i) (ri_inf j)) as (A1 & A2 & _). destruct (qmin_spec (ri_sup i) (ri_sup j)) as (B1 & B2 & _).
      destruct (ri_t i), (ri_t j); split; split; lra.
    + destruct (qeq (ri_inf j) (ri_sup i)) eqn:E2; qb.
      * intros H. apply andb_prop in H. destruct H as [H1 H2]. destruct (ri_t i), (ri_t j); try discriminate. exists (ri_sup i). lra.
      * destruct (qeq (ri_inf i) (ri_sup j)) eqn:E3; qb; [|discriminate].
        intros H'. apply andb_prop in H'. destruct H' as [H1 H2]. destruct (ri_t i), (ri_t j); try discriminate. exists (ri_inf i). lra.
  - intros (x & H1 & H2). repeat (qd; cbn [andb orb]); qb; destruct (ri_t i), (ri_t j); cbn; auto; exfalso; lra.
Qed.
Lemma is_associated_spec i j : is_associated i j = true <-> in_set i (match ri_t j with Clopen => ri_inf j | Opencl => ri_sup j end).
Proof. apply contains_point_spec. Qed.
Lemma interval_eq_spec i j : interval_eq i j = true <-> ri_t i = ri_t j /\ ri_inf i == ri_inf j /\ ri_sup i == ri_sup j.
Proof.
  unfold interval_eq. rewrite !andb_true_iff, !qeq_true. destruct (ri_t i), (ri_t j); cbn; intuition congruence.
Qed.
Lemma ri_make_ordered a b t : ri_inf (ri_make a b t) <= ri_sup (ri_make a b t) /\ ri_t (ri_make a b t) = t /\
  (a <= b -> ri_make a b t = mkRI a b t).
Proof.
  unfold ri_make. qd; qb; cbn [ri_inf ri_sup ri_t].
  - split; [lra|split; [auto|]]. intros; lra.
  - split; [lra|split; auto].
Qed.

Lemma union_spec i j : ri_inf i <= ri_sup i -> ri_inf j <= ri_sup j ->
  interval_union i j = mkRI (qmin (ri_inf i) (ri_inf j)) (qmax (ri_sup i) (ri_sup j)) Clopen.
Proof.
  intros Hi Hj. unfold interval_union. apply ri_make_ordered. destruct (qmin_spec (ri_inf i) (ri_inf j)) as (A & _).
  destruct (qmax_spec (ri_sup i) (ri_sup j)) as (B & _). lra.
Qed.
Lemma intersection_spec i j : ri_inf i < ri_sup j -> ri_inf j < ri_sup i -> ri_inf i < ri_sup i -> ri_inf j < ri_sup j ->
  intersection i j = mkRI (qmax (ri_inf i) (ri_inf j)) (qmin (ri_sup i) (ri_sup j)) Clopen.
Proof.
  intros H1 H2 Hi Hj. unfold intersection.
  destruct (qle (ri_sup j) (ri_inf i) || qle (ri_sup i) (ri_inf j)) eqn:E.
  - apply orb_prop in E. destruct E; qb; lra.
  - apply ri_make_ordered. unfold qmax, qmin; repeat qd; qb; lra.
Qed.
(** The point sets, for clopen arguments. *)
Lemma intersection_points i j : ri_t i = Clopen -> ri_t j = Clopen -> ri_inf i < ri_sup i -> ri_inf j < ri_sup j ->
  ri_inf i < ri_sup j -> ri_inf j < ri_sup i -> forall x, in_set (intersection i j) x <-> in_set i x /\ in_set j x.
Proof.
  intros T1 T2 Hi Hj H1 H2 x. rewrite intersection_spec by auto. unfold in_set. rewrite T1, T2. cbn [ri_t ri_inf ri_sup].
  unfold qmax, qmin; repeat qd; qb; split; intros; lra.
Qed.
Lemma union_contains i j : ri_inf i <= ri_sup i -> ri_inf j <= ri_sup j ->
  contains (interval_union i j) i = true /\ contains (interval_union i j) j = true /\
  (forall k, contains k i = true -> contains k j = true -> contains k (interval_union i j) = true).
Proof.
  intros Hi Hj. rewrite union_spec by auto. unfold contains. cbn [ri_inf ri_sup].
  destruct (qmin_spec (ri_inf i) (ri_inf j)) as (A1 & A2 & A3). destruct (qmax_spec (ri_sup i) (ri_sup j)) as (B1 & B2 & B3).
  split; [apply andb_true_intro; split; apply qle_true; auto|split; [apply andb_true_intro; split; apply qle_true; auto|]].
  intros k H H0. apply andb_prop in H. apply andb_prop in H0. destruct H, H0. qb. apply andb_true_intro; split; apply qle_true.
  - destruct A3 as [->| ->]; auto.
  - destruct B3 as [->| ->]; auto.
Qed.
Lemma intersection_disjoint i j : ri_sup j <= ri_inf i \/ ri_sup i <= ri_inf j -> intersection i j = mkRI 0 1 Clopen.
Proof.
  intros H. unfold intersection. destruct (qle (ri_sup j) (ri_inf i) || qle (ri_sup i) (ri_inf j)) eqn:E; [reflexivity|].
  apply orb_false_elim in E. destruct E. qb. lra.
Qed.

(** ** Chains of points *)
(** lo <= x1 <= x2 <= ... <= hi *)
Fixpoint between (lo hi : Q) (l : list Q) : Prop :=
  match l with [] => lo <= hi | x :: l' => lo <= x /\ between x hi l' end.
Definition inQ (x : Q) (l : list Q) : Prop := Exists (fun y => y == x) l.

Lemma between_le lo hi l : between lo hi l -> lo <= hi.
Proof. revert lo. induction l as [|x l IH]; intros lo; cbn [between]; [auto|]. intros [H K]. apply IH in K. lra. Qed.
Lemma between_app lo m hi l1 l2 : between lo m l1 -> between m hi l2 -> between lo hi (l1 ++ l2).
Proof.
  revert lo. induction l1 as [|x l1 IH]; intros lo H1 H2; cbn [app between] in *.
  - destruct l2 as [|y l2]; cbn [between] in *; [lra|]. destruct H2; split; [lra|auto].
  - destruct H1; split; auto.
Qed.
Lemma between_weaken lo lo' hi hi' l : lo' <= lo -> hi <= hi' -> between lo hi l -> between lo' hi' l.
Proof.
  revert lo lo'. induction l as [|x l IH]; intros lo lo' H1 H2 H; cbn [between] in *; [lra|].
  destruct H; split; [lra|]. apply (IH x x); auto. lra.
Qed.
Lemma inQ_app x l1 l2 : inQ x (l1 ++ l2) <-> inQ x l1 \/ inQ x l2.
Proof. apply Exists_app. Qed.
Lemma inQ_cons x y l : inQ x (y :: l) <-> y == x \/ inQ x l.
Proof. unfold inQ. rewrite Exists_cons. tauto. Qed.
Lemma inQ_nil x : inQ x [] <-> False.
Proof. unfold inQ. apply Exists_nil. Qed.

Lemma insert_sorted_in x y l : inQ y (insert_sorted x l) <-> x == y \/ inQ y l.
Proof.
  induction l as [|z l IH]; cbn [insert_sorted]; [rewrite inQ_cons; tauto|].
  qd; [rewrite !inQ_cons, IH|rewrite !inQ_cons]; tauto.
Qed.
Lemma insert_sorted_between x lo hi l : lo <= x -> x <= hi -> between lo hi l -> between lo hi (insert_sorted x l).
Proof.
  revert lo. induction l as [|y l IH]; intros lo H1 H2 H; cbn [insert_sorted between] in *; [auto|].
  destruct H as [Hy H]. qd; qb; cbn [between]; [split; auto; apply IH; auto; lra|]. auto.
Qed.
Lemma insert_sorted_length x l : length (insert_sorted x l) = S (length l).
Proof. induction l as [|y l IH]; cbn [insert_sorted length]; [auto|]. qd; cbn [length]; auto. Qed.
Lemma sort_between lo hi l : lo <= hi -> Forall (fun x => lo <= x /\ x <= hi) l -> between lo hi (sort_q l).
Proof.
  intros H. induction l as [|x l IH]; intros F; cbn [sort_q fold_right]; [auto|]. inversion F as [|? ? Hx Hl]; subst.
  apply insert_sorted_between; [apply Hx|apply Hx|apply IH; auto].
Qed.
Lemma sort_in x l : inQ x (sort_q l) <-> inQ x l.
Proof. induction l as [|y l IH]; cbn [sort_q fold_right]; [tauto|]. rewrite insert_sorted_in, inQ_cons. unfold sort_q in IH. rewrite IH. tauto. Qed.
Lemma lower_insert_is x l : lower_insert x l = insert_sorted x l.
Proof. induction l as [|y l IH]; cbn [lower_insert insert_sorted]; [auto|]. rewrite IH. reflexivity. Qed.

(** ** The tiling invariant *)
Definition wf (p : partition) : Prop := between (p_inf p) (p_sup p) (p_pts p).

Lemma partition_new_wf base pts : ri_inf base <= ri_sup base -> wf (partition_new base pts).
Proof.
  intros H. unfold wf, partition_new, p_inf, p_sup. cbn [p_base p_pts]. apply sort_between; auto.
  apply Forall_forall. intros x Hx. apply filter_In in Hx. destruct Hx as [_ Hx].
  apply andb_prop in Hx. destruct Hx as [Hx _]. apply andb_prop in Hx. destruct Hx as [Hx _].
  apply contains_point_spec in Hx. unfold in_set in Hx. destruct (ri_t base); lra.
Qed.
Lemma partition_new_in base pts x : inQ x (p_pts (partition_new base pts)) <-> inQ x pts /\ ri_inf base < x /\ x < ri_sup base.
Proof.
  unfold partition_new. cbn [p_pts]. rewrite sort_in. induction pts as [|y l IH]; cbn [filter].
  - rewrite !inQ_nil. tauto.
  - destruct (contains_point base y && negb (qeq y (ri_inf base)) && negb (qeq y (ri_sup base))) eqn:E.
    + rewrite !inQ_cons, IH. apply andb_prop in E. destruct E as [E E3]. apply andb_prop in E. destruct E as [E1 E2].
      apply negb_true_iff in E2. apply negb_true_iff in E3. apply contains_point_spec in E1. unfold in_set in E1. qb.
      assert (B : ri_inf base < y /\ y < ri_sup base) by (destruct (ri_t base); lra). split; [|tauto].
      intros [K|K]; [|tauto]. split; [auto|lra].
    + rewrite inQ_cons, IH. split; [tauto|]. intros ([H|H] & B1 & B2); [|tauto]. exfalso.
      assert (C : contains_point base y = true) by (apply contains_point_spec; unfold in_set; destruct (ri_t base); lra).
      rewrite C in E. cbn [andb] in E. apply andb_false_iff in E. destruct E as [E|E]; apply negb_false_iff in E; qb; lra.
Qed.
Lemma insert_intermediate_wf p x p' : wf p -> insert_intermediate p x = Ok p' ->
  wf p' /\ p_base p' = p_base p /\ p_size p' = S (p_size p) /\ (forall y, inQ y (p_pts p') <-> x == y \/ inQ y (p_pts p)).
Proof.
  unfold insert_intermediate. intros H E. destruct (contains_point (p_base p) x) eqn:C; [|discriminate]. injection E as <-.
  apply contains_point_spec in C. rewrite lower_insert_is. unfold wf, p_inf, p_sup, p_size in *. cbn [p_base p_pts].
  split; [|split; [auto|split; [rewrite insert_sorted_length; auto|intros y; apply insert_sorted_in]]].
  apply insert_sorted_between; auto; unfold in_set in C; destruct (ri_t (p_base p)); lra.
Qed.
Lemma insert_intermediate_outside p x : insert_intermediate p x = Throw <-> ~ in_set (p_base p) x.
Proof.
  unfold insert_intermediate. rewrite <- contains_point_spec. destruct (contains_point (p_base p) x); split; intros H; try congruence.
Qed.
Lemma refine_wf_loop prev pts sup : between prev sup pts -> between prev sup (refine_loop prev pts sup).
Proof.
  assert (M : forall a b, a <= b -> a <= (b + a) / 2 <= b). { intros a b L. assert ((b + a) / 2 == a * (1#2) + b * (1#2)) by field. lra. }
  revert prev. induction pts as [|x l IH]; intros prev H; cbn [refine_loop between] in *.
  - apply M; auto.
  - destruct H as [H1 H2]. destruct (M _ _ H1). repeat split; auto.
Qed.
Lemma refine_wf p : wf p -> wf (refine_midpoints p).
Proof. apply refine_wf_loop. Qed.
Lemma refine_loop_length prev pts sup : length (refine_loop prev pts sup) = (2 * length pts + 1)%nat.
Proof. revert prev. induction pts as [|x l IH]; intros; cbn [refine_loop length]; [auto|]. rewrite IH. lia. Qed.
Lemma refine_size p : p_size (refine_midpoints p) = (2 * p_size p)%nat.
Proof. unfold p_size, refine_midpoints. cbn [p_pts]. rewrite refine_loop_length. lia. Qed.

(** ** Pieces *)
(** The ends of the pieces: inf, the points, sup. *)
Definition ends (p : partition) : list Q := p_inf p :: p_pts p ++ [p_sup p].
Lemma between_nth lo hi l i a b : between lo hi l -> nth_error (lo :: l ++ [hi]) i = Some a -> nth_error (lo :: l ++ [hi]) (S i) = Some b -> a <= b.
Proof.
  revert lo i. induction l as [|x l IH]; intros lo i H Ha Hb.
  - cbn [app] in *. destruct i as [|[|i]]; cbn in *; try congruence; destruct i; discriminate.
  - cbn [between] in H. destruct H as [H1 H2]. destruct i as [|i].
    + cbn in Ha, Hb. congruence.
    + change (nth_error (x :: l ++ [hi]) i = Some a) in Ha. change (nth_error (x :: l ++ [hi]) (S i) = Some b) in Hb. eauto.
Qed.
(** operator[] returns consecutive ends, for every index below size, and throws beyond. *)
Theorem piece_spec p i : wf p ->
  ((p_size p <= i)%nat -> piece p i = Throw) /\
  ((i < p_size p)%nat -> exists a b, nth_error (ends p) i = Some a /\ nth_error (ends p) (S i) = Some b /\ a <= b /\
     piece p i = Ok (mkRI a b (p_type p))).
Proof.
  intros H. unfold p_size. split; intros Hi.
  - unfold piece. replace (length (p_pts p) <? i)%nat with true by (symmetry; apply Nat.ltb_lt; lia). reflexivity.
  - set (n := length (p_pts p)) in *.
    assert (La : (i < length (ends p))%nat) by (unfold ends; cbn [length]; rewrite app_length; cbn [length]; lia).
    assert (Lb : (S i < length (ends p))%nat) by (unfold ends; cbn [length]; rewrite app_length; cbn [length]; lia).
    destruct (nth_error (ends p) i) as [a|] eqn:Ea; [|apply nth_error_None in Ea; lia].
    destruct (nth_error (ends p) (S i)) as [b|] eqn:Eb; [|apply nth_error_None in Eb; lia].
    assert (Hab : a <= b) by exact (between_nth _ _ _ _ _ _ H Ea Eb).
    exists a, b. split; [auto|split; [auto|split; [auto|]]].
    assert (Mk : forall x y, x = a -> y = b -> ri_make x y (p_type p) = mkRI a b (p_type p)) by (intros x y -> ->; apply ri_make_ordered; auto).
    unfold piece. fold n. replace (n <? i)%nat with false by (symmetry; apply Nat.ltb_ge; lia).
    unfold ends in Ea, Eb. change (nth_error (p_inf p :: p_pts p ++ [p_sup p]) (S i)) with (nth_error (p_pts p ++ [p_sup p]) i) in Eb.
    destruct (Nat.eqb n 0) eqn:E0.
    + apply Nat.eqb_eq in E0. assert (i = 0)%nat as -> by lia. cbn in Ea. injection Ea as <-.
      unfold n in E0. destruct (p_pts p); [|discriminate]. cbn in Eb. injection Eb as <-.
      unfold p_inf, p_sup, p_type. destruct (p_base p); reflexivity.
    + apply Nat.eqb_neq in E0. unfold vec_get. destruct (Nat.eqb i 0) eqn:E1.
      * apply Nat.eqb_eq in E1. subst i. cbn in Ea. injection Ea as <-. rewrite nth_error_app1 in Eb by lia. rewrite Eb. cbn [bind]. f_equal. apply Mk; auto.
      * apply Nat.eqb_neq in E1. destruct i as [|i]; [lia|].
        change (nth_error (p_pts p ++ [p_sup p]) i = Some a) in Ea. rewrite nth_error_app1 in Ea by (unfold n in *; lia).
        destruct (Nat.eqb (S i) n) eqn:E2.
        -- apply Nat.eqb_eq in E2. rewrite nth_error_app2 in Eb by (unfold n in *; lia).
           replace (S i - length (p_pts p))%nat with O in Eb by (unfold n in *; lia). cbn in Eb. injection Eb as <-.
           replace (n - 1)%nat with i by lia. rewrite Ea. cbn [bind]. f_equal. apply Mk; auto.
        -- apply Nat.eqb_neq in E2. rewrite nth_error_app1 in Eb by (unfold n in *; lia).
           replace (S i - 1)%nat with i by lia. rewrite Ea, Eb. cbn [bind]. f_equal. apply Mk; auto.
Qed.
Lemma ends_first p : nth_error (ends p) 0 = Some (p_inf p). Proof. reflexivity. Qed.
Lemma ends_last p : nth_error (ends p) (p_size p) = Some (p_sup p).
Proof. unfold ends, p_size. cbn. rewrite nth_error_app2 by lia. rewrite Nat.sub_diag. reflexivity. Qed.

(** Pieces of the refinement are the halves of the old pieces. *)
Lemma refine_ends prev pts sup i a b :
  nth_error (prev :: pts ++ [sup]) i = Some a -> nth_error (prev :: pts ++ [sup]) (S i) = Some b ->
  nth_error (prev :: refine_loop prev pts sup ++ [sup]) (2 * i) = Some a /\
  nth_error (prev :: refine_loop prev pts sup ++ [sup]) (2 * i + 1) = Some ((b + a) / 2) /\
  nth_error (prev :: refine_loop prev pts sup ++ [sup]) (2 * i + 2) = Some b.
Proof.
  revert prev i. induction pts as [|x l IH]; intros prev i Ha Hb.
  - destruct i as [|[|i]]; cbn in *; [|discriminate|destruct i; discriminate]. injection Ha as <-. injection Hb as <-. auto.
  - destruct i as [|i].
    + cbn in Ha, Hb. injection Ha as <-. injection Hb as <-. cbn. auto.
    + change (nth_error (x :: l ++ [sup]) i = Some a) in Ha. change (nth_error (x :: l ++ [sup]) (S i) = Some b) in Hb.
      destruct (IH x i Ha Hb) as (H1 & H2 & H3). replace (2 * S i)%nat with (S (S (2 * i))) by lia.
      cbn [refine_loop app]. split; [exact H1|split; [exact H2|exact H3]].
Qed.
Theorem refine_pieces p i a b : nth_error (ends p) i = Some a -> nth_error (ends p) (S i) = Some b ->
  nth_error (ends (refine_midpoints p)) (2 * i) = Some a /\
  nth_error (ends (refine_midpoints p)) (2 * i + 1) = Some ((b + a) / 2) /\
  nth_error (ends (refine_midpoints p)) (2 * i + 2) = Some b.
Proof. apply refine_ends. Qed.

(** ** Mesh *)
Lemma mesh_loop_spec prev pts sup diff m : mesh_loop prev pts sup diff = Some m ->
  (match diff with Some d => m <= d | None => True end) /\
  (forall i a b, nth_error (prev :: pts ++ [sup]) i = Some a -> nth_error (prev :: pts ++ [sup]) (S i) = Some b -> m <= Qabs (b - a)) /\
  (diff = Some m \/ exists i a b, nth_error (prev :: pts ++ [sup]) i = Some a /\ nth_error (prev :: pts ++ [sup]) (S i) = Some b /\ m = Qabs (b - a)).
Proof.
  revert prev diff. induction pts as [|x l IH]; intros prev diff E.
  - cbn [mesh_loop] in E. assert (X : (match diff with Some d => m <= d | None => True end) /\ m <= Qabs (sup - prev) /\ (diff = Some m \/ m = Qabs (sup - prev))).
    { unfold mesh_step in E. destruct diff as [d|]; [destruct (qlt (Qabs (sup - prev)) d) eqn:Q1|]; qb; injection E as <-; repeat split; auto; first [apply Qle_refl|apply Qlt_le_weak; assumption|assumption]. }
    destruct X as (X1 & X2 & X3). split; [auto|split].
    + intros i a b Ha Hb. destruct i as [|[|i]]; cbn in *; [|discriminate|destruct i; discriminate]. injection Ha as <-. injection Hb as <-. auto.
    + destruct X3 as [X3|X3]; [auto|right]. exists O, prev, sup. auto.
  - cbn [mesh_loop] in E. apply IH in E. destruct E as (E1 & E2 & E3).
    assert (X : (match diff with Some d => m <= d | None => True end) /\ m <= Qabs (x - prev)).
    { unfold mesh_step in E1. destruct diff as [d|]; [destruct (qlt (Qabs (x - prev)) d) eqn:Q1|]; qb; split; auto; lra. }
    destruct X as [X1 X2]. split; [auto|split].
    + intros i a b Ha Hb. destruct i as [|i]; [cbn in Ha, Hb; injection Ha as <-; injection Hb as <-; auto|].
      change (nth_error (x :: l ++ [sup]) i = Some a) in Ha. change (nth_error (x :: l ++ [sup]) (S i) = Some b) in Hb. eauto.
    + destruct E3 as [E3|(i & a & b & Ha & Hb & Hm)].
      * unfold mesh_step in E3. destruct diff as [d|]; [destruct (qlt (Qabs (x - prev)) d)|]; auto; right; exists O, prev, x; injection E3 as <-; auto.
      * right. exists (S i), a, b. auto.
Qed.
Lemma mesh_some prev pts sup diff : exists m, mesh_loop prev pts sup diff = Some m.
Proof.
  revert prev diff. induction pts as [|x l IH]; intros; cbn [mesh_loop]; [|apply IH]. unfold mesh_step. destruct diff; [destruct (qlt _ _)|]; eauto.
Qed.
Theorem mesh_spec p : wf p -> exists m, mesh p = Some m /\
  (forall i a b, nth_error (ends p) i = Some a -> nth_error (ends p) (S i) = Some b -> m <= b - a) /\
  (exists i a b, nth_error (ends p) i = Some a /\ nth_error (ends p) (S i) = Some b /\ m == b - a).
Proof.
  intros H. destruct (mesh_some (p_inf p) (p_pts p) (p_sup p) None) as (m & E). exists m. split; [exact E|].
  apply mesh_loop_spec in E. destruct E as (_ & E2 & E3).
  assert (A : forall i a b, nth_error (ends p) i = Some a -> nth_error (ends p) (S i) = Some b -> Qabs (b - a) == b - a).
  { intros i a b Ha Hb. apply Qabs_pos. assert (K := between_nth _ _ _ _ _ _ H Ha Hb). lra. }
  split.
  - intros i a b Ha Hb. rewrite <- (A i a b Ha Hb). eapply E2; eauto.
  - destruct E3 as [E3|(i & a & b & Ha & Hb & Hm)]; [discriminate|]. exists i, a, b. split; [exact Ha|split; [exact Hb|]]. rewrite Hm. apply (A i a b); auto.
Qed.
