(** Lookups in a constructed basis. *)
From Coq Require Import ZifyBool Sorted.
From Verif Require Import Outcome Alg Words Mem Mobius HallModel HallSpec HallTab HallCount HallDim HallProofs HallTrees.
Local Open Scope Z_scope.

Lemma hall_word_less_iff p q : hall_word_less p q = true <-> lex p q.
Proof. unfold hall_word_less, lex. lia. Qed.
Lemma hall_word_equal_iff p q : hall_word_equal p q = true <-> p = q.
Proof. destruct p, q. unfold hall_word_equal. cbn [fst snd]. split; [intros; f_equal; lia|intros [= -> ->]; lia]. Qed.
Lemma lex_irrefl p : ~ lex p p.
Proof. unfold lex. lia. Qed.
Lemma lex_trans p q r : lex p q -> lex q r -> lex p r.
Proof. unfold lex. lia. Qed.
Lemma lex_total p q : lex p q \/ p = q \/ lex q p.
Proof. destruct p as [a b], q as [c d]. unfold lex. cbn [fst snd].
  destruct (Z.lt_trichotomy a c) as [|[->|]]; auto. destruct (Z.lt_trichotomy b d) as [|[->|]]; auto. Qed.

Section Lookup.
  Variables (B : lie_basis) (w N M : Z).
  Hypothesis HB : basis_ok B w N M.
  Notation db := (bat (lb_db B)).
  Definition row (k : Z) : Z * Z := (bat (lb_data B) (2 * k), bat (lb_data B) (2 * k + 1)).
  Notation H := (bo_hall _ _ _ _ HB).

  Lemma row_ok k : 0 <= k <= M -> get_basis_word B k = Ok (row k).
  Proof.
    intros Hk. unfold get_basis_word. assert (E := bo_data _ _ _ _ HB). rewrite !bget_ok by lia. reflexivity.
  Qed.
  Lemma row_ub k : M < k -> get_basis_word B k = UB.
  Proof. intros Hk. unfold get_basis_word. assert (E := bo_data _ _ _ _ HB). rewrite bget_ub by lia. reflexivity. Qed.
  Lemma M_nonneg : 0 <= w <= M.
  Proof.
    assert (X := db_mono _ _ _ _ _ _ H 2 (N + 1) ltac:(lia)). assert (HN := hd_N _ _ _ _ _ _ H). assert (Hw := hd_w _ _ _ _ _ _ H).
    rewrite (hd_2 _ _ _ _ _ _ H), (hd_top _ _ _ _ _ _ H) in X. lia.
  Qed.
  Lemma true_size_ok : lb_true_size B = Ok (M + 1).
  Proof.
    unfold lb_true_size. rewrite (bo_N _ _ _ _ HB). assert (E := bo_db _ _ _ _ HB). assert (HN := hd_N _ _ _ _ _ _ H).
    rewrite bget_ok by lia. rewrite (hd_top _ _ _ _ _ _ H). reflexivity.
  Qed.
  Lemma size_ok : lb_size B = Ok M.
  Proof. unfold lb_size. rewrite true_size_ok. cbn [bind]. f_equal. lia. Qed.
  Lemma parents_ok k : get_parents B k = if (k <=? 0) || (k >=? M + 1) then Throw else Ok (row k).
  Proof.
    unfold get_parents. rewrite true_size_ok. cbn [bind]. destruct ((k <=? 0) || (k >=? M + 1)) eqn:E; auto. apply row_ok. lia.
  Qed.

  (** ** degree *)
  Lemma degree_loop_ok fuel : forall key pos diff, 0 <= pos -> 0 <= diff -> pos + diff <= N + 1 -> (Z.to_nat diff < fuel)%nat ->
    (forall i, 0 <= i < pos -> db i <= key) -> (forall i, pos + diff <= i <= N -> key < db i) ->
    exists p, degree_loop fuel (lb_db B) key pos diff = Ok p /\ 0 <= p <= N + 1 /\
      (forall i, 0 <= i < p -> db i <= key) /\ (forall i, p <= i <= N -> key < db i).
  Proof.
    assert (Hdb := bo_db _ _ _ _ HB).
    induction fuel as [|fuel IH]; intros key pos diff H1 H2 H3 Hf Hlo Hhi; [lia|]. cbn [degree_loop].
    destruct (diff >? 0) eqn:E.
    - set (half := Z.quot diff 2). assert (Hh : half = diff / 2) by (apply Z.quot_div_nonneg; lia).
      assert (Hh2 : 0 <= half < diff) by (rewrite Hh; split; [apply Z.div_pos; lia|apply Z.div_lt; lia]).
      rewrite bget_ok by lia. cbn [bind]. destruct (db (pos + half) <=? key) eqn:Ec.
      + apply IH; try lia.
        * intros i Hi. assert (X := db_mono _ _ _ _ _ _ H i (pos + half) ltac:(lia) ltac:(lia) ltac:(lia)). lia.
        * intros i Hi. apply Hhi. lia.
      + apply IH; try lia; auto.
        intros i Hi. assert (X := db_mono _ _ _ _ _ _ H (pos + half) i ltac:(lia) ltac:(lia) ltac:(lia)). lia.
    - exists pos. split; [reflexivity|]. split; [lia|]. split; auto. intros i Hi. apply Hhi. lia.
  Qed.
  Lemma degree_ok d k : 0 <= d <= N -> db d <= k < db (d + 1) -> lb_degree B k = Ok d.
  Proof.
    intros Hd Hk. unfold lb_degree. rewrite (bo_N _ _ _ _ HB). assert (HN := hd_N _ _ _ _ _ _ H).
    destruct (degree_loop_ok (S (Z.to_nat (N + 1))) k 0 (N + 1)) as (p & -> & P1 & P2 & P3); try lia.
    cbn [bind]. f_equal. destruct (Z.lt_trichotomy (p - 1) d) as [X|[X|X]]; auto.
    - assert (Y := P3 d ltac:(lia)). lia.
    - assert (Y := P2 (d + 1) ltac:(lia)). lia.
  Qed.

  (** ** find_word *)
  Lemma block_sorted d k k' : 1 <= d <= N -> db d <= k -> k < k' -> k' < db (d + 1) -> lex (row k) (row k').
  Proof.
    intros Hd H1 H2 H3. destruct (Z.eq_dec d 1) as [->|].
    - assert (K1 : 1 <= k <= w) by (apply (level_letter _ _ _ _ _ _ H); lia).
      assert (K2 : 1 <= k' <= w) by (apply (level_letter _ _ _ _ _ _ H); lia).
      assert (A1 := hd_let _ _ _ _ _ _ H k K1). assert (A2 := hd_let _ _ _ _ _ _ H k' K2). cbn beta in *. unfold lex, row. cbn [fst snd]. lia.
    - apply (hd_sorted _ _ _ _ _ _ H d k k'); auto. lia.
  Qed.
  Lemma find_loop_ok d t fuel : 1 <= d <= N -> forall pos diff, db d <= pos -> 0 <= diff -> pos + diff <= db (d + 1) -> (Z.to_nat diff < fuel)%nat ->
    (forall k, db d <= k < pos -> lex (row k) t) -> (forall k, pos + diff <= k < db (d + 1) -> lex t (row k)) ->
    (exists k, find_loop fuel B t pos diff = Ok (inl k) /\ db d <= k < db (d + 1) /\ row k = t) \/
    (exists p, find_loop fuel B t pos diff = Ok (inr p) /\ db d <= p <= db (d + 1) /\
       (forall k, db d <= k < p -> lex (row k) t) /\ (forall k, p <= k < db (d + 1) -> lex t (row k))).
  Proof.
    intros Hd. induction fuel as [|fuel IH]; intros pos diff H1 H2 H3 Hf Hlo Hhi; [lia|]. cbn [find_loop].
    destruct (diff >? 0) eqn:E.
    - set (half := Z.quot diff 2). assert (Hh : half = diff / 2) by (apply Z.quot_div_nonneg; lia).
      assert (Hh2 : 0 <= half < diff) by (rewrite Hh; split; [apply Z.div_pos; lia|apply Z.div_lt; lia]).
      assert (Hp := level_pos _ _ _ _ _ _ H d (pos + half) Hd ltac:(lia)).
      rewrite row_ok by lia. cbn [bind]. destruct (hall_word_equal (row (pos + half)) t) eqn:Ee.
      + apply hall_word_equal_iff in Ee. left. exists (pos + half). split; [reflexivity|]. split; [lia|auto].
      + assert (Hne : row (pos + half) <> t) by (intros X; apply hall_word_equal_iff in X; congruence).
        destruct (hall_word_less (row (pos + half)) t) eqn:El.
        * apply hall_word_less_iff in El. apply IH; try lia.
          -- intros k Hk. destruct (Z.eq_dec k (pos + half)) as [->|]; auto.
             apply (lex_trans _ (row (pos + half))); auto. apply (block_sorted d); lia.
          -- intros k Hk. apply Hhi. lia.
        * assert (Hgt : lex t (row (pos + half))).
          { destruct (lex_total t (row (pos + half))) as [|[|X]]; auto; [congruence|]. apply hall_word_less_iff in X. congruence. }
          apply IH; try lia; auto. intros k Hk. destruct (Z.eq_dec k (pos + half)) as [->|]; auto.
          apply (lex_trans _ (row (pos + half))); auto. apply (block_sorted d); lia.
    - right. exists pos. split; [reflexivity|]. split; [lia|]. split; auto. intros k Hk. apply Hhi. lia.
  Qed.

  Lemma find_word_hint_ok d t : 1 <= d <= N ->
    (exists k, find_word B t d = Ok k /\ db d <= k < db (d + 1) /\ row k = t) \/
    (find_word B t d = Ok (-1) /\ (forall k, db d <= k < db (d + 1) -> row k <> t) /\
       (db (d + 1) <= M \/ exists k, db d <= k < db (d + 1) /\ lex t (row k))) \/
    (find_word B t d = UB /\ (forall k, db d <= k < db (d + 1) -> lex (row k) t) /\ db (d + 1) = M + 1).
  Proof.
    intros Hd. assert (Hdb := bo_db _ _ _ _ HB). unfold find_word. replace (d =? -1) with false by lia. cbn [bind].
    rewrite (bo_N _ _ _ _ HB). replace (d >? N) with false by lia. rewrite !bget_ok by lia. cbn [bind].
    assert (Hm := hd_mono _ _ _ _ _ _ H d ltac:(lia)). cbn beta in Hm.
    destruct (find_loop_ok d t (S (Z.to_nat (db (d + 1) - db d))) Hd (db d) (db (d + 1) - db d)) as [(k & -> & K1 & K2)|(p & -> & P1 & P2 & P3)]; try lia.
    - left. exists k. auto.
    - right. cbn [bind]. assert (Htop := db_mono _ _ _ _ _ _ H (d + 1) (N + 1) ltac:(lia) ltac:(lia) ltac:(lia)). rewrite (hd_top _ _ _ _ _ _ H) in Htop.
      assert (Hlow := db_mono _ _ _ _ _ _ H 1 d ltac:(lia) ltac:(lia) ltac:(lia)). rewrite (hd_1 _ _ _ _ _ _ H) in Hlow.
      destruct (Z_le_gt_dec p M) as [Hp|Hp].
      + left. rewrite row_ok by lia. cbn [bind].
        assert (E : (p <? db (d + 1)) && hall_word_equal (row p) t = false).
        { destruct (p <? db (d + 1)) eqn:Ep; auto. cbn [andb]. destruct (hall_word_equal (row p) t) eqn:Ee; auto.
          apply hall_word_equal_iff in Ee. assert (X := P3 p ltac:(lia)). rewrite Ee in X. exfalso. apply (lex_irrefl _ X). }
        rewrite E. split; [reflexivity|]. split.
        * intros k Hk Et. destruct (Z_lt_ge_dec k p).
          -- apply (lex_irrefl t). rewrite <- Et at 1. apply P2. lia.
          -- apply (lex_irrefl t). rewrite <- Et at 2. apply P3. lia.
        * destruct (Z_le_gt_dec (db (d + 1)) M); [left; auto|right]. exists p. split; [lia|]. apply P3. lia.
      + right. rewrite row_ub by lia. cbn [bind]. split; [reflexivity|]. split; [|lia]. intros k Hk. apply P2. lia.
  Qed.
  Lemma find_word_nohint a b da db0 : lb_degree B a = Ok da -> lb_degree B b = Ok db0 -> 0 <= da -> 0 <= db0 ->
    find_word B (a, b) (-1) = find_word B (a, b) (da + db0).
  Proof.
    intros Ha Hb H1 H2. unfold find_word. rewrite Z.eqb_refl. replace (da + db0 =? -1) with false by lia. cbn [fst snd].
    rewrite Ha, Hb. reflexivity.
  Qed.
  Lemma find_word_deep t d : N < d -> find_word B t d = Ok (-1).
  Proof.
    intros Hd. assert (HN := hd_N _ _ _ _ _ _ H). unfold find_word. replace (d =? -1) with false by lia. cbn [bind]. rewrite (bo_N _ _ _ _ HB).
    replace (d >? N) with true by lia. reflexivity.
  Qed.
End Lookup.
