(** Proofs about the adjoint of the shuffle product. *)
From Verif Require Export TensorProofs7.

Section AdjSpec.
  Variable R : cring.
  Add Ring Rring13 : (rth R).
  Local Open Scope cr_scope.
  Variable w : Z.
  Definition is_word (u v : list Z) : bool := if list_eq_dec Z.eq_dec u v then true else false.
  Lemma is_word_true u v : is_word u v = true <-> u = v.
  Proof. unfold is_word. destruct (list_eq_dec Z.eq_dec u v); split; congruence. Qed.
  (** Adjoint of shuffle multiplication by [o], applied to [a], words of [a] up to length N. *)
  Definition adjs (N : nat) (o a : tens R Z) : tens R Z := fun v =>
    sum (seq O (S N)) (fun n => sum (words w n) (fun u => a u * sum (splits u) (fun p => if is_word (snd p) v then o (fst p) else 0))).

  Lemma splits_ok u p : letters_ok w u -> In p (splits u) -> letters_ok w (fst p) /\ letters_ok w (snd p).
  Proof.
    revert p. induction u as [|x u IH]; intros p Hu Hp; cbn [splits] in Hp.
    - destruct Hp as [<-|[]]. split; constructor.
    - inversion Hu as [|? ? Hx Hu']; subst. apply in_app_or in Hp.
      destruct Hp as [Hp|Hp]; apply in_map_iff in Hp; destruct Hp as (q & <- & Hq); destruct (IH q Hu' Hq); cbn [fst snd]; split; auto; constructor; auto.
  Qed.
  (** Summing over all words up to length N picks the one asked for. *)
  Lemma sum_pick N (z : list Z) (F : list Z -> R) : letters_ok w z -> (length z <= N)%nat ->
    sum (seq O (S N)) (fun m => sum (words w m) (fun v => if is_word z v then F v else 0)) = F z.
  Proof.
    intros Hz Hl. rewrite (sum_single R (seq O (S N)) _ (length z)).
    - rewrite (sum_single R (words w (length z)) _ z).
      + replace (is_word z z) with true by (symmetry; apply is_word_true; auto). reflexivity.
      + apply words_NoDup.
      + apply words_In; auto.
      + intros v _ Hne. destruct (is_word z v) eqn:E; [apply is_word_true in E; congruence|reflexivity].
    - apply seq_NoDup.
    - apply in_seq. lia.
    - intros m _ Hne. apply sum_zero. intros v Hv. apply words_In in Hv. destruct Hv as [_ Hv].
      destruct (is_word z v) eqn:E; [apply is_word_true in E; subst; congruence|reflexivity].
  Qed.

  Theorem adjs_adjoint N o x a : pairing w N (shuf o x) a = pairing w N x (adjs N o a).
  Proof.
    symmetry. unfold pairing, adjs.
    transitivity (sum (seq O (S N)) (fun m => sum (words w m) (fun v => sum (seq O (S N)) (fun n => sum (words w n) (fun u =>
       sum (splits u) (fun p => if is_word (snd p) v then a u * (o (fst p) * x v) else 0)))))).
    - apply sum_ext. intros m _. apply sum_ext. intros v _. rewrite <- sum_mul_l. apply sum_ext. intros n _. rewrite <- sum_mul_l.
      apply sum_ext. intros u _. rewrite <- !sum_mul_l. apply sum_ext. intros p _. destruct (is_word (snd p) v); ring.
    - transitivity (sum (seq O (S N)) (fun n => sum (words w n) (fun u => sum (splits u) (fun p =>
         sum (seq O (S N)) (fun m => sum (words w m) (fun v => if is_word (snd p) v then a u * (o (fst p) * x v) else 0)))))).
      + transitivity (sum (seq O (S N)) (fun n => sum (seq O (S N)) (fun m => sum (words w m) (fun v => sum (words w n) (fun u =>
           sum (splits u) (fun p => if is_word (snd p) v then a u * (o (fst p) * x v) else 0)))))).
        * rewrite sum_swap. apply sum_ext. intros m _. apply sum_swap.
        * apply sum_ext. intros n _.
          transitivity (sum (words w n) (fun u => sum (seq O (S N)) (fun m => sum (words w m) (fun v => sum (splits u) (fun p => if is_word (snd p) v then a u * (o (fst p) * x v) else 0))))).
          -- rewrite sum_swap. apply sum_ext. intros m _. apply sum_swap.
          -- apply sum_ext. intros u _. rewrite sum_swap. apply sum_ext. intros m _. apply sum_swap.
      + apply sum_ext. intros n Hn. apply in_seq in Hn. apply sum_ext. intros u Hu. apply words_In in Hu. destruct Hu as [Hu Hl].
        unfold shuf. rewrite <- sum_mul_r. apply sum_ext. intros p Hp. assert (Hl' := splits_length Z u p Hp).
        destruct (splits_ok u p Hu Hp) as [_ Hs].
        rewrite (sum_pick N (snd p) (fun v => a u * (o (fst p) * x v))) by (auto; lia). ring.
  Qed.
End AdjSpec.
Arguments adjs {R}.

Section StAdj.
  Variable R : cring.
  Add Ring Rring14 : (rth R).
  Notation buf := (buf R).
  Local Open Scope cr_scope.
  Variable w : Z.
  Hypothesis Hw : (0 < w)%Z.
  Hypothesis H16 : (w <= 32768)%Z.

  Theorem st_adj_mul_ok out op arg oo po ao (ob pb ab : buf) :
    vwf w out oo -> vwf w op po -> vwf w arg ao -> fits w out oo ob -> fits w op po pb -> fits w arg ao ab ->
    (v_max arg <= v_max out)%Z -> (v_max arg <= v_max op)%Z -> (v_max arg < 64)%Z ->
    exists ob', st_adj_mul out op arg ob pb ab = Ok ob' /\ blen ob' = blen ob /\
      (forall v, letters_ok w v ->
         bat ob' (oo + pos w v)%Z = bat ob (oo + pos w v)%Z + adjs w (Z.to_nat (v_max arg)) (lcoef R w po pb) (lcoef R w ao ab) v) /\
      (forall k, (forall v, letters_ok w v -> (Z.of_nat (length v) <= v_max arg)%Z -> k <> (oo + pos w v)%Z) -> bat ob' k = bat ob k).
  Proof.
    intros Ho Hp Ha Fo Fp Fa M1 M2 M3. unfold st_adj_mul.
    assert (EW : b_width (v_basis out) = w) by (destruct (vw_basis _ _ _ Ho) as (D & -> & _); reflexivity). rewrite EW.
    set (o := lcoef R w po pb). set (a := lcoef R w ao ab).
    assert (Hma : (0 <= v_max arg)%Z) by apply Ha.
    set (val := fun u k => sum (zrange (2 ^ Z.of_nat (length u))%Z) (fun m => at_ (oo + pos w (snd (msplit m u)))%Z k (a u * o (fst (msplit m u))))).
    match goal with |- context [for_ ?ll ob ?f] => destruct (for_adds R (fun _ => False) ll ob f
      (fun n k => sum (zrange (w ^ n)%Z) (fun i => val (unidx w (Z.to_nat n) i) k))) as (b1 & E1 & L1 & A1) end.
    - intros n t Hn Hlen _. apply zseq_In in Hn.
      rewrite (at_level_ok w Hw arg ao) by (auto; lia). cbn [bind snd].
      apply (for_adds R (fun _ => False)).
      + intros i t1 Hi Hlen1 _. apply zrange_In in Hi. destruct (level_words w Hw n i) as (u & Hu & Hun & ->); [lia|auto|].
        rewrite <- Hun. rewrite unpack16_ok by (auto; apply letters_cap_ge; lia). cbn [bind].
        unfold fget at 1. cbn [fst]. destruct (vw_it _ _ _ Ha) as [_ Ia]. rewrite Ia, Nat2Z.id.
        assert (X := pos_in w Hw arg ao ab u Ha Fa Hu ltac:(lia)). unfold pos in X.
        rewrite bget_ok by lia. cbn [bind]. rewrite mask_all_ok by lia. cbn [bind]. rewrite Z.sub_add.
        rewrite unidx_idx by auto. unfold val.
        apply (for_adds R (fun _ => False)).
        * intros m t2 _ Hlen2 _. destruct (msplit_ok w m u Hu) as [Oa Ob]. assert (Hml' := msplit_length m u).
          rewrite (pack0 w Hw m u (fst (msplit m u)) (snd (msplit m u))) by apply surjective_pairing.
          destruct (lev_get R w Hw op po pb (fst (msplit m u))) as (f1 & Ef1 & G1 & _); auto; [lia|].
          destruct (lev_get R w Hw out oo ob (snd (msplit m u))) as (f2 & Ef2 & _ & G2); auto; [lia|].
          rewrite Ef1. cbn [bind]. rewrite Ef2. cbn [bind]. rewrite G1. cbn [bind]. rewrite G2.
          unfold a, o, lcoef. replace (ao + words_below w (length u) + idx w u)%Z with (ao + pos w u)%Z by (unfold pos; lia).
          apply badd_ok. rewrite Hlen2, Hlen1, Hlen. apply (pos_in w Hw out oo ob); auto. lia.
        * intros ? ? ? [].
      + intros ? ? ? [].
    - intros ? ? ? [].
    - exists b1. split; [exact E1|]. split; [auto|].
      assert (EA : forall k, bat b1 k = bat ob k + sum (seq O (S (Z.to_nat (v_max arg)))) (fun n => sum (words w n) (fun u => val u k))).
      { intros k. rewrite A1. f_equal.
        replace (Z.to_nat (v_max arg + 1)) with (S (Z.to_nat (v_max arg))) by lia. change 0%Z with (Z.of_nat O). rewrite sum_zseq_nat.
        apply sum_ext. intros n _. rewrite (sum_words_idx R w n) by auto. apply sum_ext. intros u Hu. apply words_In in Hu. destruct Hu as [Hu Hl].
        rewrite Nat2Z.id. rewrite <- Hl, unidx_idx by auto. reflexivity. }
      split.
      + intros v Hv. rewrite EA. f_equal. unfold adjs. apply sum_ext. intros n _. apply sum_ext. intros u Hu. apply words_In in Hu. destruct Hu as [Hu Hl].
        rewrite <- sum_mul_l. unfold val.
        transitivity (sum (splits u) (fun p => at_ (oo + pos w (snd p))%Z (oo + pos w v)%Z (a u * o (fst p)))).
        { apply (sum_masks R u (fun p => at_ (oo + pos w (snd p))%Z (oo + pos w v)%Z (a u * o (fst p)))). }
        apply sum_ext. intros p Hp'. destruct (splits_ok w u p Hu Hp') as [_ Hs].
        destruct (is_word (snd p) v) eqn:E.
        * apply is_word_true in E. rewrite E, at_same. reflexivity.
        * rewrite at_diff; [ring|]. intros Ep. assert (Ep' : pos w v = pos w (snd p)) by lia. apply (pos_inj w Hw) in Ep'; auto.
          symmetry in Ep'. apply is_word_true in Ep'. congruence.
      + intros k Hk. rewrite EA. rewrite sum_zero; [ring|]. intros n Hn. apply in_seq in Hn. apply sum_zero. intros u Hu. apply words_In in Hu. destruct Hu as [Hu Hl].
        apply sum_zero. intros m _. apply at_diff. destruct (msplit_ok w m u Hu) as [_ Ob]. assert (Hml' := msplit_length m u). apply Hk; auto. lia.
  Qed.
End StAdj.
