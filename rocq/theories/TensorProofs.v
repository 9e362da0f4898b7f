(** Proofs about the tensor kernels: addressing, and the multiply-add kernel. *)
From Verif Require Export TensorModel Series.
Arguments Z.mul : simpl never. Arguments Z.pow : simpl never. Arguments Z.add : simpl never. Arguments Z.sub : simpl never.
Arguments Z.of_nat : simpl never. Arguments Z.to_nat : simpl never.

(** ** degree_begin *)
Section Db.
  Variable w : Z.
  Hypothesis Hw : 0 < w.
  Lemma db_from_length w' p n : length (db_from w' p n) = n.
  Proof. revert p; induction n; intros; cbn; auto. Qed.
  Lemma db_from_nth n : forall m i, (i < n)%nat -> nth i (db_from w (words_below w m) n) 0 = words_below w (S m + i).
  Proof.
    induction n as [|n IH]; intros m i Hi; [lia|]. cbn [db_from].
    assert (E : 1 + words_below w m * w = words_below w (S m)) by (symmetry; apply words_below_rec; auto).
    rewrite E. destruct i as [|i]; cbn [nth].
    - f_equal. lia.
    - rewrite IH by lia. f_equal. lia.
  Qed.
  Lemma db_length d : 0 <= d + 2 -> Z.of_nat (length (construct_tensor_db w d)) = Z.max 1 (d + 2).
  Proof. intros H. unfold construct_tensor_db. cbn [length]. rewrite db_from_length. lia. Qed.
  Lemma db_nth d i : (i <= Z.to_nat (d + 1))%nat -> nth i (construct_tensor_db w d) 0 = words_below w i.
  Proof.
    intros H. unfold construct_tensor_db. destruct i as [|i]; [reflexivity|]. cbn [nth].
    change 0 with (words_below w 0) at 1. rewrite db_from_nth by lia. reflexivity.
  Qed.
  Lemma dbget_ok D d : 0 <= D -> 0 <= d <= D + 1 -> dbget (tensor_basis w D) d = Ok (words_below w (Z.to_nat d)).
  Proof.
    intros HD Hd. unfold dbget, tensor_basis. cbn [b_db].
    assert (L := db_length D).
    destruct (0 <=? d) eqn:E1; [|apply Z.leb_gt in E1; lia].
    destruct (d <? Z.of_nat (length (construct_tensor_db w D))) eqn:E2; [|apply Z.ltb_ge in E2; lia].
    cbn [andb]. rewrite db_nth by lia. reflexivity.
  Qed.
  Lemma dbget_ub D d : 0 <= D -> ~ (0 <= d <= D + 1) -> dbget (tensor_basis w D) d = UB.
  Proof.
    intros HD Hd. unfold dbget, tensor_basis. cbn [b_db].
    assert (L := db_length D).
    destruct (0 <=? d) eqn:E1; [|reflexivity]. apply Z.leb_le in E1.
    destruct (d <? Z.of_nat (length (construct_tensor_db w D))) eqn:E2; [|reflexivity]. apply Z.ltb_lt in E2. lia.
  Qed.
End Db.

(** ** Views *)
(** An iterator that addresses consecutive cells from [off]. *)
Definition contig (it : iter) (off : Z) : Prop :=
  (forall n, it_addr it n = off + n) /\ (forall a n, it_addr (it_add it a) n = off + a + n).
Lemma contig_ptr off : contig (Ptr off) off.
Proof. split; intros; reflexivity. Qed.
Lemma contig_stride1 off : contig (Strided off 1) off.
Proof. split; intros; cbn; lia. Qed.

(** View over words of width [w]; degrees vmin..vmax within the basis depth [D]. *)
Record vwf (w : Z) (v : view) (off : Z) : Prop := {
  vw_basis : exists D, v_basis v = tensor_basis w D /\ v_max v <= D;
  vw_it : contig (v_it v) off;
  vw_off : 0 <= off;
  vw_min : 0 <= v_min v;
  vw_max : 0 <= v_max v }.
(** All levels up to the maximum degree lie inside the array. *)
Definition fits {R} (w : Z) (v : view) (off : Z) (b : buf R) : Prop :=
  off + words_below w (Z.to_nat (v_max v + 1)) <= blen b.
Definition in_rng (v : view) (n : Z) : bool := (v_min v <=? n) && (n <=? v_max v).
(** The tensor a view denotes: coefficient of a word, zero outside the degree range. *)
Definition den {R : cring} (w : Z) (v : view) (off : Z) (b : buf R) : tens R Z :=
  fun u => if in_rng v (Z.of_nat (length u)) then bat b (off + pos w u) else r0.

Lemma in_rng_true v n : in_rng v n = true <-> v_min v <= n <= v_max v.
Proof. unfold in_rng. rewrite andb_true_iff, Z.leb_le, Z.leb_le. tauto. Qed.
Lemma in_rng_false v n : in_rng v n = false <-> ~ (v_min v <= n <= v_max v).
Proof. rewrite <- in_rng_true. destruct (in_rng v n); split; congruence. Qed.

Section Views.
  Variable w : Z.
  Hypothesis Hw : 0 < w.
  Lemma wb_diff n : words_below w (S n) - words_below w n = w ^ Z.of_nat n.
  Proof. cbn [words_below]. lia. Qed.
  Lemma at_level_ok v off d : vwf w v off -> 0 <= d <= v_max v ->
    at_level v d = Ok (it_add (v_it v) (words_below w (Z.to_nat d)), w ^ d).
  Proof.
    intros [(D & HB & HD) Hit Ho Hmn Hmx] Hd. unfold at_level. rewrite HB.
    rewrite !dbget_ok by lia. cbn [bind].
    replace (Z.to_nat (d + 1)) with (S (Z.to_nat d)) by lia. rewrite wb_diff, Z2Nat.id by lia. reflexivity.
  Qed.
  Lemma level_in {R} v off (b : buf R) d i : vwf w v off -> fits w v off b -> 0 <= d <= v_max v -> 0 <= i < w ^ d ->
    0 <= off + words_below w (Z.to_nat d) + i < blen b.
  Proof.
    intros Hv Hf Hd Hi. unfold fits in Hf. assert (B := words_below_lt w Hw (Z.to_nat d) (Z.to_nat (v_max v + 1))).
    rewrite Z2Nat.id in B by lia. assert (0 <= words_below w (Z.to_nat d)) by (apply words_below_nonneg; auto).
    assert (0 <= off) by apply Hv. lia.
  Qed.
  Lemma pos_in {R} v off (b : buf R) u : vwf w v off -> fits w v off b -> letters_ok w u -> Z.of_nat (length u) <= v_max v ->
    0 <= off + pos w u < blen b.
  Proof.
    intros Hv Hf Hu Hl. unfold pos. rewrite Z.add_assoc.
    assert (H := level_in v off b (Z.of_nat (length u)) (idx w u) Hv Hf). rewrite Nat2Z.id in H.
    apply H; [lia|]. apply idx_bound; auto.
  Qed.
End Views.

Section Sums.
  Variable R : cring.
  Add Ring Rring : (rth R).
  Local Open Scope cr_scope.

  Lemma sum_zseq_nat (a n : nat) (f : Z -> R) : sum (zseq (Z.of_nat a) n) f = sum (seq a n) (fun k => f (Z.of_nat k)).
  Proof.
    revert a. induction n as [|n IH]; intros a; cbn [zseq seq sum]; [reflexivity|].
    replace (Z.of_nat a + 1)%Z with (Z.of_nat (S a)) by lia. rewrite IH. reflexivity.
  Qed.
  (** A descending loop over a range of degrees, as a guarded sum over all cuts. *)
  Lemma sum_zdown_cuts (hi lo : Z) (n : nat) (f : Z -> R) : (0 <= lo)%Z -> (hi <= Z.of_nat n)%Z ->
    sum (zdown hi lo) f = sum (seq O (S n)) (fun k => if ((lo <=? Z.of_nat k) && (Z.of_nat k <=? hi))%Z then f (Z.of_nat k) else 0).
  Proof.
    intros Hlo Hhi. unfold zdown. rewrite sum_rev.
    destruct (Z_le_gt_dec lo hi) as [H|H].
    - set (a := Z.to_nat lo). set (m := Z.to_nat (hi - lo + 1)).
      replace lo with (Z.of_nat a) at 1 by (unfold a; lia). rewrite sum_zseq_nat.
      replace (S n) with (a + (m + (S n - a - m)))%nat by (unfold a, m; lia).
      rewrite seq_app, sum_app, seq_app, sum_app.
      rewrite (sum_zero R (seq O a)), (sum_zero R (seq (O + a + m) _)).
      + cbn [Nat.add]. rewrite (sum_ext R (seq a m) (fun k => if ((lo <=? Z.of_nat k) && (Z.of_nat k <=? hi))%Z then f (Z.of_nat k) else 0) (fun k => f (Z.of_nat k))); [ring|].
        intros x Hx. apply in_seq in Hx.
        replace (lo <=? Z.of_nat x)%Z with true by (symmetry; apply Z.leb_le; unfold a, m in *; lia).
        replace (Z.of_nat x <=? hi)%Z with true by (symmetry; apply Z.leb_le; unfold a, m in *; lia). reflexivity.
      + intros x Hx. apply in_seq in Hx.
        replace (Z.of_nat x <=? hi)%Z with false by (symmetry; apply Z.leb_gt; unfold a, m in *; lia). rewrite andb_false_r. reflexivity.
      + intros x Hx. apply in_seq in Hx.
        replace (lo <=? Z.of_nat x)%Z with false by (symmetry; apply Z.leb_gt; unfold a, m in *; lia). reflexivity.
    - replace (Z.to_nat (hi - lo + 1)) with O by lia. cbn [zseq sum]. symmetry. apply sum_zero.
      intros x _. destruct (lo <=? Z.of_nat x)%Z eqn:E1; [|reflexivity].
      destruct (Z.of_nat x <=? hi)%Z eqn:E2; [|reflexivity]. apply Z.leb_le in E1, E2. lia.
  Qed.

  Variable w : Z.
  Hypothesis Hw : (0 < w)%Z.
  (** The double loop over a block of products hits the word [u] once. *)
  Lemma ij_collapse (c : Z) (a : nat) (u : list Z) (F : Z -> Z -> R) : letters_ok w u -> (a <= length u)%nat ->
    sum (zrange (w ^ Z.of_nat a)) (fun i => sum (zrange (w ^ Z.of_nat (length u - a))) (fun j =>
       at_ (c + (i * w ^ Z.of_nat (length u - a) + j))%Z (c + idx w u)%Z (F i j)))
    = F (idx w (firstn a u)) (idx w (skipn a u)).
  Proof.
    intros Hu Ha.
    assert (B1 := idx_bound w Hw (firstn a u) (letters_ok_firstn w u a Hu)).
    assert (B2 := idx_bound w Hw (skipn a u) (letters_ok_skipn w u a Hu)).
    rewrite firstn_length_le in B1 by auto. rewrite skipn_length in B2.
    assert (E := idx_cut w Hw u a Hu Ha).
    assert (P := pow_pos w Hw (length u - a)).
    rewrite (sum_single R (zrange (w ^ Z.of_nat a)) _ (idx w (firstn a u))).
    - rewrite (sum_single R (zrange (w ^ Z.of_nat (length u - a))) _ (idx w (skipn a u))).
      + rewrite <- E. apply at_same.
      + apply zrange_NoDup.
      + apply zrange_In; auto.
      + intros j Hj Hne. apply at_diff. lia.
    - apply zrange_NoDup.
    - apply zrange_In; auto.
    - intros i Hi Hne. apply sum_zero. intros j Hj. apply at_diff. apply zrange_In in Hi, Hj. intros E'.
      apply Hne. assert (w ^ Z.of_nat (length u - a) * idx w (firstn a u) + idx w (skipn a u) = w ^ Z.of_nat (length u - a) * i + j)%Z by lia.
      apply (Z.div_mod_unique (w ^ Z.of_nat (length u - a))) in H; lia.
  Qed.
  (** Nothing outside the block is hit. *)
  Lemma ij_miss (c k : Z) (a b : nat) (F : Z -> Z -> R) : ~ (c <= k < c + w ^ Z.of_nat (a + b))%Z ->
    sum (zrange (w ^ Z.of_nat a)) (fun i => sum (zrange (w ^ Z.of_nat b)) (fun j =>
       at_ (c + (i * w ^ Z.of_nat b + j))%Z k (F i j))) = 0.
  Proof.
    intros H. apply sum_zero. intros i Hi. apply sum_zero. intros j Hj. apply at_diff. apply zrange_In in Hi, Hj.
    rewrite pow_plus in H by auto. nia.
  Qed.
End Sums.

(** Guarded sum over all cuts of a word: the contribution of a product of two views. *)
Definition pconv {R : cring} (op : R -> R) (lhs rhs : view) (l r : list Z -> R) (u : list Z) : R :=
  sum (seq O (S (length u))) (fun k =>
    if in_rng lhs (Z.of_nat k) && in_rng rhs (Z.of_nat (length u - k)) then op (l (firstn k u) * r (skipn k u))%cr else r0).

Section Fma.
  Variable R : cring.
  Add Ring Rring2 : (rth R).
  Notation buf := (buf R).
  Local Open Scope cr_scope.
  Variable w : Z.
  Hypothesis Hw : (0 < w)%Z.

  Lemma pconv_id lhs rhs lo ro (lb rb : buf) u :
    pconv (fun x => x) lhs rhs (fun v => bat lb (lo + pos w v)%Z) (fun v => bat rb (ro + pos w v)%Z) u
    = conv (den w lhs lo lb) (den w rhs ro rb) u.
  Proof.
    unfold pconv, conv. apply sum_ext. intros k Hk. apply in_seq in Hk. unfold den.
    rewrite firstn_length_le, skipn_length by lia.
    destruct (in_rng lhs (Z.of_nat k)); destruct (in_rng rhs (Z.of_nat (length u - k))); cbn [andb]; ring.
  Qed.
  Lemma pconv_op (op : R -> R) lhs rhs (l r : list Z -> R) u : op 0 = 0 -> (forall x y, op (x + y) = op x + op y) ->
    pconv op lhs rhs l r u = op (pconv (fun x => x) lhs rhs l r u).
  Proof.
    intros H0 Ha. unfold pconv. generalize (seq O (S (length u))) as s. induction s as [|k s IH]; cbn [sum]; [auto|].
    rewrite Ha, IH. f_equal. destruct (in_rng lhs (Z.of_nat k) && in_rng rhs (Z.of_nat (length u - k))); auto.
  Qed.

  (** One block: level [a] of lhs times level [b] of rhs into level a+b of out. *)
  Lemma block_ok (F : Z -> Prop) (op : R -> R) (lfr rfr ofr : iter * Z) (ob : buf) (rb : buf) (getl : buf -> Z -> outcome R) a b (co cr : Z) (lv : Z -> R) :
    snd lfr = (w ^ Z.of_nat a)%Z -> snd rfr = (w ^ Z.of_nat b)%Z ->
    (forall n, it_addr (fst ofr) n = co + n)%Z -> (forall n, it_addr (fst rfr) n = cr + n)%Z ->
    (0 <= co)%Z -> (co + w ^ Z.of_nat (a + b) <= blen ob)%Z ->
    (0 <= cr)%Z -> (cr + w ^ Z.of_nat b <= blen rb)%Z ->
    (forall k, F k -> ~ (co <= k < co + w ^ Z.of_nat (a + b)))%Z ->
    (forall t i, blen t = blen ob -> (forall k, F k -> bat t k = bat ob k) -> (0 <= i < w ^ Z.of_nat a)%Z -> getl t i = Ok (lv i)) ->
    exists ob', for_ (zrange (snd lfr)) ob (fun i t => for_ (zrange (snd rfr)) t (fun j t =>
        let! x := getl t i in let! y := fget rb rfr j in fadd t ofr (i * snd rfr + j)%Z (op (x * y)))) = Ok ob' /\
      adds ob ob' (fun k => sum (zrange (w ^ Z.of_nat a)) (fun i => sum (zrange (w ^ Z.of_nat b)) (fun j =>
          at_ (co + (i * w ^ Z.of_nat b + j))%Z k (op (lv i * bat rb (cr + j)%Z))))).
  Proof.
    intros Hl Hr Ho Hra Hco Hob Hcr Hrb HF Hget. rewrite Hl, Hr.
    assert (HFz : forall i j k, (0 <= i < w ^ Z.of_nat a)%Z -> (0 <= j < w ^ Z.of_nat b)%Z -> F k ->
       k <> (co + (i * w ^ Z.of_nat b + j))%Z).
    { intros i j k Hi Hj Hk E. apply (HF k Hk). rewrite pow_plus by auto. nia. }
    apply (for_adds R F).
    - intros i t Hi Hlen Hfr. apply zrange_In in Hi.
      apply (for_adds R F).
      + intros j t' Hj Hlen' Hfr'. apply zrange_In in Hj.
        rewrite Hget; [|congruence| |auto].
        2:{ intros k Hk. rewrite Hfr', Hfr by auto. reflexivity. }
        cbn [bind]. unfold fget at 1. rewrite Hra, bget_ok by lia. cbn [bind].
        unfold fadd, fget, fset. rewrite Ho.
        apply (badd_ok R t' (co + (i * w ^ Z.of_nat b + j))%Z).
        rewrite pow_plus in Hob by auto. nia.
      + intros j k Hj Hk. apply zrange_In in Hj. apply at_diff. apply HFz; auto.
    - intros i k Hi Hk. apply zrange_In in Hi. apply sum_zero. intros j Hj. apply zrange_In in Hj. apply at_diff. apply HFz; auto.
  Qed.

  Definition lcoef (off : Z) (b : buf) : list Z -> R := fun v => bat b (off + pos w v)%Z.

  (** Sum over the blocks feeding one output level. *)
  Definition level_contrib (op : R -> R) (lv rv : Z -> R) (c : Z) (hi lo n : Z) (k : Z) : R :=
    sum (zdown hi lo) (fun a =>
      sum (zrange (w ^ Z.of_nat (Z.to_nat a))) (fun i => sum (zrange (w ^ Z.of_nat (Z.to_nat (n - a)))) (fun j =>
        at_ (c + (i * w ^ Z.of_nat (Z.to_nat (n - a)) + j))%Z k
          (op (lv (words_below w (Z.to_nat a) + i)%Z * rv (words_below w (Z.to_nat (n - a)) + j)%Z))))).
  Lemma level_contrib_miss op lv rv c hi lo n k : (0 <= lo)%Z -> (hi <= n)%Z -> ~ (c <= k < c + w ^ n)%Z ->
    level_contrib op lv rv c hi lo n k = 0.
  Proof.
    intros Hlo Hhi Hk. unfold level_contrib. apply sum_zero. intros a Ha. apply zdown_In in Ha. apply (ij_miss R w Hw).
    replace (Z.of_nat (Z.to_nat a + Z.to_nat (n - a))) with n by lia. auto.
  Qed.
  Lemma level_contrib_hit op lv rv c hi lo u : (0 <= lo)%Z -> (hi <= Z.of_nat (length u))%Z -> letters_ok w u ->
    level_contrib op lv rv c hi lo (Z.of_nat (length u)) (c + idx w u)%Z
    = sum (seq O (S (length u))) (fun k => if ((lo <=? Z.of_nat k) && (Z.of_nat k <=? hi))%Z
         then op (lv (pos w (firstn k u)) * rv (pos w (skipn k u))) else 0).
  Proof.
    intros Hlo Hhi Hu. unfold level_contrib. rewrite (sum_zdown_cuts R hi lo (length u)) by auto.
    apply sum_ext. intros k Hk. apply in_seq in Hk.
    destruct ((lo <=? Z.of_nat k) && (Z.of_nat k <=? hi))%Z; [|reflexivity].
    rewrite Nat2Z.id. replace (Z.to_nat (Z.of_nat (length u) - Z.of_nat k)) with (length u - k)%nat by lia.
    rewrite (ij_collapse R w Hw c k u (fun i j => op (lv (words_below w k + i)%Z * rv (words_below w (length u - k) + j)%Z))) by (auto; lia).
    unfold pos. rewrite firstn_length_le, skipn_length by lia. reflexivity.
  Qed.

  Lemma rng_cut lhs rhs n k (Hk : (k <= n)%nat) :
    ((Z.max (v_min lhs) (Z.of_nat n - v_max rhs) <=? Z.of_nat k) && (Z.of_nat k <=? Z.min (v_max lhs) (Z.of_nat n - v_min rhs)))%Z
    = in_rng lhs (Z.of_nat k) && in_rng rhs (Z.of_nat (n - k)).
  Proof.
    apply eq_true_iff_eq. rewrite !andb_true_iff, !in_rng_true, !Z.leb_le. lia.
  Qed.

  Theorem ft_fma_ok out lhs rhs oo lo ro (ob lb rb : buf) (op : R -> R) :
    vwf w out oo -> vwf w lhs lo -> vwf w rhs ro -> fits w out oo ob -> fits w lhs lo lb -> fits w rhs ro rb ->
    exists ob', ft_fma out lhs rhs ob lb rb op = Ok ob' /\ blen ob' = blen ob /\
      (forall u, letters_ok w u -> in_rng out (Z.of_nat (length u)) = true ->
         bat ob' (oo + pos w u)%Z = bat ob (oo + pos w u)%Z + pconv op lhs rhs (lcoef lo lb) (lcoef ro rb) u) /\
      (forall k, (forall u, letters_ok w u -> in_rng out (Z.of_nat (length u)) = true -> k <> (oo + pos w u)%Z) ->
         bat ob' k = bat ob k).
  Proof.
    intros Ho Hl Hr Fo Fl Fr. unfold ft_fma.
    set (lv := fun p => bat lb (lo + p)%Z). set (rv := fun p => bat rb (ro + p)%Z).
    set (hi := fun n => Z.min (v_max lhs) (n - v_min rhs)). set (low := fun n => Z.max (v_min lhs) (n - v_max rhs)).
    assert (Hlow : forall n, (0 <= low n)%Z) by (intros; unfold low; destruct Hl; lia).
    assert (Hhi : forall n, (hi n <= n)%Z) by (intros; unfold hi; destruct Hr; lia).
    assert (Pw : forall n, (0 < w ^ Z.of_nat n)%Z) by (apply pow_pos; auto).
    match goal with |- context [for_ ?l ob ?f] => destruct (for_adds R (fun _ => False) l ob f
      (fun n k => level_contrib op lv rv (oo + words_below w (Z.to_nat n))%Z (hi n) (low n) n k)) as (b1 & E1 & L1 & A1) end.
    - intros n t Hn Hlen _. apply zdown_In in Hn.
      rewrite (at_level_ok w Hw out oo) by (auto; lia). cbn [bind].
      apply (for_adds R (fun _ => False)).
      + intros a t' Ha Hlen' _. apply zdown_In in Ha. fold (hi n) (low n) in Ha.
        assert (0 <= a)%Z by (specialize (Hlow n); lia). assert (a <= n)%Z by (specialize (Hhi n); lia).
        assert (a <= v_max lhs)%Z by (unfold hi in Ha; lia). assert (n - a <= v_max rhs)%Z by (unfold low in Ha; lia).
        rewrite (at_level_ok w Hw lhs lo) by (auto; lia). cbn [bind].
        rewrite (at_level_ok w Hw rhs ro) by (auto; lia). cbn [bind].
        destruct (block_ok (fun _ => False) op (it_add (v_it lhs) (words_below w (Z.to_nat a)), (w ^ a)%Z)
           (it_add (v_it rhs) (words_below w (Z.to_nat (n - a))), (w ^ (n - a))%Z)
           (it_add (v_it out) (words_below w (Z.to_nat n)), (w ^ n)%Z) t' rb
           (fun _ i => fget lb (it_add (v_it lhs) (words_below w (Z.to_nat a)), (w ^ a)%Z) i)
           (Z.to_nat a) (Z.to_nat (n - a)) (oo + words_below w (Z.to_nat n))%Z (ro + words_below w (Z.to_nat (n - a)))%Z
           (fun i => lv (words_below w (Z.to_nat a) + i)%Z)) as (t2 & E2 & A2).
        * cbn [snd]. f_equal. lia.
        * cbn [snd]. f_equal. lia.
        * intros m. cbn [fst]. destruct Ho as [_ [_ Hit] _ _ _]. apply Hit.
        * intros m. cbn [fst]. destruct Hr as [_ [_ Hit] _ _ _]. apply Hit.
        * assert (X := words_below_nonneg w Hw (Z.to_nat n)). destruct Ho; lia.
        * replace (Z.of_nat (Z.to_nat a + Z.to_nat (n - a))) with n by lia.
          assert (X := level_in w Hw out oo ob n (w ^ n - 1) Ho Fo). rewrite Hlen', Hlen.
          assert (Y := Pw (Z.to_nat n)). rewrite Z2Nat.id in Y by lia. lia.
        * assert (X := words_below_nonneg w Hw (Z.to_nat (n - a))). destruct Hr; lia.
        * rewrite Z2Nat.id by lia.
          assert (X := level_in w Hw rhs ro rb (n - a) (w ^ (n - a) - 1) Hr Fr).
          assert (Y := Pw (Z.to_nat (n - a))). rewrite Z2Nat.id in Y by lia. lia.
        * intros k [].
        * intros t3 i Hl3 _ Hi. rewrite Z2Nat.id in Hi by lia. unfold fget. cbn [fst].
          destruct (vw_it _ _ _ Hl) as [_ HI2]. rewrite HI2. rewrite bget_ok.
          2:{ apply (level_in w Hw lhs lo lb a i); auto. }
          unfold lv. do 2 f_equal. lia.
        * exists t2. split; [exact E2|]. eapply adds_ext; [exact A2|]. intros k. cbn beta. unfold rv.
          apply sum_ext. intros i _. apply sum_ext. intros j _. do 4 f_equal. lia.
      + intros ? ? ? [].
    - intros ? ? ? [].
    - rewrite E1. cbn [bind].
      (* value added at a word, and nowhere else *)
      assert (HitL : forall u, letters_ok w u -> in_rng out (Z.of_nat (length u)) = true -> (1 <= length u)%nat ->
         sum (zdown (v_max out) (Z.max 1 (v_min out))) (fun n => level_contrib op lv rv (oo + words_below w (Z.to_nat n))%Z (hi n) (low n) n (oo + pos w u)%Z)
         = pconv op lhs rhs (lcoef lo lb) (lcoef ro rb) u).
      { intros u Hu Hin H1. apply in_rng_true in Hin.
        rewrite (sum_single R (zdown (v_max out) (Z.max 1 (v_min out))) _ (Z.of_nat (length u))).
        - rewrite Nat2Z.id. unfold pos. rewrite Z.add_assoc, level_contrib_hit by auto.
          unfold pconv. apply sum_ext. intros k Hk. apply in_seq in Hk. unfold hi, low. rewrite rng_cut by lia. reflexivity.
        - apply zdown_NoDup.
        - apply zdown_In. lia.
        - intros n Hn Hne. apply zdown_In in Hn. apply level_contrib_miss; auto.
          intros Hk. unfold pos in Hk. assert (B := idx_bound w Hw u Hu).
          destruct (level_unique w Hw (Z.to_nat n) (length u) (words_below w (length u) + idx w u - words_below w (Z.to_nat n)) (idx w u)); [rewrite Z2Nat.id; lia|lia|lia|].
          lia. }
      assert (MissL : forall k, (forall u, letters_ok w u -> in_rng out (Z.of_nat (length u)) = true -> (1 <= length u)%nat -> k <> (oo + pos w u)%Z) ->
         sum (zdown (v_max out) (Z.max 1 (v_min out))) (fun n => level_contrib op lv rv (oo + words_below w (Z.to_nat n))%Z (hi n) (low n) n k) = 0).
      { intros k Hk. apply sum_zero. intros n Hn. apply zdown_In in Hn. apply level_contrib_miss; auto. intros Hkn.
        set (u := unidx w (Z.to_nat n) (k - (oo + words_below w (Z.to_nat n)))).
        assert (Hi : (0 <= k - (oo + words_below w (Z.to_nat n)) < w ^ Z.of_nat (Z.to_nat n))%Z) by (rewrite Z2Nat.id; lia).
        apply (Hk u).
        - apply unidx_ok; auto.
        - unfold u. rewrite unidx_length. apply in_rng_true. lia.
        - unfold u. rewrite unidx_length. lia.
        - unfold pos, u. rewrite unidx_length, idx_unidx by auto. lia. }
      assert (P0 : pos w [] = 0%Z) by reflexivity.
      assert (Pne : forall u, letters_ok w u -> (1 <= length u)%nat -> pos w u <> 0%Z).
      { intros u Hu Hl1 E. rewrite <- P0 in E. apply (pos_inj w Hw) in E; auto; [subst; cbn in Hl1; lia|constructor]. }
      assert (Zero : in_rng out 0 = true -> pconv op lhs rhs (lcoef lo lb) (lcoef ro rb) [] =
         if ((v_min lhs =? 0) && (v_min rhs =? 0))%Z then op (lcoef lo lb [] * lcoef ro rb []) else 0).
      { intros _. unfold pconv. cbn [length seq sum firstn skipn Nat.sub]. unfold in_rng. change (Z.of_nat 0) with 0%Z.
        destruct Hl as [_ _ _ Hl1 Hl2], Hr as [_ _ _ Hr1 Hr2].
        replace (0 <=? v_max lhs)%Z with true by (symmetry; apply Z.leb_le; lia).
        replace (0 <=? v_max rhs)%Z with true by (symmetry; apply Z.leb_le; lia). rewrite !andb_true_r.
        replace (v_min lhs <=? 0)%Z with (v_min lhs =? 0)%Z by (apply eq_true_iff_eq; rewrite Z.leb_le, Z.eqb_eq; lia).
        replace (v_min rhs <=? 0)%Z with (v_min rhs =? 0)%Z by (apply eq_true_iff_eq; rewrite Z.leb_le, Z.eqb_eq; lia).
        destruct ((v_min lhs =? 0) && (v_min rhs =? 0))%Z; ring. }
      destruct ((v_min out =? 0) && (v_min lhs =? 0) && (v_min rhs =? 0))%Z eqn:Emin.
      + rewrite !andb_true_iff in Emin. destruct Emin as [[Em1 Em2] Em3]. rewrite Em2, Em3 in Zero. apply Z.eqb_eq in Em1, Em2, Em3.
        unfold vget at 1. destruct (vw_it _ _ _ Hl) as [Il _]. rewrite Il.
        assert (Bl := pos_in w Hw lhs lo lb [] Hl Fl ltac:(constructor) ltac:(cbn; destruct Hl; lia)). rewrite P0 in Bl.
        rewrite bget_ok by auto. cbn [bind].
        unfold vget at 1. destruct (vw_it _ _ _ Hr) as [Ir _]. rewrite Ir.
        assert (Br := pos_in w Hw rhs ro rb [] Hr Fr ltac:(constructor) ltac:(cbn; destruct Hr; lia)). rewrite P0 in Br.
        rewrite bget_ok by auto. cbn [bind].
        assert (Bo := pos_in w Hw out oo ob [] Ho Fo ltac:(constructor) ltac:(cbn; destruct Ho; lia)). rewrite P0 in Bo.
        unfold vadd, vget, vset. destruct (vw_it _ _ _ Ho) as [Io _]. rewrite Io.
        destruct (badd_ok R b1 (oo + 0)%Z (op (bat lb (lo + 0)%Z * bat rb (ro + 0)%Z))) as (b2 & E2 & L2 & A2); [lia|].
        exists b2. split; [exact E2|]. split; [congruence|]. split.
        * intros u Hu Hin. rewrite A2, A1. destruct u as [|x u].
          -- rewrite P0, at_same. rewrite MissL.
             ++ rewrite Zero by auto. unfold lcoef. rewrite P0. cbn [andb]. ring.
             ++ intros v Hv Hvin Hv1 E. apply (Pne v); auto. lia.
          -- rewrite HitL by (auto; cbn; lia). rewrite at_diff; [ring|].
             assert (X := Pne (x :: u) Hu ltac:(cbn; lia)). lia.
        * intros k Hk. rewrite A2, A1, MissL by (intros; apply Hk; auto). rewrite at_diff; [ring|].
          intros E. apply (Hk []); [constructor|apply in_rng_true; cbn; destruct Ho; lia|rewrite P0; auto].
      + exists b1. split; [reflexivity|]. split; [auto|]. split.
        * intros u Hu Hin. rewrite A1. destruct u as [|x u].
          -- rewrite MissL.
             ++ rewrite Zero by auto. apply in_rng_true in Hin. cbn [length] in Hin. change (Z.of_nat 0) with 0%Z in Hin.
                replace (v_min out =? 0)%Z with true in Emin by (symmetry; apply Z.eqb_eq; destruct Ho; lia).
                cbn [andb] in Emin. rewrite Emin. ring.
             ++ intros v Hv Hvin Hv1 E. rewrite P0 in E. apply (Pne v); auto. lia.
          -- rewrite HitL by (auto; cbn; lia). reflexivity.
        * intros k Hk. rewrite A1, MissL by (intros; apply Hk; auto). ring.
  Qed.
End Fma.
