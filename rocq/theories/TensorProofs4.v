(** Proofs about the vector kernels, fused multiply-exponential and the antipode. *)
From Verif Require Export TensorProofs3.

Lemma for_zseq_shift {S} a n (s : S) f : for_ (zseq a n) s f = for_ (zseq 0 n) s (fun i => f (a + i)).
Proof.
  assert (G : forall n b (s : S), for_ (zseq (a + b) n) s f = for_ (zseq b n) s (fun i => f (a + i))).
  { clear. induction n as [|n IH]; intros b s; [reflexivity|]. cbn [zseq for_]. destruct (f (a + b) s); cbn [bind]; auto.
    rewrite <- IH. do 2 f_equal. lia. }
  rewrite <- (Z.add_0_r a) at 1. apply G.
Qed.

Section Vec.
  Variable R : cring.
  Add Ring Rring6 : (rth R).
  Notation buf := (buf R).
  Local Open Scope cr_scope.
  Variable w : Z.
  Hypothesis Hw : (0 < w)%Z.

  (** Number of coordinates of a view. *)
  Definition vsize (v : view) : Z := (words_below w (Z.to_nat (v_max v + 1)) - words_below w (Z.to_nat (v_min v)))%Z.
  Lemma v_size_ok v off : vwf w v off -> (v_min v <= v_max v + 1)%Z -> v_size v = Ok (vsize v).
  Proof.
    intros [(D & HB & HD) Hit Ho Hmn Hmx] H. unfold v_size. rewrite HB.
    rewrite dbget_ok by lia. cbn [bind]. rewrite dbget_ok by lia. reflexivity.
  Qed.
  Lemma vsize_le v off (b : buf) : vwf w v off -> fits w v off b -> (off + vsize v <= blen b)%Z.
  Proof. intros Hv Hf. unfold fits, vsize in *. assert (X := words_below_nonneg w Hw (Z.to_nat (v_min v))). lia. Qed.
  Lemma vsize_min0 v : v_min v = 0%Z -> vsize v = words_below w (Z.to_nat (v_max v + 1)).
  Proof. intros E. unfold vsize. rewrite E. cbn [words_below Z.to_nat]. change (words_below w (Z.to_nat 0)) with 0%Z. lia. Qed.

  (** Map over consecutive cells of the target, starting at cell [a]. *)
  Lemma for_map_from (b : buf) (off a : Z) (n : nat) (F : Z -> R -> R) f :
    (0 <= off)%Z -> (0 <= a)%Z -> (n <> O -> off + a + Z.of_nat n <= blen b)%Z ->
    (forall i t, (a <= i < a + Z.of_nat n)%Z -> blen t = blen b -> f i t = let! x := bget t (off + i)%Z in bset t (off + i)%Z (F i x)) ->
    exists b', for_ (zseq a n) b f = Ok b' /\ blen b' = blen b /\
      forall k, bat b' k = if ((off + a <=? k) && (k <? off + a + Z.of_nat n))%Z then F (k - off)%Z (bat b k) else bat b k.
  Proof.
    intros Ho Ha Hn Hf. rewrite for_zseq_shift. destruct (Nat.eq_dec n 0) as [->|Hn0].
    - exists b. split; [reflexivity|]. split; [reflexivity|]. intros k.
      replace ((off + a <=? k) && (k <? off + a + Z.of_nat 0))%Z with false; [reflexivity|].
      symmetry. apply andb_false_iff. destruct (Z_le_gt_dec (off + a) k); [right; apply Z.ltb_ge; lia|left; apply Z.leb_gt; lia].
    - destruct (for_map R b (off + a) n (fun i x => F (a + i)%Z x) (fun i => f (a + i)%Z)) as (b' & E & L & K); [lia|lia| |].
      + intros i t Hi Lt. rewrite Hf by (auto; lia). rewrite Z.add_assoc. reflexivity.
      + exists b'. split; [auto|]. split; [auto|]. intros k. rewrite K.
        destruct ((off + a <=? k) && (k <? off + a + Z.of_nat n))%Z; [|reflexivity]. f_equal. lia.
  Qed.

  Definition okv (v : view) (off : Z) (b : buf) : Prop := vwf w v off /\ (v_min v <= v_max v + 1)%Z /\ fits w v off b.
  Lemma okv_get v off (b : buf) i : okv v off b -> (0 <= i < vsize v)%Z -> vget b v i = Ok (bat b (off + i)%Z).
  Proof.
    intros (Hv & _ & Hf) Hi. unfold vget. destruct (vw_it _ _ _ Hv) as [I _]. rewrite I. apply bget_ok.
    assert (X := vsize_le v off b Hv Hf). destruct Hv. lia.
  Qed.

  Theorem vector_inplace_addition_ok lhs rhs lo ro (b rb : buf) op : okv lhs lo b -> okv rhs ro rb ->
    exists b', vector_inplace_addition lhs rhs b rb op = Ok b' /\ blen b' = blen b /\
      forall k, bat b' k = if ((lo <=? k) && (k <? lo + Z.min (vsize lhs) (vsize rhs)))%Z then bat b k + op (bat rb (ro + (k - lo))%Z) else bat b k.
  Proof.
    intros Hl Hr. unfold vector_inplace_addition.
    rewrite (v_size_ok lhs lo) by apply Hl. cbn [bind]. rewrite (v_size_ok rhs ro) by apply Hr. cbn [bind].
    assert (X := vsize_le lhs lo b (proj1 Hl) (proj2 (proj2 Hl))). assert (0 <= lo)%Z by apply Hl.
    destruct (Z_le_gt_dec 0 (Z.min (vsize lhs) (vsize rhs))) as [Hc|Hc].
    - unfold zrange.
      destruct (for_map_from b lo 0 (Z.to_nat (Z.min (vsize lhs) (vsize rhs))) (fun i x => x + op (bat rb (ro + i)%Z))
        (fun i b => let! y := vget rb rhs i in vadd b lhs i (op y))) as (b' & E & L & K); [lia|lia|lia| |].
      + intros i t Hi Lt. rewrite (okv_get rhs ro) by (auto; lia). cbn [bind]. unfold vadd, vget, vset.
        destruct (vw_it _ _ _ (proj1 Hl)) as [I _]. rewrite I. reflexivity.
      + exists b'. split; [auto|]. split; [auto|]. intros k. rewrite K, Z2Nat.id, Z.add_0_r by lia. reflexivity.
    - unfold zrange. replace (Z.to_nat (Z.min (vsize lhs) (vsize rhs))) with O by lia. exists b. split; [reflexivity|]. split; [reflexivity|].
      intros k. replace ((lo <=? k) && (k <? lo + Z.min (vsize lhs) (vsize rhs)))%Z with false; [reflexivity|].
      symmetry. apply andb_false_iff. destruct (Z_le_gt_dec lo k); [right; apply Z.ltb_ge; lia|left; apply Z.leb_gt; lia].
  Qed.
  Lemma vsize_nonneg v off : vwf w v off -> (v_min v <= v_max v + 1)%Z -> (0 <= vsize v)%Z.
  Proof. intros Hv H. unfold vsize. assert (X := words_below_mono w Hw (Z.to_nat (v_min v)) (Z.to_nat (v_max v + 1))). lia. Qed.

  Theorem vector_scalar_multiply_ok out inp oo io (ob ib : buf) c : okv out oo ob -> okv inp io ib ->
    exists b', vector_scalar_multiply out inp ob ib c = Ok b' /\ blen b' = blen ob /\
      forall k, bat b' k = if ((oo <=? k) && (k <? oo + Z.min (vsize out) (vsize inp)))%Z then bat ib (io + (k - oo))%Z * c else bat ob k.
  Proof.
    intros Hl Hr. unfold vector_scalar_multiply.
    rewrite (v_size_ok out oo) by apply Hl. cbn [bind]. rewrite (v_size_ok inp io) by apply Hr. cbn [bind].
    assert (X := vsize_le out oo ob (proj1 Hl) (proj2 (proj2 Hl))). assert (0 <= oo)%Z by apply Hl.
    assert (Y1 := vsize_nonneg out oo (proj1 Hl) (proj1 (proj2 Hl))). assert (Y2 := vsize_nonneg inp io (proj1 Hr) (proj1 (proj2 Hr))).
    unfold zrange.
    destruct (for_map_from ob oo 0 (Z.to_nat (Z.min (vsize out) (vsize inp))) (fun i _ => bat ib (io + i)%Z * c)
        (fun i b => let! x := vget ib inp i in vset b out i (x * c))) as (b' & E & L & K); [lia|lia|lia| |].
    - intros i t Hi Lt. rewrite (okv_get inp io) by (auto; lia). cbn [bind]. unfold vset.
      destruct (vw_it _ _ _ (proj1 Hl)) as [I _]. rewrite I. rewrite bget_ok by lia. reflexivity.
    - exists b'. split; [auto|]. split; [auto|]. intros k. rewrite K, Z2Nat.id, Z.add_0_r by lia. reflexivity.
  Qed.

  Theorem vector_inplace_scalar_multiply_ok arg ao (b : buf) c : okv arg ao b ->
    exists b', vector_inplace_scalar_multiply arg b c = Ok b' /\ blen b' = blen b /\
      forall k, bat b' k = if ((ao <=? k) && (k <? ao + vsize arg))%Z then bat b k * c else bat b k.
  Proof.
    intros Hl. unfold vector_inplace_scalar_multiply.
    rewrite (v_size_ok arg ao) by apply Hl. cbn [bind].
    assert (X := vsize_le arg ao b (proj1 Hl) (proj2 (proj2 Hl))). assert (0 <= ao)%Z by apply Hl.
    assert (Y1 := vsize_nonneg arg ao (proj1 Hl) (proj1 (proj2 Hl))).
    unfold zrange.
    destruct (for_map_from b ao 0 (Z.to_nat (vsize arg)) (fun i x => x * c)
        (fun i b => let! x := vget b arg i in vset b arg i (x * c))) as (b' & E & L & K); [lia|lia|lia| |].
    - intros i t Hi Lt. unfold vset, vget. destruct (vw_it _ _ _ (proj1 Hl)) as [I _]. rewrite I. reflexivity.
    - exists b'. split; [auto|]. split; [auto|]. intros k. rewrite K, Z2Nat.id, Z.add_0_r by lia. reflexivity.
  Qed.

  Theorem vector_addition_ok out lhs rhs oo lo ro (ob lb rb : buf) lop rop : okv out oo ob -> okv lhs lo lb -> okv rhs ro rb ->
    exists b', vector_addition out lhs rhs ob lb rb lop rop = Ok b' /\ blen b' = blen ob /\
      forall k, bat b' k = if ((oo <=? k) && (k <? oo + Z.min (vsize out) (Z.max (vsize lhs) (vsize rhs))))%Z then
          (if (k - oo <? vsize lhs)%Z then if (k - oo <? vsize rhs)%Z then lop (bat lb (lo + (k - oo))%Z) + rop (bat rb (ro + (k - oo))%Z)
                                        else lop (bat lb (lo + (k - oo))%Z)
           else rop (bat rb (ro + (k - oo))%Z))
        else bat ob k.
  Proof.
    intros Ho Hl Hr. unfold vector_addition.
    rewrite (v_size_ok out oo) by apply Ho. cbn [bind]. rewrite (v_size_ok lhs lo) by apply Hl. cbn [bind]. rewrite (v_size_ok rhs ro) by apply Hr. cbn [bind].
    assert (X := vsize_le out oo ob (proj1 Ho) (proj2 (proj2 Ho))). assert (0 <= oo)%Z by apply Ho.
    assert (Y0 := vsize_nonneg out oo (proj1 Ho) (proj1 (proj2 Ho))).
    assert (Y1 := vsize_nonneg lhs lo (proj1 Hl) (proj1 (proj2 Hl))). assert (Y2 := vsize_nonneg rhs ro (proj1 Hr) (proj1 (proj2 Hr))).
    set (os := vsize out) in *. set (ls := vsize lhs) in *. set (rs := vsize rhs) in *.
    destruct (vw_it _ _ _ (proj1 Ho)) as [I _].
    destruct (for_map_from ob oo 0 (Z.to_nat (Z.min os (Z.min ls rs))) (fun i _ => lop (bat lb (lo + i)%Z) + rop (bat rb (ro + i)%Z))
        (fun i ob => let! x := vget lb lhs i in let! y := vget rb rhs i in vset ob out i (lop x + rop y))) as (b1 & E1 & L1 & K1); [lia|lia|lia| |].
    { intros i t Hi Lt. rewrite (okv_get lhs lo) by (auto; unfold ls, rs in *; lia). cbn [bind].
      rewrite (okv_get rhs ro) by (auto; unfold ls, rs in *; lia). cbn [bind]. unfold vset. rewrite I, bget_ok by lia. reflexivity. }
    unfold zrange. rewrite E1. cbn [bind].
    destruct (for_map_from b1 oo (Z.min ls rs) (Z.to_nat (Z.min os ls - Z.min ls rs)) (fun i _ => lop (bat lb (lo + i)%Z))
        (fun i ob => let! x := vget lb lhs i in vset ob out i (lop x))) as (b2 & E2 & L2 & K2); [lia|lia|lia| |].
    { intros i t Hi Lt. rewrite (okv_get lhs lo) by (auto; unfold ls, rs in *; lia). cbn [bind]. unfold vset. rewrite I, bget_ok by lia. reflexivity. }
    rewrite E2. cbn [bind].
    destruct (for_map_from b2 oo (Z.min ls rs) (Z.to_nat (Z.min os rs - Z.min ls rs)) (fun i _ => rop (bat rb (ro + i)%Z))
        (fun i ob => let! y := vget rb rhs i in vset ob out i (rop y))) as (b3 & E3 & L3 & K3); [lia|lia|lia| |].
    { intros i t Hi Lt. rewrite (okv_get rhs ro) by (auto; unfold ls, rs in *; lia). cbn [bind]. unfold vset. rewrite I, bget_ok by lia. reflexivity. }
    exists b3. split; [exact E3|]. split; [congruence|]. intros k. rewrite K3, K2, K1.
    clear - Y0 Y1 Y2.
    repeat (match goal with |- context [(?a <=? ?b)%Z] => destruct (Z.leb_spec a b) | |- context [(?a <? ?b)%Z] => destruct (Z.ltb_spec a b) end;
      cbn [andb]; try (exfalso; lia)); reflexivity.
  Qed.
End Vec.
