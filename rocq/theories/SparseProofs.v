(** Proofs about the sparse linear map kernel. *)
From Verif Require Export SparseModel TensorProofs6.

Section Sparse.
  Variable R : cring.
  Add Ring Rring15 : (rth R).
  Notation buf := (buf R).
  Local Open Scope cr_scope.

  (** Valid compressed arrays: one more offset than slices, offsets non-decreasing and
      inside the data, inner indices below the inner dimension. *)
  Record cs_valid (m : csmat R) : Prop := {
    csv_n : (0 <= cs_n m)%Z;
    csv_off_len : blen (cs_off m) = (cs_n m + 1)%Z;
    csv_off0 : (0 <= bat (cs_off m) 0)%Z;
    csv_mono : forall d, (0 <= d < cs_n m)%Z -> (bat (cs_off m) d <= bat (cs_off m) (d + 1))%Z;
    csv_data : (bat (cs_off m) (cs_n m) <= blen (cs_data m))%Z;
    csv_idx : (bat (cs_off m) (cs_n m) <= blen (cs_idx m))%Z;
    csv_inner : forall d t, (0 <= d < cs_n m)%Z -> (bat (cs_off m) d <= t < bat (cs_off m) (d + 1))%Z -> (0 <= bat (cs_idx m) t < cs_inner m)%Z }.
  (** Stored positions of a slice, and the matrix entry they represent (slice d, inner index j). *)
  Definition slice (m : csmat R) (d : Z) : list Z := zseq (bat (cs_off m) d) (Z.to_nat (bat (cs_off m) (d + 1) - bat (cs_off m) d)).
  Definition entry (m : csmat R) (d j : Z) : R :=
    sum (slice m d) (fun t => if (bat (cs_idx m) t =? j)%Z then bat (cs_data m) t else 0).

  Lemma off_bounds m : cs_valid m -> forall d, (0 <= d <= cs_n m)%Z -> (0 <= bat (cs_off m) d)%Z /\ (bat (cs_off m) d <= bat (cs_off m) (cs_n m))%Z.
  Proof.
    intros V. assert (A : forall k, (Z.of_nat k <= cs_n m)%Z -> (0 <= bat (cs_off m) (Z.of_nat k))%Z).
    { induction k as [|k IH]; intros Hk; [apply (csv_off0 m V)|]. assert (M := csv_mono m V (Z.of_nat k) ltac:(lia)).
      replace (Z.of_nat k + 1)%Z with (Z.of_nat (S k)) in M by lia. specialize (IH ltac:(lia)). lia. }
    assert (B : forall k, (Z.of_nat k <= cs_n m)%Z -> (bat (cs_off m) (cs_n m - Z.of_nat k) <= bat (cs_off m) (cs_n m))%Z).
    { induction k as [|k IH]; intros Hk; [replace (cs_n m - Z.of_nat 0)%Z with (cs_n m) by lia; lia|].
      assert (M := csv_mono m V (cs_n m - Z.of_nat (S k)) ltac:(lia)).
      replace (cs_n m - Z.of_nat (S k) + 1)%Z with (cs_n m - Z.of_nat k)%Z in M by lia. specialize (IH ltac:(lia)). lia. }
    intros d Hd. split.
    - rewrite <- (Z2Nat.id d) by lia. apply A. lia.
    - replace d with (cs_n m - Z.of_nat (Z.to_nat (cs_n m - d)))%Z by lia. apply B. lia.
  Qed.
  Lemma in_dim_ok m d : cs_valid m -> (0 <= d < cs_n m)%Z -> in_dim m d = Ok (slice m d).
  Proof.
    intros V Hd. unfold in_dim. assert (L := csv_off_len m V). rewrite !bget_ok by lia. cbn [bind].
    assert (M := csv_mono m V d Hd). destruct (Z.ltb_spec (bat (cs_off m) (d + 1) - bat (cs_off m) d) 0); [lia|]. reflexivity.
  Qed.
  Lemma slice_in m d t : cs_valid m -> (0 <= d < cs_n m)%Z -> In t (slice m d) ->
    (0 <= t < blen (cs_data m))%Z /\ (0 <= t < blen (cs_idx m))%Z /\ (0 <= bat (cs_idx m) t < cs_inner m)%Z.
  Proof.
    intros V Hd Ht. unfold slice in Ht. apply zseq_In in Ht.
    assert (B1 := off_bounds m V d ltac:(lia)). assert (B2 := off_bounds m V (d + 1) ltac:(lia)).
    assert (D := csv_data m V). assert (I := csv_idx m V). assert (M := csv_mono m V d Hd).
    split; [lia|]. split; [lia|]. apply (csv_inner m V d); lia.
  Qed.

  (** Iterators addressing consecutive cells. *)
  Theorem apply_csr_ok oit ait oo ao osz asz m (ob ab : buf) (op : R -> R) : cs_valid m -> op 0 = 0 -> (forall x y, op (x + y) = op x + op y) ->
    (forall n, it_addr oit n = oo + n)%Z -> (forall n, it_addr ait n = ao + n)%Z ->
    (0 <= oo)%Z -> (oo + cs_n m <= blen ob)%Z -> (0 <= ao)%Z -> (ao + cs_inner m <= blen ab)%Z ->
    exists ob', apply_csr (oit, osz) m (ait, asz) ob ab op = Ok ob' /\ blen ob' = blen ob /\
      (forall i, (0 <= i < cs_n m)%Z -> bat ob' (oo + i)%Z = bat ob (oo + i)%Z + op (sum (zrange (cs_inner m)) (fun j => entry m i j * bat ab (ao + j)%Z))) /\
      (forall k, ~ (oo <= k < oo + cs_n m)%Z -> bat ob' k = bat ob k).
  Proof.
    intros V O0 Oadd Io Ia H1 H2 H3 H4. unfold apply_csr.
    set (g := fun i k => sum (slice m i) (fun t => at_ (oo + i)%Z k (op (bat (cs_data m) t * bat ab (ao + bat (cs_idx m) t)%Z)))).
    destruct (for_adds R (fun _ => False) (zrange (cs_n m)) ob (fun i ob =>
      let! row := in_dim m i in
      for_ row ob (fun t ob =>
        let! j := bget (cs_idx m) t in
        let! c := bget (cs_data m) t in
        let! x := fget ab (ait, asz) j in
        fadd ob (oit, osz) i (op (c * x)))) g) as (b1 & E1 & L1 & A1).
    - intros i t Hi Hlen _. apply zrange_In in Hi. rewrite in_dim_ok by auto. cbn [bind].
      apply (for_adds R (fun _ => False)); [|intros ? ? ? []].
      intros p t1 Hp Hlen1 _. destruct (slice_in m i p V Hi Hp) as (B1 & B2 & B3).
      rewrite (bget_ok _ (cs_idx m)) by auto. cbn [bind]. rewrite (bget_ok _ (cs_data m)) by auto. cbn [bind]. unfold fget at 1. cbn [fst]. rewrite Ia, bget_ok by lia. cbn [bind].
      unfold fadd, fget, fset. cbn [fst]. rewrite Io. apply (badd_ok R t1). lia.
    - intros ? ? ? [].
    - exists b1. split; [exact E1|]. split; [auto|]. split.
      + intros i Hi. rewrite A1. f_equal.
        rewrite (sum_single R (zrange (cs_n m)) _ i); [|apply zrange_NoDup|apply zrange_In; auto|].
        * unfold g. transitivity (sum (slice m i) (fun t => op (bat (cs_data m) t * bat ab (ao + bat (cs_idx m) t)%Z))).
          { apply sum_ext. intros; apply at_same. }
          assert (Osum : forall (l : list Z) (f : Z -> R), sum l (fun t => op (f t)) = op (sum l f)).
          { intros l f. induction l as [|x l IH]; cbn [sum]; [auto|]. rewrite Oadd, IH. reflexivity. }
          rewrite Osum. f_equal. unfold entry.
          transitivity (sum (slice m i) (fun t => sum (zrange (cs_inner m)) (fun j => (if (bat (cs_idx m) t =? j)%Z then bat (cs_data m) t else 0) * bat ab (ao + j)%Z))).
          -- apply sum_ext. intros t Ht. destruct (slice_in m i t V Hi Ht) as (_ & _ & B3).
             rewrite (sum_single R (zrange (cs_inner m)) _ (bat (cs_idx m) t)); [|apply zrange_NoDup|apply zrange_In; auto|].
             ++ rewrite Z.eqb_refl. reflexivity.
             ++ intros j Hj Hne. destruct (bat (cs_idx m) t =? j)%Z eqn:E; [apply Z.eqb_eq in E; congruence|ring].
          -- rewrite sum_swap. apply sum_ext. intros j _. rewrite sum_mul_r. reflexivity.
        * intros i' Hi' Hne. unfold g. apply sum_zero. intros. apply at_diff. lia.
      + intros k Hk. rewrite A1, sum_zero; [ring|]. intros i Hi. apply zrange_In in Hi. unfold g. apply sum_zero. intros. apply at_diff. lia.
  Qed.

  Theorem apply_csc_ok oit ait oo ao osz asz m (ob ab : buf) (op : R -> R) : cs_valid m -> op 0 = 0 -> (forall x y, op (x + y) = op x + op y) ->
    (forall n, it_addr oit n = oo + n)%Z -> (forall n, it_addr ait n = ao + n)%Z ->
    (0 <= oo)%Z -> (oo + cs_inner m <= blen ob)%Z -> (0 <= ao)%Z -> (ao + cs_n m <= blen ab)%Z ->
    exists ob', apply_csc (oit, osz) m (ait, asz) ob ab op = Ok ob' /\ blen ob' = blen ob /\
      (forall i, (0 <= i < cs_inner m)%Z -> bat ob' (oo + i)%Z = bat ob (oo + i)%Z + op (sum (zrange (cs_n m)) (fun j => entry m j i * bat ab (ao + j)%Z))) /\
      (forall k, ~ (oo <= k < oo + cs_inner m)%Z -> bat ob' k = bat ob k).
  Proof.
    intros V O0 Oadd Io Ia H1 H2 H3 H4. unfold apply_csc.
    set (g := fun j k => sum (slice m j) (fun t => at_ (oo + bat (cs_idx m) t)%Z k (op (bat (cs_data m) t * bat ab (ao + j)%Z)))).
    destruct (for_adds R (fun _ => False) (zrange (cs_n m)) ob (fun j ob =>
      let! col := in_dim m j in
      for_ col ob (fun t ob =>
        let! i := bget (cs_idx m) t in
        let! c := bget (cs_data m) t in
        let! x := fget ab (ait, asz) j in
        fadd ob (oit, osz) i (op (c * x)))) g) as (b1 & E1 & L1 & A1).
    - intros j t Hj Hlen _. apply zrange_In in Hj. rewrite in_dim_ok by auto. cbn [bind].
      apply (for_adds R (fun _ => False)); [|intros ? ? ? []].
      intros p t1 Hp Hlen1 _. destruct (slice_in m j p V Hj Hp) as (B1 & B2 & B3).
      rewrite (bget_ok _ (cs_idx m)) by auto. cbn [bind]. rewrite (bget_ok _ (cs_data m)) by auto. cbn [bind]. unfold fget at 1. cbn [fst]. rewrite Ia, bget_ok by lia. cbn [bind].
      unfold fadd, fget, fset. cbn [fst]. rewrite Io. apply (badd_ok R t1). lia.
    - intros ? ? ? [].
    - exists b1. split; [exact E1|]. split; [auto|]. split.
      + intros i Hi. rewrite A1. f_equal.
        assert (Osum : forall (l : list Z) (f : Z -> R), sum l (fun t => op (f t)) = op (sum l f)).
        { intros l f. induction l as [|x l IH]; cbn [sum]; [auto|]. rewrite Oadd, IH. reflexivity. }
        rewrite <- Osum. apply sum_ext. intros j Hj. apply zrange_In in Hj. unfold g, entry. rewrite <- sum_mul_r, <- Osum.
        apply sum_ext. intros t Ht. destruct (bat (cs_idx m) t =? i)%Z eqn:E.
        * apply Z.eqb_eq in E. rewrite E. apply at_same.
        * apply Z.eqb_neq in E. rewrite at_diff by lia. replace (0 * bat ab (ao + j)%Z) with (0 : R) by ring. auto.
      + intros k Hk. rewrite A1, sum_zero; [ring|]. intros j Hj. apply zrange_In in Hj. unfold g. apply sum_zero. intros t Ht.
        destruct (slice_in m j t V Hj Ht) as (_ & _ & B3). apply at_diff. lia.
  Qed.
End Sparse.
Arguments cs_valid {R}. Arguments entry {R}. Arguments slice {R}.
