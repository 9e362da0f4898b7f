(** Other buffers, and what goes wrong. *)
From Verif Require Export DataArr2 DataTypes.
Open Scope Z_scope.

Section Buf.
  Variable V : Type.
  Variable of_int : Z -> V.
  Variable conv : stype -> V -> option V.
  Variable zero : stype -> V.
  Notation pyval := (pyval V).
  Notation arr := (arr V).
  Notation increments := (increments of_int conv zero).
  Notation coefficients := (coefficients of_int conv zero).

  Definition buf_leaf (a : arr) : leaf V := mkLeaf (a_shape a) (PBuf a) (zprod (a_shape a)) (a_info a) KBuf VVal.
  Lemma buf_increments t a : llen (a_shape a) <= 2 ->
    increments (Some t) (PBuf a) = let! vals := handle_buf conv zero t (buf_leaf a) a in let! rows := leaf_rows (mkLD (a_shape a) vals None (zprod (a_shape a)) KBuf VVal) in Ok (rows, t).
  Proof.
    intros Hl. unfold DataModel.increments. rewrite parse_some by discriminate. unfold check_size_and_type. cbn [stream_opts o_scalar o_kv andb is_kv_pair]. rewrite check_unfold. cbn [o_nested Z.ltb Z.compare negb].
    unfold check_array, stream_opts. cbn [o_nested]. rewrite Z.add_0_l, (proj2 (Z.leb_le _ _) Hl). change (negb (0 <? 2)) with false. cbn [bind compute_scalar_type o_type DataModel.do_conversion DataModel.convert_leaf lf_type lf_obj lf_shape lf_size lf_vt].
    fold (buf_leaf a). destruct (handle_buf conv zero t (buf_leaf a) a); cbn [bind]; try reflexivity. cbn [fill_ks_stream]. destruct (leaf_rows _); cbn [bind]; try reflexivity. rewrite app_nil_r. reflexivity.
  Qed.
  (** Buffers of another type than the one asked for. *)
  Theorem buffer_conversion_ub t a : st_info t <> a_info a -> llen (a_shape a) <= 2 -> llen (a_shape a) < ti_bytes (a_info a) -> increments (Some t) (PBuf a) = UB.
  Proof.
    intros Ht Hl Hb. rewrite buf_increments by exact Hl. unfold handle_buf. replace (tinfo_eqb (st_info t) (a_info a)) with false by (symmetry; apply not_true_iff_false; rewrite tinfo_eqb_iff; exact Ht).
    rewrite andb_false_r. rewrite Z.gtb_ltb, (proj2 (Z.ltb_lt _ _) Hb). reflexivity.
  Qed.
  (** Contiguous buffers of the type asked for are read as they are laid out. *)
  Lemma buf_vals t a n : st_info t = a_info a -> buf_contiguous a = true -> Z.to_nat (zprod (a_shape a)) = n -> (forall k, (k < n)%nat -> exists x, a_mem a (a_info a) (zn k * ti_bytes (a_info a)) = Some x) ->
    exists vals, handle_buf conv zero t (buf_leaf a) a = Ok vals /\ length vals = n /\ forall k, (k < n)%nat -> exists x, nth_error vals k = Some x /\ a_mem a (a_info a) (zn k * ti_bytes (a_info a)) = Some x.
  Proof.
    intros Ht Hc Hn Hok. unfold handle_buf. rewrite Hc, (proj2 (tinfo_eqb_iff _ _) Ht). cbn [andb lf_size buf_leaf]. rewrite Hn. clear Hn.
    assert (G : forall m src, (forall k, (k < m)%nat -> exists x, a_mem a (a_info a) (src + zn k * ti_bytes (a_info a)) = Some x) ->
      exists vals, read_elems a (ti_bytes (a_info a)) m src = Ok vals /\ length vals = m /\ forall k, (k < m)%nat -> exists x, nth_error vals k = Some x /\ a_mem a (a_info a) (src + zn k * ti_bytes (a_info a)) = Some x).
    { clear. induction m as [|m IH]; intros src Hok; [exists []; repeat split; intros; lia|]. destruct (Hok O ltac:(lia)) as (x & Hx). assert (E0 : src + zn 0 * ti_bytes (a_info a) = src) by (cbn; lia). rewrite E0 in Hx.
      destruct (IH (src + ti_bytes (a_info a))) as (vals & H1 & H2 & H3).
      - intros k Hk. destruct (Hok (S k) ltac:(lia)) as (y & Hy). exists y. rewrite <- Hy. f_equal. unfold zn. lia.
      - cbn [read_elems]. unfold read_typed. rewrite Hx. cbn [bind]. rewrite H1. cbn [bind]. exists (x :: vals). split; [reflexivity|]. split; [cbn; lia|]. intros [|k] Hk.
        + exists x. split; [reflexivity|]. rewrite E0. exact Hx.
        + destruct (H3 k ltac:(lia)) as (y & Y1 & Y2). exists y. split; [exact Y1|]. rewrite <- Y2. f_equal. unfold zn. lia. }
    destruct (G n 0) as (vals & H1 & H2 & H3); [intros k Hk; apply Hok; exact Hk|]. exists vals. split; [exact H1|]. split; [exact H2|]. exact H3.
  Qed.
  Theorem buffer_matrix t a m n : st_info t = a_info a -> a_shape a = [m; n] -> 0 < m -> 0 < n ->
    (a_strides a = None \/ a_strides a = Some [n * ti_bytes (a_info a); ti_bytes (a_info a)]) ->
    (forall i j, 0 <= i < m -> 0 <= j < n -> exists x, a_mem a (a_info a) ((i * n + j) * ti_bytes (a_info a)) = Some x) ->
    exists rows, increments (Some t) (PBuf a) = Ok (rows, t) /\ matrix rows m n (fun i j x => a_mem a (a_info a) ((i * n + j) * ti_bytes (a_info a)) = Some x).
  Proof.
    intros Ht Hsh Hm Hn Hst Hok. set (M := Z.to_nat m). assert (Em : m = zn M) by (unfold zn, M; lia). set (N := Z.to_nat n). assert (En : n = zn N) by (unfold zn, N; lia).
    clearbody M N. subst m n. assert (HM : (0 < M)%nat) by (unfold zn in *; lia). assert (HN : (0 < N)%nat) by (unfold zn in *; lia).
    assert (Hz : Z.to_nat (zprod (a_shape a)) = (M * N)%nat) by (rewrite Hsh; cbn [zprod fold_right]; unfold zn; rewrite Z.mul_1_r, <- Nat2Z.inj_mul, Nat2Z.id; reflexivity).
    assert (Hc : buf_contiguous a = true).
    { unfold buf_contiguous. destruct Hst as [-> | ->]; [reflexivity|]. rewrite Hsh. cbn [rev app contig]. rewrite Z.eqb_refl, orb_true_r. rewrite (Z.mul_comm (ti_bytes (a_info a))), Z.eqb_refl, orb_true_r. cbn [andb]. rewrite orb_true_r. reflexivity. }
    assert (Hlin : forall k, (k < M * N)%nat -> exists p q, (p < M)%nat /\ (q < N)%nat /\ k = (p * N + q)%nat).
    { intros k Hk. exists (k / N)%nat, (k mod N)%nat. split; [apply Nat.div_lt_upper_bound; lia|]. split; [apply Nat.mod_upper_bound; lia|]. rewrite Nat.mul_comm. apply Nat.div_mod. lia. }
    assert (Hzpq : forall p q, zn (p * N + q) = zn p * zn N + zn q) by (intros; unfold zn; rewrite Nat2Z.inj_add, Nat2Z.inj_mul; reflexivity).
    assert (Hlt : forall p q, (p < M)%nat -> (q < N)%nat -> (p * N + q < M * N)%nat).
    { intros p q Hp Hq. assert (S p * N <= M * N)%nat by (apply Nat.mul_le_mono_r; lia). lia. }
    destruct (buf_vals t a (M * N) Ht Hc Hz) as (vals & Hv & Hl & Hk).
    { intros k Hk. destruct (Hlin k Hk) as (p & q & Hp & Hq & ->). rewrite Hzpq. apply Hok; unfold zn; lia. }
    assert (Hle : (M <= M * N)%nat) by (rewrite <- (Nat.mul_1_r M) at 1; apply Nat.mul_le_mono_l; lia).
    exists (cut (length vals) N vals). destruct (cut_spec V (A:=unit) N M (length vals) vals HN Hl ltac:(lia)) as [C1 C2]. split.
    - rewrite buf_increments by (rewrite Hsh; cbn; lia). rewrite Hv. cbn [bind]. unfold leaf_rows. cbn [ld_type ld_size ld_shape ld_vals]. rewrite Hsh. cbn [zprod fold_right last].
      replace (zn M * (zn N * 1) =? 0) with false by (symmetry; apply Z.eqb_neq; unfold zn; nia). replace (Z.to_nat (zn N)) with N by (unfold zn; lia). reflexivity.
    - split; [unfold zn; lia|]. intros i Hi. destruct (C2 (Z.to_nat i)) as (r & R1 & R2 & R3); [unfold zn in Hi; lia|]. exists r. split; [exact R1|]. split; [unfold zn; lia|].
      intros j Hj. assert (Hij : (Z.to_nat i * N + Z.to_nat j < M * N)%nat) by (apply Hlt; unfold zn in *; lia). destruct (Hk _ Hij) as (x & X1 & X2). exists x. split; [unfold ith; rewrite R3 by (unfold zn in Hj; lia); exact X1|].
      rewrite Hzpq in X2. unfold zn in X2. rewrite !Z2Nat.id in X2 by lia. exact X2.
  Qed.
End Buf.

(** *** A concrete scalar to compute with: values are integers, conversions do nothing. *)
Definition zi (z : Z) : Z := z.
Definition zc (t : stype) (v : Z) : option Z := Some v.
Definition zz (t : stype) : Z := 0.
Definition zinc := increments zi zc zz.
Definition zco := coefficients zi zc zz.
Definition int (z : Z) : pyval Z := PInt true z.
Definition dbl (z : Z) : pyval Z := PNum (Some (mkTI TFloat 8)) z.
Definition rat (z : Z) : pyval Z := PNum (Some (mkTI TRational 16)) z.
Definition foreign (z : Z) : pyval Z := PNum None z.
(** An array of [n] consecutive elements 0, 1, 2, ... of 8 bytes each *)
Definition mem8 (n : Z) (o : Z) : option Z := if (o mod 8 =? 0) && (0 <=? o) && (o <? 8 * n) then Some (o / 8) else None.
