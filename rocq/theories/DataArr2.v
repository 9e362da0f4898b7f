(** Streams and elements from arrays. *)
From Verif Require Export DataArr.
Open Scope Z_scope.

Section Arr2.
  Variable V : Type.
  Variable of_int : Z -> V.
  Variable conv : stype -> V -> option V.
  Variable zero : stype -> V.
  Notation pyval := (pyval V).
  Notation arr := (arr V).
  Notation stride_copy := (stride_copy conv).
  Notation value_at := (value_at conv).
  Notation val := (val V conv zero).
  Notation ok := (ok V conv).
  Notation increments := (increments of_int conv zero).
  Notation coefficients := (coefficients of_int conv zero).

  Definition dl_leaf (a : arr) : leaf V := mkLeaf (a_shape a) (PDl a) (zprod (a_shape a)) (a_info a) KDl VVal.
  Definition dl_vals (t : stype) (a : arr) : outcome (list V) := handle_dl conv zero t (dl_leaf a) a.
  Lemma tinfo_eqb_iff i j : tinfo_eqb i j = true <-> i = j.
  Proof.
    unfold tinfo_eqb. rewrite andb_true_iff, Z.eqb_eq. destruct i as [c b], j as [c' b']; cbn. split; [intros [H ->]; destruct c, c'; try discriminate; reflexivity|intros [= -> ->]; split; [destruct c'; reflexivity|reflexivity]].
  Qed.
  Lemma val_at t a o : ok t a o -> value_at t (a_held a o) (val t a o).
  Proof. intros H. destruct (ok_val V conv zero t a o H) as (v & H1 & H2). exists v. split; assumption. Qed.

  Lemma gcd1 b x y : get_compressed_dims 1 b [x] (Some [y]) = if y =? b then 1 else 0.
  Proof. unfold get_compressed_dims. change (Z.to_nat 1) with 1%nat. cbn [firstn rev app compressed_from]. destruct (y =? b); reflexivity. Qed.
  Lemma gcd2 b m n y0 y1 : get_compressed_dims 2 b [m; n] (Some [y0; y1]) = if y1 =? b then if y0 =? b * n then 2 else 1 else 0.
  Proof. unfold get_compressed_dims. change (Z.to_nat 2) with 2%nat. cbn [firstn rev app compressed_from]. destruct (y1 =? b); [destruct (y0 =? b * n)|]; reflexivity. Qed.
  Lemma mul_inj b x y : b <> 0 -> (x * b =? y * b) = (x =? y).
  Proof. intros Hb. destruct (Z.eqb_spec (x * b) (y * b)), (Z.eqb_spec x y); try reflexivity; [exfalso; apply n; apply Z.mul_cancel_r with b; assumption|subst; congruence]. Qed.
  Definition conv_same := fun (t : stype) (a : arr) => same_type_same_value conv t a.
  Lemma number_readable (a : arr) : number_array a -> readable_info (a_info a) = true.
  Proof.
    unfold number_array, readable_info. destruct (ti_code (a_info a)); try contradiction; intros H;
      first [apply existsb_exists; exists (ti_bytes (a_info a)); split; [exact H|apply Z.eqb_refl]|apply Z.eqb_eq; exact H].
  Qed.
  Lemma number_bytes (a : arr) : number_array a -> ti_bytes (a_info a) <> 0.
  Proof. unfold number_array. destruct (ti_code (a_info a)); try contradiction; cbn; lia. Qed.
  Lemma same_held t (a : arr) : st_info t = a_info a -> held_info (a_info a) = a_info a.
  Proof. intros <-. destruct t; reflexivity. Qed.
  (** Elements as they are read. *)
  Definition helem1 (a : arr) : Z -> Z -> option V := elem1_as (held_info (a_info a)) a.
  Definition helem2 (a : arr) : Z -> Z -> Z -> Z -> option V := elem2_as (held_info (a_info a)) a.
  Lemma same_conv t (a : arr) : conv_same t a -> st_info t = a_info a -> forall o v, a_held a o = Some v -> conv t v = Some v.
  Proof. intros H E o v. unfold a_held. rewrite (same_held t a E). apply H. exact E. Qed.

  Lemma dl_vals1 t a n s : number_array a -> a_shape a = [zn n] -> (0 < n)%nat -> (a_strides a = None /\ s = 1 \/ a_strides a = Some [s]) -> misread t a = false -> conv_same t a ->
    (forall k, (k < n)%nat -> ok t a (zn k * (s * ti_bytes (a_info a)))) ->
    exists vals, dl_vals t a = Ok vals /\ length vals = n /\ forall k, (k < n)%nat -> nth_error vals k = Some (val t a (zn k * (s * ti_bytes (a_info a)))).
  Proof.
    intros Hr Hsh Hn Hst Hmis Hsame Hok. pose proof (number_bytes a Hr) as Hb. apply number_readable in Hr. unfold dl_vals, handle_dl. set (b := ti_bytes (a_info a)) in *. rewrite Hsh.
    assert (Hsz : Z.to_nat (lf_size (dl_leaf a)) = n) by (unfold dl_leaf; cbn [lf_size]; rewrite Hsh; cbn; unfold zn; lia).
    assert (Hz : Z.to_nat (zprod [zn n]) = n) by (cbn; unfold zn; lia).
    assert (CC : s = 1 -> exists vals, convert_copy conv t a b (length (repeat (zero t) n)) 0 0 (repeat (zero t) n) = Ok vals /\ length vals = n /\ forall k, (k < n)%nat -> nth_error vals k = Some (val t a (zn k * (s * b)))).
    { intros ->. rewrite repeat_length. destruct (convert_copy_spec V conv zero t a b n Hr 0 0 (repeat (zero t) n)) as (o & H1 & H2 & H3).
      - rewrite repeat_length. lia.
      - intros i Hi. specialize (Hok i Hi). rewrite Z.mul_1_l in Hok. exact Hok.
      - exists o. split; [exact H1|]. split; [rewrite H2; apply repeat_length|]. intros k Hk. rewrite H3. cbn [Nat.leb andb Nat.add]. rewrite (proj2 (Nat.ltb_lt k n)) by exact Hk. rewrite Nat.sub_0_r, Z.mul_1_l. reflexivity. }
    destruct (is_C_contiguous (a_strides a) [zn n] b && tinfo_eqb (st_info t) (a_info a)) eqn:E.
    - apply andb_true_iff in E as [E1 E2].
      destruct Hst as [[_ ->]|Hst].
      + rewrite Hsz. destruct (read_elems_spec V conv zero t a b n (same_held t a (proj1 (tinfo_eqb_iff _ _) E2)) 0) as (o & H1 & H2 & H3).
        * intros i Hi. specialize (Hok i Hi). rewrite Z.mul_1_l in Hok. exact Hok.
        * apply same_conv; [exact Hsame|]. apply tinfo_eqb_iff. exact E2.
        * exists o. split; [exact H1|]. split; [exact H2|]. intros k Hk. rewrite H3 by exact Hk. rewrite Z.mul_1_l. reflexivity.
      + exfalso. unfold misread in Hmis. rewrite E2, Hst, Hsh in Hmis. cbn [andb] in Hmis. rewrite Hst in E1. cbn [is_C_contiguous fold_right rev app c_contiguous_from] in E1. rewrite Z.add_0_r in E1. fold b in Hmis.
        destruct (s mod 2 ^ 32 =? 0); [discriminate|]. rewrite andb_true_r in E1. cbn [orb] in Hmis. congruence.
    - unfold allocate_leaf. cbn [fst]. rewrite Hsz. unfold DataModel.stride_copy. fold b. change (llen [zn n]) with 1. cbn [Z.eqb].
      destruct Hst as [[Hst ->]|Hst]; rewrite Hst.
      + cbn [get_compressed_dims Z.eqb Pos.eqb]. apply CC. reflexivity.
      + cbn [map]. rewrite gcd1. replace (s * b =? b) with (s =? 1) by (rewrite <- (mul_inj b s 1 Hb), Z.mul_1_l; reflexivity). destruct (s =? 1) eqn:Es.
        * apply CC. apply Z.eqb_eq. exact Es.
        * change (0 =? 1) with false. change (Z.to_nat (1 - 0)) with 1%nat. change (Z.to_nat 1) with 1%nat. cbv iota. cbn [firstn skipn zprod fold_right repeat].
          assert (Hfu : copy_fuel [zn n] = n) by (unfold copy_fuel; cbn; unfold zn; lia). rewrite Hfu.
          destruct (loop1 V conv zero t a b n [] (s * b) [] 1 Hr n 0 (repeat (zero t) n)) as (o & H1 & H2 & H3); try (rewrite ?repeat_length; lia).
          -- intros p q Hp Hq. replace q with O by lia. cbn [zn Z.of_nat]. rewrite Z.mul_0_l, Z.add_0_r. apply Hok. exact Hp.
          -- exists o. split; [exact H1|]. split; [rewrite H2; apply repeat_length|]. intros k Hk. rewrite H3. cbv zeta. replace (Nat.min k (n - 1)) with k by lia. cbn [Nat.leb andb].
             rewrite (proj2 (Nat.ltb_lt k (k + 1))) by lia. rewrite Nat.sub_diag. cbn [zn Z.of_nat]. rewrite Z.mul_0_l, Z.add_0_r. reflexivity.
  Qed.

  Definition good_strides (a : arr) (m n s0 s1 : Z) : Prop :=
    a_strides a = None /\ s0 = n /\ s1 = 1 \/ a_strides a = Some [s0; s1] /\ (s1 <> 1 \/ s0 = n \/ m = 1 \/ n = 1).
  (** What is read, in all cases of two dimensions. *)
  Lemma dl_vals2 t a m n s0 s1 : number_array a -> a_shape a = [zn m; zn n] -> (0 < m)%nat -> (0 < n)%nat ->
    (a_strides a = None /\ s0 = zn n /\ s1 = 1 \/ a_strides a = Some [s0; s1]) -> misread t a = false -> conv_same t a ->
    (forall p q, (p < m)%nat -> (q < n)%nat -> ok t a ((zn p * s0 + zn q * s1) * ti_bytes (a_info a))) ->
    exists vals, dl_vals t a = Ok vals /\ length vals = (m * n)%nat /\
      forall p q, (p < m)%nat -> (q < n)%nat -> nth_error vals (p * n + q) =
        if (s1 =? 1) && negb (s0 =? zn n) then let k := (p * n + q)%nat in let r := Nat.min k (m - 1) in
          if (k <? r + n)%nat then Some (val t a ((zn r * s0 + zn (k - r)) * ti_bytes (a_info a))) else Some (zero t)
        else Some (val t a ((zn p * s0 + zn q * s1) * ti_bytes (a_info a))).
  Proof.
    intros Hr Hsh Hm Hn Hst Hmis Hsame Hok. pose proof (number_bytes a Hr) as Hb. apply number_readable in Hr. unfold dl_vals, handle_dl. set (b := ti_bytes (a_info a)) in *. rewrite Hsh.
    assert (Hz : Z.to_nat (zprod [zn m; zn n]) = (m * n)%nat) by (cbn [zprod fold_right]; unfold zn; rewrite Z.mul_1_r, <- Nat2Z.inj_mul, Nat2Z.id; reflexivity).
    assert (Hsz : Z.to_nat (lf_size (dl_leaf a)) = (m * n)%nat) by (unfold dl_leaf; cbn [lf_size]; rewrite Hsh; exact Hz).
    assert (Hlin : forall k, (k < m * n)%nat -> exists p q, (p < m)%nat /\ (q < n)%nat /\ k = (p * n + q)%nat).
    { intros k Hk. exists (k / n)%nat, (k mod n)%nat. split; [apply Nat.div_lt_upper_bound; lia|]. split; [apply Nat.mod_upper_bound; lia|]. rewrite Nat.mul_comm. apply Nat.div_mod. lia. }
    assert (Hzpq : forall p q, zn (p * n + q) = zn p * zn n + zn q) by (intros; unfold zn; rewrite Nat2Z.inj_add, Nat2Z.inj_mul; reflexivity).
    assert (Hlt : forall p q, (p < m)%nat -> (q < n)%nat -> (p * n + q < m * n)%nat).
    { intros p q Hp Hq. assert (S p * n <= m * n)%nat by (apply Nat.mul_le_mono_r; lia). lia. }
    assert (CC : s0 = zn n -> s1 = 1 -> exists vals, convert_copy conv t a b (length (repeat (zero t) (m * n))) 0 0 (repeat (zero t) (m * n)) = Ok vals /\ length vals = (m * n)%nat /\
       forall p q, (p < m)%nat -> (q < n)%nat -> nth_error vals (p * n + q) = Some (val t a ((zn p * s0 + zn q * s1) * b))).
    { intros -> ->. rewrite repeat_length. destruct (convert_copy_spec V conv zero t a b (m * n) Hr 0 0 (repeat (zero t) (m * n))) as (o & H1 & H2 & H3).
      - rewrite repeat_length. lia.
      - intros i Hi. destruct (Hlin i Hi) as (p & q & Hp & Hq & ->). rewrite Hzpq. specialize (Hok p q Hp Hq). rewrite Z.mul_1_r in Hok. exact Hok.
      - exists o. split; [exact H1|]. split; [rewrite H2; apply repeat_length|]. intros p q Hp Hq. rewrite H3. cbn [Nat.leb andb Nat.add]. rewrite (proj2 (Nat.ltb_lt _ _) (Hlt p q Hp Hq)), Nat.sub_0_r, Hzpq, Z.mul_1_r. reflexivity. }
    destruct (is_C_contiguous (a_strides a) [zn m; zn n] b && tinfo_eqb (st_info t) (a_info a)) eqn:E.
    - apply andb_true_iff in E as [E1 E2]. destruct Hst as [(Hst & -> & ->)|Hst].
      + rewrite Hsz. destruct (read_elems_spec V conv zero t a b (m * n) (same_held t a (proj1 (tinfo_eqb_iff _ _) E2)) 0) as (o & H1 & H2 & H3).
        * intros i Hi. destruct (Hlin i Hi) as (p & q & Hp & Hq & ->). rewrite Hzpq. specialize (Hok p q Hp Hq). rewrite Z.mul_1_r in Hok. exact Hok.
        * apply same_conv; [exact Hsame|]. apply tinfo_eqb_iff. exact E2.
        * exists o. split; [exact H1|]. split; [exact H2|]. intros p q Hp Hq. rewrite H3 by (apply Hlt; assumption). rewrite (Z.eqb_refl (zn n)). cbn [negb andb]. rewrite ?andb_false_r, Hzpq, Z.mul_1_r. reflexivity.
      + exfalso. unfold misread in Hmis. rewrite E2, Hst, Hsh in Hmis. cbn [andb] in Hmis. rewrite Hst in E1. cbn [is_C_contiguous fold_right rev app c_contiguous_from] in E1. rewrite Z.add_0_r in E1. fold b in Hmis.
        destruct ((s0 + s1) mod 2 ^ 32 =? 0); [discriminate|]. rewrite andb_true_r in E1. cbn [orb] in Hmis. congruence.
    - unfold allocate_leaf. cbn [fst]. rewrite Hsz. unfold DataModel.stride_copy. fold b. change (llen [zn m; zn n]) with 2. cbn [Z.eqb].
      destruct Hst as [(Hst & Es0 & Es1)|Hst]; rewrite Hst.
      + cbn [get_compressed_dims Z.eqb Pos.eqb]. rewrite Es0, Es1 in *. rewrite (Z.eqb_refl (zn n)). cbn [negb]. rewrite ?andb_false_r. apply CC; reflexivity.
      + cbn [map]. rewrite gcd2.
        replace (s1 * b =? b) with (s1 =? 1) by (rewrite <- (mul_inj b s1 1 Hb), Z.mul_1_l; reflexivity).
        replace (s0 * b =? b * zn n) with (s0 =? zn n) by (rewrite <- (mul_inj b s0 (zn n) Hb), (Z.mul_comm b); reflexivity).
        destruct (s1 =? 1) eqn:E1; [apply Z.eqb_eq in E1; destruct (s0 =? zn n) eqn:E0|]; cbn [negb andb].
        * apply Z.eqb_eq in E0. apply CC; assumption.
        * change (1 =? 2) with false. change (Z.to_nat (2 - 1)) with 1%nat. change (Z.to_nat 2) with 2%nat. cbv iota. cbn [firstn skipn zprod fold_right repeat]. rewrite Z.mul_1_r.
          assert (Hfu : copy_fuel [zn m; zn n] = (m * n)%nat).
          { unfold copy_fuel. cbn [map zprod fold_right]. rewrite !Z.max_r by (unfold zn; lia). exact Hz. }
          rewrite Hfu. subst s1.
          assert (Hok' : forall p q, (p < m)%nat -> (q < n)%nat -> ok t a (zn p * (s0 * b) + zn q * b)).
          { intros p q Hp Hq. specialize (Hok p q Hp Hq). replace (zn p * (s0 * b) + zn q * b) with ((zn p * s0 + zn q * 1) * b) by lia. exact Hok. }
          assert (Hle : (m <= m * n)%nat) by (rewrite <- (Nat.mul_1_r m) at 1; apply Nat.mul_le_mono_l; lia).
          assert (Hle2 : (m + n <= m * n + 1)%nat) by (clear -Hm Hn; destruct m; [lia|]; destruct n; [lia|]; nia).
          destruct (loop1 V conv zero t a b m [zn n] (s0 * b) [1 * b] n Hr (m * n) 0 (repeat (zero t) (m * n))) as (o & H1 & H2 & H3); try (rewrite ?repeat_length; lia); [exact Hok'|].
          exists o. split; [exact H1|]. split; [rewrite H2; apply repeat_length|]. intros p q Hp Hq. rewrite H3. cbv zeta. cbn [Nat.leb andb].
          destruct (Nat.ltb_spec (p * n + q) (Nat.min (p * n + q) (m - 1) + n)).
          -- f_equal. f_equal. lia.
          -- rewrite nth_error_repeat by (apply Hlt; assumption). reflexivity.
        * change (0 =? 2) with false. change (Z.to_nat (2 - 0)) with 2%nat. change (Z.to_nat 2) with 2%nat. cbv iota. cbn [firstn skipn zprod fold_right repeat].
          assert (Hfu : copy_fuel [zn m; zn n] = (m * n)%nat).
          { unfold copy_fuel. cbn [map zprod fold_right]. rewrite !Z.max_r by (unfold zn; lia). exact Hz. }
          rewrite Hfu.
          destruct (loop2 V conv zero t a b m n (s0 * b) (s1 * b) Hr (m * n) 0 0 (repeat (zero t) (m * n))) as (o & H1 & H2 & H3); try (rewrite ?repeat_length; lia).
          -- intros p q Hp Hq. specialize (Hok p q Hp Hq). replace (zn p * (s0 * b) + zn q * (s1 * b)) with ((zn p * s0 + zn q * s1) * b) by lia. exact Hok.
          -- exists o. split; [exact H1|]. split; [rewrite H2; apply repeat_length|]. intros p q Hp Hq. rewrite H3 by assumption. cbn [Nat.leb Nat.mul Nat.add].
             f_equal. f_equal. lia.
  Qed.

  (** *** Reading them *)
  Lemma dl_increments t a vals : llen (a_shape a) <= 2 -> dl_vals t a = Ok vals ->
    increments (Some t) (PDl a) = let! rows := leaf_rows (mkLD (a_shape a) vals None (zprod (a_shape a)) KDl VVal) in Ok (rows, t).
  Proof.
    intros Hl Hv. unfold DataModel.increments. rewrite parse_some by discriminate. unfold check_size_and_type. cbn [stream_opts o_scalar o_kv andb is_kv_pair]. rewrite check_unfold. cbn [o_nested Z.ltb Z.compare negb].
    unfold check_array, stream_opts. cbn [o_nested]. rewrite Z.add_0_l, (proj2 (Z.leb_le _ _) Hl). try change (negb (0 <? 2)) with false. try change (negb (0 <? 1)) with false. cbn [bind compute_scalar_type o_type DataModel.do_conversion DataModel.convert_leaf lf_type lf_obj lf_shape lf_size lf_vt].
    unfold dl_vals, dl_leaf in Hv. rewrite Hv. cbn [bind fill_ks_stream]. destruct (leaf_rows _) as [r| | |]; cbn [bind]; try reflexivity. rewrite app_nil_r. reflexivity.
  Qed.
  Lemma dl_coefficients tensor t a vals : llen (a_shape a) <= 1 -> dl_vals t a = Ok vals ->
    coefficients (el_opts tensor t) (PDl a) = Ok ((vals, None), t).
  Proof.
    intros Hl Hv. unfold DataModel.coefficients. rewrite parse_some by discriminate. unfold check_size_and_type, el_opts. cbn [o_scalar o_kv andb is_kv_pair is_scalar]. rewrite andb_false_r. rewrite check_unfold. cbn [o_nested Z.ltb Z.compare negb].
    unfold check_array, stream_opts. cbn [o_nested]. rewrite Z.add_0_l, (proj2 (Z.leb_le _ _) Hl). try change (negb (0 <? 2)) with false. try change (negb (0 <? 1)) with false. cbn [bind compute_scalar_type o_type DataModel.do_conversion DataModel.convert_leaf lf_type lf_obj lf_shape lf_size lf_vt].
    unfold dl_vals, dl_leaf in Hv. rewrite Hv. reflexivity.
  Qed.

  Theorem vector_read tensor t a n s : number_array a -> a_shape a = [n] -> 0 < n -> (a_strides a = None /\ s = 1 \/ a_strides a = Some [s]) -> misread t a = false -> same_type_same_value conv t a ->
    (forall i, 0 <= i < n -> exists x, value_at t (helem1 a s i) x) ->
    exists r, increments (Some t) (PDl a) = Ok ([r], t) /\ coefficients (el_opts tensor t) (PDl a) = Ok ((r, None), t) /\ vector r n (fun i x => value_at t (helem1 a s i) x).
  Proof.
    intros Hb Hsh Hn Hst Hmis Hsame Hok. set (N := Z.to_nat n). assert (En : n = zn N) by (unfold zn, N; lia). rewrite En in *. clear En.
    assert (Hok' : forall k, (k < N)%nat -> ok t a (zn k * (s * ti_bytes (a_info a)))).
    { intros k Hk. specialize (Hok (zn k)). unfold helem1, elem1_as in Hok. rewrite <- Z.mul_assoc in Hok. apply Hok. unfold zn in *. lia. }
    destruct (dl_vals1 t a N s Hb Hsh ltac:(unfold zn in *; lia) Hst Hmis Hsame Hok') as (vals & Hv & Hl & Hk).
    exists vals. split; [|split].
    - rewrite (dl_increments t a vals); [|rewrite Hsh; cbn; lia|exact Hv]. unfold leaf_rows. cbn [ld_type ld_size ld_shape ld_vals]. rewrite Hsh. cbn [zprod fold_right]. replace (zn N * 1 =? 0) with false by (symmetry; apply Z.eqb_neq; lia). reflexivity.
    - apply dl_coefficients; [rewrite Hsh; cbn; lia|exact Hv].
    - split; [unfold zn; lia|]. intros j Hj. set (k := Z.to_nat j). assert (Ej : j = zn k) by (unfold zn, k; lia). rewrite Ej in *.
      assert (Hkn : (k < N)%nat) by (unfold zn in Hj; lia). exists (val t a (zn k * (s * ti_bytes (a_info a)))). split.
      + unfold ith. replace (Z.to_nat (zn k)) with k by (unfold zn; lia). apply Hk. exact Hkn.
      + unfold helem1, elem1_as. rewrite <- Z.mul_assoc. apply val_at. apply Hok'. exact Hkn.
  Qed.

  Lemma matrix_of t a m n (R : nat -> nat -> V -> Prop) : a_shape a = [zn m; zn n] -> (0 < m)%nat -> (0 < n)%nat ->
    (exists vals, dl_vals t a = Ok vals /\ length vals = (m * n)%nat /\ forall p q, (p < m)%nat -> (q < n)%nat -> exists x, nth_error vals (p * n + q) = Some x /\ R p q x) ->
    exists rows, increments (Some t) (PDl a) = Ok (rows, t) /\ matrix rows (zn m) (zn n) (fun i j x => R (Z.to_nat i) (Z.to_nat j) x).
  Proof.
    intros Hsh Hm Hn (vals & Hv & Hl & Hk).
    assert (Hle : (m <= m * n)%nat) by (rewrite <- (Nat.mul_1_r m) at 1; apply Nat.mul_le_mono_l; lia).
    exists (cut (length vals) n vals). destruct (cut_spec V (A:=unit) n m (length vals) vals Hn Hl ltac:(lia)) as [C1 C2]. split.
    - rewrite (dl_increments t a vals); [|rewrite Hsh; cbn; lia|exact Hv]. unfold leaf_rows. cbn [ld_type ld_size ld_shape ld_vals]. rewrite Hsh. cbn [zprod fold_right last].
      replace (zn m * (zn n * 1) =? 0) with false by (symmetry; apply Z.eqb_neq; unfold zn; nia). replace (Z.to_nat (zn n)) with n by (unfold zn; lia). reflexivity.
    - split; [unfold zn; lia|]. intros i Hi. destruct (C2 (Z.to_nat i)) as (r & R1 & R2 & R3); [unfold zn in Hi; lia|]. exists r. split; [exact R1|]. split; [unfold zn; lia|].
      intros j Hj. destruct (Hk (Z.to_nat i) (Z.to_nat j)) as (x & X1 & X2); [unfold zn in Hi; lia|unfold zn in Hj; lia|]. exists x. split; [|exact X2]. unfold ith. rewrite R3 by (unfold zn in Hj; lia). exact X1.
  Qed.

  Theorem matrix_read t a m n s0 s1 : number_array a -> a_shape a = [m; n] -> 0 < m -> 0 < n -> good_strides a m n s0 s1 -> misread t a = false -> same_type_same_value conv t a ->
    (forall i j, 0 <= i < m -> 0 <= j < n -> exists x, value_at t (helem2 a s0 s1 i j) x) ->
    exists rows, increments (Some t) (PDl a) = Ok (rows, t) /\ matrix rows m n (fun i j x => value_at t (helem2 a s0 s1 i j) x).
  Proof.
    intros Hb Hsh Hm Hn Hst Hmis Hsame Hok. set (M := Z.to_nat m). assert (Em : m = zn M) by (unfold zn, M; lia). set (N := Z.to_nat n). assert (En : n = zn N) by (unfold zn, N; lia).
    clearbody M N. subst m n.
    assert (Hok' : forall p q, (p < M)%nat -> (q < N)%nat -> ok t a ((zn p * s0 + zn q * s1) * ti_bytes (a_info a))).
    { intros p q Hp Hq. apply (Hok (zn p) (zn q)); unfold zn; lia. }
    assert (HM : (0 < M)%nat) by (unfold zn in *; lia). assert (HN : (0 < N)%nat) by (unfold zn in *; lia).
    assert (Hst' : a_strides a = None /\ s0 = zn N /\ s1 = 1 \/ a_strides a = Some [s0; s1]) by (destruct Hst as [?|[? _]]; auto).
    destruct (dl_vals2 t a M N s0 s1 Hb Hsh HM HN Hst' Hmis Hsame Hok') as (vals & Hv & Hl & Hk).
    destruct (matrix_of t a M N (fun p q x => value_at t (helem2 a s0 s1 (zn p) (zn q)) x) Hsh HM HN) as (rows & R1 & [R2 R3]); auto.
    - exists vals. split; [exact Hv|]. split; [exact Hl|]. intros p q Hp Hq. rewrite Hk by assumption.
      exists (val t a ((zn p * s0 + zn q * s1) * ti_bytes (a_info a))). split; [|apply val_at; apply Hok'; assumption].
      destruct ((s1 =? 1) && negb (s0 =? zn N)) eqn:E; [|reflexivity]. apply andb_true_iff in E as [E1 E0]. apply Z.eqb_eq in E1. apply negb_true_iff in E0. apply Z.eqb_neq in E0.
      cbv zeta. destruct Hst as [(_ & ? & _)|(_ & [?|[?|[H1|H1]]])]; try congruence.
      + assert (M = 1)%nat by (unfold zn in H1; lia). subst M. replace p with O in * by lia. cbn [Nat.mul Nat.add]. replace (Nat.min q (1 - 1)) with O by lia. cbn [Nat.add]. rewrite (proj2 (Nat.ltb_lt q N) Hq). rewrite Nat.sub_0_r. subst s1. rewrite Z.mul_1_r. reflexivity.
      + assert (N = 1)%nat by (unfold zn in H1; lia). subst N. replace q with O in * by lia. replace (p * 1 + 0)%nat with p by lia. replace (Nat.min p (M - 1)) with p by lia. rewrite (proj2 (Nat.ltb_lt p (p + 1))) by lia. rewrite Nat.sub_diag. cbn [zn Z.of_nat]. subst s1. rewrite Z.mul_1_r. reflexivity.
    - exists rows. split; [exact R1|]. split; [exact R2|]. intros i Hi. destruct (R3 i Hi) as (r & A & B & C). exists r. split; [exact A|]. split; [exact B|]. intros j Hj. destruct (C j Hj) as (x & X1 & X2). exists x. split; [exact X1|].
      unfold zn in X2. rewrite !Z2Nat.id in X2 by lia. exact X2.
  Qed.

  (** The rows of a matrix cut out of a wider one: row [i] is written from position [i] on. *)
  Theorem matrix_overlap t a m n s0 : number_array a -> a_shape a = [m; n] -> 1 < m -> 1 < n -> a_strides a = Some [s0; 1] -> s0 <> n -> misread t a = false -> same_type_same_value conv t a ->
    (forall i j, 0 <= i < m -> 0 <= j < n -> exists x, value_at t (helem2 a s0 1 i j) x) ->
    exists rows, increments (Some t) (PDl a) = Ok (rows, t) /\
      matrix rows m n (fun i j x => let k := i * n + j in let p := Z.min k (m - 1) in if k <? m - 1 + n then value_at t (helem2 a s0 1 p (k - p)) x else x = zero t).
  Proof.
    intros Hb Hsh Hm Hn Hst Hs0 Hmis Hsame Hok. set (M := Z.to_nat m). assert (Em : m = zn M) by (unfold zn, M; lia). set (N := Z.to_nat n). assert (En : n = zn N) by (unfold zn, N; lia).
    clearbody M N. subst m n.
    assert (Hok' : forall p q, (p < M)%nat -> (q < N)%nat -> ok t a ((zn p * s0 + zn q * 1) * ti_bytes (a_info a))).
    { intros p q Hp Hq. apply (Hok (zn p) (zn q)); unfold zn; lia. }
    assert (HM : (0 < M)%nat) by (unfold zn in *; lia). assert (HN : (0 < N)%nat) by (unfold zn in *; lia).
    destruct (dl_vals2 t a M N s0 1 Hb Hsh HM HN (or_intror Hst) Hmis Hsame Hok') as (vals & Hv & Hl & Hk).
    destruct (matrix_of t a M N (fun p q x => let k := zn p * zn N + zn q in let r := Z.min k (zn M - 1) in if k <? zn M - 1 + zn N then value_at t (helem2 a s0 1 r (k - r)) x else x = zero t) Hsh HM HN) as (rows & R1 & [R2 R3]); auto.
    - exists vals. split; [exact Hv|]. split; [exact Hl|]. intros p q Hp Hq. rewrite Hk by assumption. apply Z.eqb_neq in Hs0. rewrite Hs0. cbn [Z.eqb Pos.eqb negb andb]. cbv zeta.
      set (k := (p * N + q)%nat). assert (Ek : zn p * zn N + zn q = zn k) by (unfold k, zn; rewrite Nat2Z.inj_add, Nat2Z.inj_mul; reflexivity). rewrite Ek.
      set (r := Nat.min k (M - 1)). assert (Er : Z.min (zn k) (zn M - 1) = zn r) by (unfold r, zn; lia). rewrite Er.
      destruct (Nat.ltb_spec k (r + N)) as [H|H].
      + replace (zn k <? zn M - 1 + zn N) with true by (symmetry; apply Z.ltb_lt; unfold zn, r in *; lia). eexists. split; [reflexivity|]. unfold helem2, elem2_as.
        replace ((zn r * s0 + (zn k - zn r) * 1) * ti_bytes (a_info a)) with ((zn r * s0 + zn (k - r)) * ti_bytes (a_info a)) by (f_equal; f_equal; unfold zn, r; lia).
        apply val_at. replace (zn (k - r)) with (zn (k - r) * 1) by lia. apply Hok'; unfold r in *; lia.
      + replace (zn k <? zn M - 1 + zn N) with false by (symmetry; apply Z.ltb_ge; unfold zn, r in *; lia). eexists. split; reflexivity.
    - exists rows. split; [exact R1|]. split; [exact R2|]. intros i Hi. destruct (R3 i Hi) as (rr & A & B & C). exists rr. split; [exact A|]. split; [exact B|]. intros j Hj. destruct (C j Hj) as (x & X1 & X2). exists x. split; [exact X1|].
      replace (zn (Z.to_nat i)) with i in X2 by (unfold zn; lia). replace (zn (Z.to_nat j)) with j in X2 by (unfold zn; lia). exact X2.
  Qed.

  (** A list of 1-dimensional arrays is the rows of the arrays. *)
  Theorem list_of_vectors t l rows : l <> [] -> Forall (fun a => length (a_shape a) = 1%nat) l ->
    (increments (Some t) (PList (map PDl l)) = Ok (rows, t) <-> exists rs, Forall2 (fun a r => increments (Some t) (PDl a) = Ok (r, t)) l rs /\ rows = concat rs).
  Proof.
    intros Hne H1. set (o := stream_opts (Some t)).
    assert (Hc : forall l, Forall (fun a : arr => length (a_shape a) = 1%nat) l -> mapM (check_recurse o (0 + 1)) (map PDl l) = Ok (map (fun a => [dl_leaf a]) l)).
    { clear. induction 1 as [|a l H _ IH]; [reflexivity|]. cbn [map mapM]. rewrite IH. rewrite check_unfold. cbn [o stream_opts o_nested Z.add Z.ltb Z.compare Pos.compare Pos.compare_cont negb]. unfold check_array, llen. rewrite H. reflexivity. }
    assert (Hcc : concat (map (fun a => [dl_leaf a]) l) = map dl_leaf l) by (clear; induction l; cbn; [reflexivity|f_equal; assumption]).
    assert (Hs : exists e, scan o (map PDl l) None = Ok (false, e)) by (destruct l as [|a l]; [congruence|]; eexists; reflexivity). destruct Hs as (e & Hs).
    assert (E : increments (Some t) (PList (map PDl l)) = let! d := mapM (convert_leaf of_int conv zero o t) (map dl_leaf l) in let! rows := fill_ks_stream d in Ok (rows, t)).
    { unfold DataModel.increments. fold o. rewrite parse_some by discriminate. unfold check_size_and_type. cbn [o stream_opts o_scalar o_kv andb is_kv_pair]. fold (stream_opts (Some t)). fold o.
      rewrite check_unfold. cbn [o stream_opts o_nested Z.ltb Z.compare negb]. fold (stream_opts (Some t)). fold o. rewrite (Hc l H1).
      destruct (map PDl l) eqn:Em; [destruct l; [congruence|discriminate]|]. rewrite Hs. cbn [bind]. rewrite Hcc. cbn [bind compute_scalar_type o_type o stream_opts]. fold (stream_opts (Some t)). fold o. rewrite do_mapM.
      destruct (mapM _ _); reflexivity. }
    assert (E1 : forall a, length (a_shape a) = 1%nat -> increments (Some t) (PDl a) = let! d := convert_leaf of_int conv zero o t (dl_leaf a) in let! rows := leaf_rows d in Ok (rows, t)).
    { intros a Ha. unfold DataModel.increments. fold o. rewrite parse_some by discriminate. unfold check_size_and_type. cbn [o stream_opts o_scalar o_kv andb is_kv_pair]. fold (stream_opts (Some t)). fold o.
      rewrite check_unfold. cbn [o stream_opts o_nested Z.ltb Z.compare negb]. unfold check_array, llen. rewrite Ha. cbn [o_nested]. try change (negb (0 <? 2)) with false. change (0 + Z.of_nat 1 <=? o_nested o) with true. cbv iota. cbn [bind]. change (compute_scalar_type o _) with (Ok t). cbn [bind]. fold (stream_opts (Some t)). fold o.
      fold (dl_leaf a). rewrite do_mapM. cbn [mapM]. destruct (convert_leaf of_int conv zero o t (dl_leaf a)); try reflexivity. cbn [bind fill_ks_stream]. destruct (leaf_rows a0); try reflexivity. cbn [bind]. rewrite app_nil_r. reflexivity. }
    rewrite E. clear E Hs Hcc Hc Hne. clearbody o.
    assert (G : forall l, Forall (fun a : arr => length (a_shape a) = 1%nat) l -> forall rows, (let! d := mapM (convert_leaf of_int conv zero o t) (map dl_leaf l) in fill_ks_stream d) = Ok rows <->
       exists rs, Forall2 (fun a r => increments (Some t) (PDl a) = Ok (r, t)) l rs /\ rows = concat rs).
    { clear -E1. induction 1 as [|a l Ha Hl IH]; intros rows.
      - cbn. split; [intros [= <-]; exists []; split; [constructor|reflexivity]|intros (rs & H & ->); inversion H; reflexivity].
      - cbn [map mapM]. split.
        + intros H. apply bind_ok in H as (ds & Hd & H). apply bind_ok in Hd as (d & Hd & Hds). apply bind_ok in Hds as (d' & Hds & Hx). injection Hx as <-. cbn [fill_ks_stream] in H.
          apply bind_ok in H as (x & Hx & H). apply bind_ok in H as (y & Hy & H). injection H as <-.
          destruct (proj1 (IH y)) as (rs & R1 & ->); [rewrite Hds; exact Hy|]. exists (x :: rs). split; [constructor; [rewrite E1 by exact Ha; rewrite Hd; cbn [bind]; rewrite Hx; reflexivity|exact R1]|reflexivity].
        + intros (rs & H & ->). inversion H as [|? x ? rs' Hx Hrs]; subst. rewrite E1 in Hx by exact Ha. apply bind_ok in Hx as (d & Hd & Hx). apply bind_ok in Hx as (x' & Hr & Hx). injection Hx as ->.
          pose proof (proj2 (IH (concat rs')) (ex_intro _ rs' (conj Hrs eq_refl))) as G. apply bind_ok in G as (ds & Hds & G). rewrite Hd. cbn [bind]. rewrite Hds. cbn [bind fill_ks_stream]. rewrite Hr. cbn [bind]. rewrite G. reflexivity. }
    specialize (G l H1 rows). destruct (mapM (convert_leaf of_int conv zero o t) (map dl_leaf l)) as [d| | |]; cbn [bind] in *; [destruct (fill_ks_stream d)| | |]; cbn [bind]; rewrite <- G; split; intros H; try discriminate; congruence.
  Qed.
End Arr2.
