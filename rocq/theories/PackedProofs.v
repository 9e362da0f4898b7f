(** Proofs about the packed type word. *)
From Coq Require Import Lia ZifyN ZifyBool.
From Verif Require Export PackedSpec.
Open Scope N_scope.


Lemma bit_low p n : p mod 16 = 0 -> n < 4 -> N.testbit p n = false.
Proof. intros H Hn. change 16 with (2 ^ 4) in H. rewrite <- (N.mod_pow2_bits_low p 4 n Hn), H. apply N.bits_0. Qed.
Lemma bit_high p k n : p < 2 ^ k -> k <= n -> N.testbit p n = false.
Proof.
  intros H Hn. destruct (N.eq_dec p 0) as [->|]; [apply N.bits_0|]. apply N.bits_above_log2.
  apply N.lt_le_trans with k; [apply N.log2_lt_pow2; lia|exact Hn].
Qed.
Lemma bits_enum_mask n : N.testbit enum_mask n = (n <? 3).
Proof. change enum_mask with (N.ones 3). destruct (N.ltb_spec n 3); [apply N.ones_spec_low; assumption|apply N.ones_spec_high; assumption]. Qed.
Lemma bits_mode_mask n : N.testbit mode_mask n = (n =? 3).
Proof. change mode_mask with (2 ^ 3). apply N.pow2_bits_eqb || (rewrite N.pow2_bits_eqb; apply N.eqb_sym). Qed.
Lemma bits_pointer_mask n : N.testbit pointer_mask n = ((4 <=? n) && (n <? 64)).
Proof.
  unfold pointer_mask. rewrite N.lxor_spec, N.lor_spec, bits_mode_mask, bits_enum_mask.
  assert (E : N.testbit (N.ones 64) n = (n <? 64)) by (destruct (N.ltb_spec n 64); [apply N.ones_spec_low; assumption|apply N.ones_spec_high; assumption]).
  rewrite E. destruct (N.ltb_spec n 64), (N.leb_spec 4 n), (N.eqb_spec n 3), (N.ltb_spec n 3); try reflexivity; lia.
Qed.
Lemma bits_type_info_mask n : N.testbit type_info_mask n = ((4 <=? n) && (n <? 36)).
Proof.
  unfold type_info_mask. change (N.shiftl 1 32 - 1) with (N.ones 32). change non_pointer_bits with 4.
  destruct (N.leb_spec 4 n).
  - rewrite N.shiftl_spec_high' by assumption. destruct (N.ltb_spec n 36); [apply N.ones_spec_low; lia|apply N.ones_spec_high; lia].
  - rewrite N.shiftl_spec_low by assumption. reflexivity.
Qed.
Lemma bits_small e n : e < 8 -> N.testbit e n = ((n <? 3) && N.testbit e n).
Proof. intros H. destruct (N.ltb_spec n 3); [reflexivity|]. apply (bit_high e 3); [exact H|assumption]. Qed.

(** *** From a type object *)
Lemma of_type_pointer p e : type_object p -> e < 8 -> is_pointer (of_type p e) = true.
Proof.
  intros [Hp _] He. unfold is_pointer, of_type. apply N.eqb_eq. apply N.bits_inj. intro n. rewrite N.bits_0, N.land_spec, N.lor_spec, bits_mode_mask.
  destruct (N.eqb_spec n 3) as [->|]; [|apply andb_false_r]. rewrite (bit_low p 3 Hp) by lia. rewrite (bits_small e 3 He). reflexivity.
Qed.
Lemma of_type_get p e : type_object p -> e < 8 -> get_pointer (of_type p e) = p.
Proof.
  intros [Hp Hp'] He. unfold get_pointer, of_type. apply N.bits_inj. intro n. rewrite N.land_spec, N.lor_spec, bits_pointer_mask, (bits_small e n He).
  destruct (N.leb_spec 4 n).
  - replace (n <? 3) with false by (symmetry; apply N.ltb_ge; lia). cbn [andb]. rewrite orb_false_r. destruct (N.ltb_spec n 64); [apply andb_true_r|]. rewrite (bit_high p 64) by assumption. reflexivity.
  - cbn [andb]. rewrite andb_false_r. rewrite (bit_low p n Hp) by assumption. reflexivity.
Qed.
Lemma of_type_enum p e : type_object p -> e < 8 -> get_enumeration (of_type p e) = e.
Proof.
  intros [Hp _] He. unfold get_enumeration, of_type. apply N.bits_inj. intro n. rewrite N.land_spec, N.lor_spec, bits_enum_mask.
  destruct (N.ltb_spec n 3).
  - rewrite (bit_low p n Hp) by lia. cbn [orb]. apply andb_true_r.
  - rewrite andb_false_r. symmetry. apply (bit_high e 3); [exact He|assumption].
Qed.

(** *** From a description *)
Lemma info_bits_bound i : described i -> info_bits i < 2 ^ 32.
Proof. intros (H1 & H2 & H3 & H4). unfold info_bits. change (2 ^ 8) with 256. change (2 ^ 32) with 4294967296. nia. Qed.
Lemma bits_of_info i e n : described i -> e < 8 ->
  N.testbit (of_info i e) n = if n <? 3 then N.testbit e n else if n =? 3 then true else N.testbit (info_bits i) (n - 3).
Proof.
  intros Hi He. unfold of_info. change max_enum_bits with 3. rewrite N.lor_spec, N.lor_spec, N.land_spec, bits_mode_mask, bits_enum_mask.
  destruct (N.ltb_spec n 3).
  - rewrite N.shiftl_spec_low by assumption. replace (n =? 3) with false by (symmetry; apply N.eqb_neq; lia). cbn [orb]. apply andb_true_r.
  - rewrite N.shiftl_spec_high' by assumption. rewrite andb_false_r, orb_false_r. destruct (N.eqb_spec n 3); [apply orb_true_r|apply orb_false_r].
Qed.
Lemma of_info_pointer i e : described i -> e < 8 -> is_pointer (of_info i e) = false.
Proof.
  intros Hi He. unfold is_pointer. apply N.eqb_neq. intro E. assert (F : N.testbit (N.land (of_info i e) mode_mask) 3 = true).
  { rewrite N.land_spec, bits_mode_mask, bits_of_info by assumption. reflexivity. }
  rewrite E, N.bits_0 in F. discriminate.
Qed.
Lemma of_info_enum i e : described i -> e < 8 -> get_enumeration (of_info i e) = e.
Proof.
  intros Hi He. unfold get_enumeration. apply N.bits_inj. intro n. rewrite N.land_spec, bits_enum_mask, bits_of_info by assumption.
  destruct (N.ltb_spec n 3); [apply andb_true_r|]. rewrite andb_false_r. symmetry. apply (bit_high e 3); [exact He|assumption].
Qed.
Lemma read_bits i e : described i -> e < 8 -> N.shiftr (N.land (of_info i e) type_info_mask) max_enum_bits mod 2 ^ 32 = N.ldiff (info_bits i) 1.
Proof.
  intros Hi He. apply N.bits_inj. intro n. rewrite N.ldiff_spec. change max_enum_bits with 3.
  assert (E1 : N.testbit 1 n = (n =? 0)) by (change 1 with (2 ^ 0) at 1; rewrite N.pow2_bits_eqb; apply N.eqb_sym).
  rewrite E1. destruct (N.lt_ge_cases n 32).
  - rewrite N.mod_pow2_bits_low by assumption. rewrite N.shiftr_spec', N.land_spec, bits_type_info_mask, bits_of_info by assumption.
    replace (n + 3 <? 3) with false by (symmetry; apply N.ltb_ge; lia). destruct (N.eq_dec n 0) as [En|En].
    + rewrite En. rewrite andb_false_r. symmetry. apply andb_false_r.
    + replace (n =? 0) with false by (symmetry; apply N.eqb_neq; exact En). replace (n + 3 =? 3) with false by (symmetry; apply N.eqb_neq; lia). replace (n + 3 - 3) with n by lia.
      replace (4 <=? n + 3) with true by (symmetry; apply N.leb_le; lia). replace (n + 3 <? 36) with true by (symmetry; apply N.ltb_lt; lia). cbn [andb negb]. rewrite !andb_true_r. reflexivity.
  - rewrite N.mod_pow2_bits_high by assumption. rewrite (bit_high (info_bits i) 32) by (try assumption; apply info_bits_bound; assumption). reflexivity.
Qed.
Lemma ldiff_1 a : N.ldiff a 1 = 2 * (a / 2).
Proof. replace (2 * (a / 2)) with (N.shiftl (N.shiftr a 1) 1) by (rewrite N.shiftl_mul_pow2, N.shiftr_div_pow2; change (2 ^ 1) with 2; lia). change 1 with (N.ones 1) at 1. rewrite N.ldiff_ones_r. reflexivity. Qed.
Definition clear_low (i : type_info) : type_info := mkInfo (2 * (ti_code i / 2)) (ti_bytes i) (ti_alignment i) (ti_lanes i).
Lemma bits_info_bits i : described i -> bits_info (info_bits i) = i.
Proof.
  intros (H1 & H2 & H3 & H4). destruct i as [c b a l]. cbn [ti_code ti_bytes ti_alignment ti_lanes] in *. unfold bits_info, info_bits. cbn [ti_code ti_bytes ti_alignment ti_lanes].
  change (2 ^ 16) with (256 * 256). change (2 ^ 24) with (256 * 256 * 256). change (2 ^ 8) with 256.
  assert (D : forall x y, x < 256 -> (x + 256 * y) mod 256 = x /\ (x + 256 * y) / 256 = y).
  { intros x y Hx. replace (x + 256 * y) with (x + y * 256) by lia. rewrite N.mod_add, N.div_add by lia. rewrite N.mod_small, N.div_small by exact Hx. split; lia. }
  rewrite <- !N.div_div by lia. destruct (D c (b + 256 * (a + 256 * l)) H1) as [E1 E2]. rewrite E1, E2. destruct (D b (a + 256 * l) H2) as [E3 E4]. rewrite E3, E4. destruct (D a l H3) as [E5 E6]. rewrite E5, E6. rewrite N.mod_small by exact H4. reflexivity.
Qed.
Lemma clear_described i : described i -> described (clear_low i).
Proof. intros (H1 & H2 & H3 & H4). unfold described, clear_low. cbn [ti_code ti_bytes ti_alignment ti_lanes]. pose proof (N.mul_div_le (ti_code i) 2 ltac:(lia)). repeat split; lia. Qed.
Lemma clear_bits i : 2 * (info_bits i / 2) = info_bits (clear_low i).
Proof.
  unfold info_bits, clear_low. cbn [ti_code ti_bytes ti_alignment ti_lanes]. set (r := ti_bytes i + _). change (2 ^ 8) with (128 * 2).
  replace (ti_code i + 128 * 2 * r) with (128 * r * 2 + ti_code i) by lia. rewrite N.div_add_l by lia. lia.
Qed.
Lemma of_info_get i e : described i -> e < 8 -> get_type_info (of_info i e) = clear_low i.
Proof. intros Hi He. unfold get_type_info. rewrite read_bits by assumption. rewrite ldiff_1, clear_bits. apply bits_info_bits. apply clear_described. exact Hi. Qed.
Lemma clear_id i : clear_low i = i <-> N.even (ti_code i) = true.
Proof.
  destruct i as [c b a l]. unfold clear_low. cbn [ti_code ti_bytes ti_alignment ti_lanes]. rewrite N.even_spec. split.
  - intro E. injection E as E. exists (c / 2). symmetry. exact E.
  - intros [k ->]. f_equal. replace (2 * k) with (k * 2) by lia. rewrite N.div_mul by lia. lia.
Qed.

(** *** Changing the tag *)
Lemma bits_above64 m n : m < 2 ^ 64 -> 64 <= n -> N.testbit m n = false. Proof. intros. apply (bit_high m 64); assumption. Qed.
Lemma bits_update m e n : m < 2 ^ 64 -> N.testbit (update_enumeration m e) n = if n <? 3 then N.testbit e n else N.testbit m n.
Proof.
  intros Hm. unfold update_enumeration. rewrite N.lor_spec, !N.land_spec, N.lor_spec, bits_pointer_mask, bits_mode_mask, bits_enum_mask.
  destruct (N.ltb_spec n 3).
  - replace (4 <=? n) with false by (symmetry; apply N.leb_gt; lia). replace (n =? 3) with false by (symmetry; apply N.eqb_neq; lia). cbn [andb orb]. rewrite andb_false_r. cbn [orb]. apply andb_true_r.
  - rewrite andb_false_r, orb_false_r. destruct (N.eqb_spec n 3); [rewrite orb_true_r; apply andb_true_r|]. rewrite orb_false_r. replace (4 <=? n) with true by (symmetry; apply N.leb_le; lia). cbn [andb].
    destruct (N.ltb_spec n 64); [apply andb_true_r|]. rewrite (bits_above64 m n Hm) by assumption. reflexivity.
Qed.
Lemma of_type_bound p e : type_object p -> e < 8 -> of_type p e < 2 ^ 64.
Proof.
  intros [Hp Hp'] He. destruct (N.eq_dec (of_type p e) 0) as [->|Hz]; [lia|]. apply N.log2_lt_pow2; [lia|]. unfold of_type. rewrite N.log2_lor.
  apply N.max_lub_lt; [|].
  - destruct (N.eq_dec p 0) as [->|]; [change (N.log2 0) with 0; lia|apply N.log2_lt_pow2; lia].
  - destruct (N.eq_dec e 0) as [->|]; [change (N.log2 0) with 0; lia|]. apply N.log2_lt_pow2; [lia|]. apply N.lt_trans with 8; [exact He|reflexivity].
Qed.
Lemma of_info_bound i e : described i -> e < 8 -> of_info i e < 2 ^ 64.
Proof.
  intros Hi He. destruct (N.eq_dec (of_info i e) 0) as [->|Hz]; [lia|]. apply N.log2_lt_pow2; [lia|]. destruct (N.lt_ge_cases (N.log2 (of_info i e)) 64) as [H|H]; [exact H|].
  pose proof (N.bit_log2 _ Hz) as B. rewrite bits_of_info in B by assumption. replace (N.log2 (of_info i e) <? 3) with false in B by (symmetry; apply N.ltb_ge; lia).
  replace (N.log2 (of_info i e) =? 3) with false in B by (symmetry; apply N.eqb_neq; lia). rewrite (bit_high (info_bits i) 32) in B; [discriminate|apply info_bits_bound; exact Hi|lia].
Qed.
Lemma update_type p e e' : type_object p -> e < 8 -> e' < 8 -> update_enumeration (of_type p e) e' = of_type p e'.
Proof.
  intros Hp He He'. apply N.bits_inj. intro n. rewrite bits_update by (apply of_type_bound; assumption). unfold of_type. rewrite !N.lor_spec, (bits_small e n He), (bits_small e' n He').
  destruct (N.ltb_spec n 3); [|reflexivity]. destruct Hp as [Hp _]. rewrite (bit_low p n Hp) by lia. reflexivity.
Qed.
Lemma update_info i e e' : described i -> e < 8 -> e' < 8 -> update_enumeration (of_info i e) e' = of_info i e'.
Proof. intros Hi He He'. apply N.bits_inj. intro n. rewrite bits_update by (apply of_info_bound; assumption). rewrite !bits_of_info by assumption. destruct (n <? 3); reflexivity. Qed.

(** *** Which words are equal *)
Lemma of_type_inj p e p' e' : type_object p -> type_object p' -> e < 8 -> e' < 8 -> of_type p e = of_type p' e' -> p = p' /\ e = e'.
Proof. intros Hp Hp' He He' E. split; [rewrite <- (of_type_get p e), <- (of_type_get p' e') by assumption|rewrite <- (of_type_enum p e), <- (of_type_enum p' e') by assumption]; rewrite E; reflexivity. Qed.
Lemma of_type_info p e i e' : type_object p -> described i -> e < 8 -> e' < 8 -> of_type p e <> of_info i e'.
Proof. intros Hp Hi He He' E. pose proof (of_type_pointer p e Hp He) as H. rewrite E, of_info_pointer in H by assumption. discriminate. Qed.
Lemma of_info_eq i e i' e' : described i -> described i' -> e < 8 -> e' < 8 -> (of_info i e = of_info i' e' <-> clear_low i = clear_low i' /\ e = e').
Proof.
  intros Hi Hi' He He'. split.
  - intro E. split; [rewrite <- (of_info_get i e), <- (of_info_get i' e') by assumption|rewrite <- (of_info_enum i e), <- (of_info_enum i' e') by assumption]; rewrite E; reflexivity.
  - intros [E ->]. assert (B : N.ldiff (info_bits i) 1 = N.ldiff (info_bits i') 1) by (rewrite !ldiff_1, !clear_bits, E; reflexivity).
    apply N.bits_inj. intro n. rewrite !bits_of_info by assumption. destruct (N.ltb_spec n 3); [reflexivity|]. destruct (N.eqb_spec n 3); [reflexivity|].
    assert (F : N.testbit (N.ldiff (info_bits i) 1) (n - 3) = N.testbit (N.ldiff (info_bits i') 1) (n - 3)) by (rewrite B; reflexivity).
    rewrite !N.ldiff_spec in F. assert (E1 : N.testbit 1 (n - 3) = false) by (change 1 with (2 ^ 0) at 1; rewrite N.pow2_bits_eqb; apply N.eqb_neq; lia).
    rewrite E1 in F. cbn [negb] in F. rewrite !andb_true_r in F. exact F.
Qed.
Lemma null_type p e : type_object p -> e < 8 -> (is_null (of_type p e) = true <-> p = 0 /\ e = 0).
Proof. intros Hp He. unfold is_null. rewrite N.eqb_eq. unfold of_type. apply N.lor_eq_0_iff. Qed.
Lemma null_info i e : described i -> e < 8 -> is_null (of_info i e) = false.
Proof. intros Hi He. unfold is_null. apply N.eqb_neq. intro E. pose proof (of_info_pointer i e Hi He) as H. rewrite E in H. discriminate. Qed.
