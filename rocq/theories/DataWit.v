(** Statements in the options of the code, and witnesses. *)
From Verif Require Export DataArr3.
Open Scope Z_scope.

Definition elem_opts (tensor : bool) (t : option stype) : dopts := if tensor then tensor_opts t else lie_opts t.
Lemma elem_opts_some b t : elem_opts b (Some t) = el_opts b t.
Proof. destruct b; reflexivity. Qed.
Lemma elem_opts_none b : elem_opts b None = el_opts0 b.
Proof. destruct b; reflexivity. Qed.

Section Wit.
  Variable V : Type.
  Variable of_int : Z -> V.
  Variable conv : stype -> V -> option V.
  Variable zero : stype -> V.
  Lemma w_elements tensor t v xs ks : plain v = true ->
    (coefficients of_int conv zero (elem_opts tensor (Some t)) v = Ok ((xs, ks), t) <-> element_data of_int conv tensor t v xs ks).
  Proof. rewrite elem_opts_some. apply coefficients_exact. Qed.
  Lemma held_same (a : arr V) : halved a -> forall o, a_mem a (held_info (a_info a)) o = a_mem a (a_info a) o.
  Proof. intros H o. unfold held_info. destruct (ti_code (a_info a)) eqn:E; try reflexivity. apply H. exact E. Qed.
  Lemma w_vector tensor t a n s : number_array a -> halved a -> a_shape a = [n] -> 0 < n -> (a_strides a = None /\ s = 1 \/ a_strides a = Some [s]) -> misread t a = false -> same_type_same_value conv t a ->
    (forall i, 0 <= i < n -> exists x, value_at conv t (elem1 a s i) x) ->
    exists r, increments of_int conv zero (Some t) (PDl a) = Ok ([r], t) /\ coefficients of_int conv zero (elem_opts tensor (Some t)) (PDl a) = Ok ((r, None), t) /\ vector r n (fun i x => value_at conv t (elem1 a s i) x).
  Proof.
    rewrite elem_opts_some. intros Hn Hh Hs Hp Hst Hm Hsame Hok. pose proof (held_same a Hh) as E.
    destruct (vector_read V of_int conv zero tensor t a n s Hn Hs Hp Hst Hm Hsame) as (r & R1 & R2 & R3 & R4).
    - intros i Hi. unfold helem1, elem1_as. rewrite E. apply Hok. exact Hi.
    - exists r. split; [exact R1|]. split; [exact R2|]. split; [exact R3|]. intros j Hj. destruct (R4 j Hj) as (x & X1 & X2). exists x. split; [exact X1|]. unfold helem1, elem1_as in X2. rewrite E in X2. exact X2.
  Qed.
  Lemma w_matrix t a m n s0 s1 : number_array a -> halved a -> a_shape a = [m; n] -> 0 < m -> 0 < n -> good_strides V a m n s0 s1 -> misread t a = false -> same_type_same_value conv t a ->
    (forall i j, 0 <= i < m -> 0 <= j < n -> exists x, value_at conv t (elem2 a s0 s1 i j) x) ->
    exists rows, increments of_int conv zero (Some t) (PDl a) = Ok (rows, t) /\ matrix rows m n (fun i j x => value_at conv t (elem2 a s0 s1 i j) x).
  Proof.
    intros Hn Hh Hs Hp Hp' Hst Hm Hsame Hok. pose proof (held_same a Hh) as E.
    destruct (matrix_read V of_int conv zero t a m n s0 s1 Hn Hs Hp Hp' Hst Hm Hsame) as (rows & R1 & R2 & R3).
    - intros i j Hi Hj. unfold helem2, elem2_as. rewrite E. apply Hok; assumption.
    - exists rows. split; [exact R1|]. split; [exact R2|]. intros i Hi. destruct (R3 i Hi) as (r & A & B & C). exists r. split; [exact A|]. split; [exact B|]. intros j Hj. destruct (C j Hj) as (x & X1 & X2).
      exists x. split; [exact X1|]. unfold helem2, elem2_as in X2. rewrite E in X2. exact X2.
  Qed.
  Lemma w_overlap t a m n s0 : number_array a -> halved a -> a_shape a = [m; n] -> 1 < m -> 1 < n -> a_strides a = Some [s0; 1] -> s0 <> n -> misread t a = false -> same_type_same_value conv t a ->
    (forall i j, 0 <= i < m -> 0 <= j < n -> exists x, value_at conv t (elem2 a s0 1 i j) x) ->
    exists rows, increments of_int conv zero (Some t) (PDl a) = Ok (rows, t) /\
      matrix rows m n (fun i j x => let k := i * n + j in let p := Z.min k (m - 1) in if k <? m - 1 + n then value_at conv t (elem2 a s0 1 p (k - p)) x else x = zero t).
  Proof.
    intros Hn Hh Hs Hp Hp' Hst Hs0 Hm Hsame Hok. pose proof (held_same a Hh) as E.
    destruct (matrix_overlap V of_int conv zero t a m n s0 Hn Hs Hp Hp' Hst Hs0 Hm Hsame) as (rows & R1 & R2 & R3).
    - intros i j Hi Hj. unfold helem2, elem2_as. rewrite E. apply Hok; assumption.
    - exists rows. split; [exact R1|]. split; [exact R2|]. intros i Hi. destruct (R3 i Hi) as (r & A & B & C). exists r. split; [exact A|]. split; [exact B|]. intros j Hj. destruct (C j Hj) as (x & X1 & X2).
      exists x. split; [exact X1|]. cbv zeta in X2 |- *. destruct (i * n + j <? m - 1 + n); [|exact X2]. unfold helem2, elem2_as in X2. rewrite E in X2. exact X2.
  Qed.
  (** Unsigned elements are read as signed ones. *)
  Lemma w_unsigned t a n s : number_array a -> ti_code (a_info a) = TUInt -> a_shape a = [n] -> 0 < n -> (a_strides a = None /\ s = 1 \/ a_strides a = Some [s]) ->
    (forall i, 0 <= i < n -> exists x, value_at conv t (elem1_as (mkTI TInt (ti_bytes (a_info a))) a s i) x) ->
    exists r, increments of_int conv zero (Some t) (PDl a) = Ok ([r], t) /\ vector r n (fun i x => value_at conv t (elem1_as (mkTI TInt (ti_bytes (a_info a))) a s i) x).
  Proof.
    intros Hn Hu Hs Hp Hst Hok. assert (Hne : st_info t <> a_info a) by (intros E; rewrite <- E in Hu; destruct t; discriminate).
    assert (E : forall i, helem1 V a s i = elem1_as (mkTI TInt (ti_bytes (a_info a))) a s i) by (intros i; unfold helem1, held_info; rewrite Hu; reflexivity).
    destruct (vector_read V of_int conv zero false t a n s Hn Hs Hp Hst) as (r & R1 & R2 & R3 & R4).
    - unfold misread. replace (tinfo_eqb (st_info t) (a_info a)) with false by (symmetry; apply not_true_iff_false; rewrite tinfo_eqb_iff; exact Hne). reflexivity.
    - intros H. contradiction.
    - intros i Hi. rewrite E. apply Hok. exact Hi.
    - exists r. split; [exact R1|]. split; [exact R3|]. intros j Hj. destruct (R4 j Hj) as (x & X1 & X2). exists x. split; [exact X1|]. rewrite E in X2. exact X2.
  Qed.
  (** Elements of other types end the process when doubles are asked for. *)
  Lemma w_unreadable t a n : (t = SFloat \/ t = SDouble) -> ti_code (a_info a) = TOther -> a_shape a = [n] -> 0 < n -> a_strides a = None ->
    increments of_int conv zero (Some t) (PDl a) = UB.
  Proof.
    intros Ht Hu Hs Hp Hst. unfold increments. rewrite parse_some by discriminate. unfold check_size_and_type. cbn [stream_opts o_scalar o_kv andb is_kv_pair]. rewrite check_unfold. cbn [o_nested Z.ltb Z.compare negb].
    unfold check_array, stream_opts. cbn [o_nested]. rewrite Hs. change (0 + llen [n] <=? 2) with true. try change (negb (0 <? 2)) with false. cbn [bind compute_scalar_type o_type do_conversion convert_leaf lf_type lf_obj lf_shape lf_size lf_vt].
    unfold handle_dl. replace (tinfo_eqb (st_info t) (a_info a)) with false by (symmetry; apply not_true_iff_false; rewrite tinfo_eqb_iff; intros E; rewrite <- E in Hu; destruct Ht; subst t; discriminate).
    rewrite andb_false_r, Hs. unfold stride_copy. change (llen [n]) with 1. cbn [Z.eqb]. rewrite Hst. cbn [get_compressed_dims Z.eqb Pos.eqb]. unfold convert_copy.
    replace (readable_info (a_info a)) with false by (unfold readable_info; rewrite Hu; reflexivity). unfold allocate_leaf. cbn [lf_size fst zprod fold_right]. rewrite Z.mul_1_r, repeat_length.
    destruct (Z.to_nat n) eqn:E; [lia|]. destruct Ht; subst t; reflexivity.
  Qed.
  Lemma w_elements_typed tensor v xs ks t : plain v = true -> (forall i, element_types of_int conv tensor t v xs ks i -> ordinary i) ->
    (coefficients of_int conv zero (elem_opts tensor None) v = Ok ((xs, ks), t) <-> exists i, element_types of_int conv tensor t v xs ks i /\ t = common_type [i]).
  Proof. rewrite elem_opts_none. apply coefficients_typed. Qed.
  Lemma w_type_given tensor v : v <> PNone ->
    (forall rows t, increments of_int conv zero None v = Ok (rows, t) -> increments of_int conv zero (Some t) v = Ok (rows, t)) /\
    (forall c t, coefficients of_int conv zero (elem_opts tensor None) v = Ok (c, t) -> coefficients of_int conv zero (elem_opts tensor (Some t)) v = Ok (c, t)).
  Proof.
    intros Hv. split; intros r t H.
    - apply increments_none in H; [tauto|exact Hv].
    - rewrite elem_opts_none in H. rewrite elem_opts_some. apply coefficients_none in H; [tauto|exact Hv].
  Qed.
  Lemma w_keys t k k' x y : 0 <= k < 2 ^ 64 -> 0 <= k' < 2 ^ 64 -> number of_int conv t x y -> (exists i, known_type x i) ->
    increments of_int conv zero (Some t) (PDict [(PInt true k, x)]) = Ok ([[y]], t) /\ increments of_int conv zero (Some t) (PDict [(PInt true k', x)]) = Ok ([[y]], t).
  Proof.
    intros Hk Hk' Hx Hi. assert (G : forall k, 0 <= k < 2 ^ 64 -> increments of_int conv zero (Some t) (PDict [(PInt true k, x)]) = Ok ([[y]], t)).
    { intros j Hj. assert (Hp : plain (PDict [(PInt true j, x)]) = true) by (destruct x; try contradiction; reflexivity). apply increments_exact; [exact Hp|].
      apply (sr_row _ _ _ _ (PDict [(PInt true j, x)]) [y] (Some [j])).
      - intros (? & ? & ? & _). discriminate.
      - apply (row_dict _ _ _ _ _ [(PInt true j, x)] [(j, y)]); [exact Hi|]. constructor; [|constructor]. split; [split; [exact Hj|reflexivity]|exact Hx]. }
    split; apply G; assumption.
  Qed.
End Wit.

Lemma tuples_witness : zinc (Some SDouble) (PList [PTuple [int 1; int 2]; PTuple [int 3; int 4]]) = Ok ([[2; 4]], SDouble) /\
  zinc (Some SDouble) (PList [PList [int 1; int 2]; PList [int 3; int 4]]) = Ok ([[1; 2]; [3; 4]], SDouble).
Proof. split; reflexivity. Qed.
Definition every8 : arr Z := mkArr (mkTI TFloat 8) [3] (Some [8]) (fun _ => mem8 24).
Lemma sliced_witness : elem1 every8 8 1 = Some 8 /\ zinc (Some SDouble) (PDl every8) = Ok ([[0; 1; 2]], SDouble).
Proof. split; reflexivity. Qed.
Definition broadcast : arr Z := mkArr (mkTI TFloat 8) [3] (Some [0]) (fun _ => mem8 1).
Lemma broadcast_witness : (forall i, elem1 broadcast 0 i = Some 0) /\ zinc (Some SDouble) (PDl broadcast) = UB.
Proof. split; [intros i; unfold elem1, elem1_as; rewrite Z.mul_0_r; reflexivity|reflexivity]. Qed.
Definition columns : arr Z := mkArr (mkTI TFloat 8) [3; 2] (Some [4; 1]) (fun _ => mem8 12).
Lemma columns_witness : (forall i j, 0 <= i < 3 -> 0 <= j < 2 -> elem2 columns 4 1 i j = Some (4 * i + j)) /\ zinc (Some SDouble) (PDl columns) = Ok ([[0; 4]; [8; 9]; [0; 0]], SDouble).
Proof.
  split; [|reflexivity]. intros i j Hi Hj. assert (i = 0 \/ i = 1 \/ i = 2) as [-> |[-> | ->]] by lia; assert (j = 0 \/ j = 1) as [-> | ->] by lia; reflexivity.
Qed.
(** The bytes 200 and 7. *)
Definition bytes2 : arr Z := mkArr (mkTI TUInt 1) [2] None (fun ty o => let v := if o =? 0 then 200 else 7 in
  if (0 <=? o) && (o <? 2) then Some (match ti_code ty with TInt => if v <? 128 then v else v - 256 | _ => v end) else None).
Lemma unsigned_witness : elem1 bytes2 1 0 = Some 200 /\ elem1 bytes2 1 1 = Some 7 /\ zinc (Some SDouble) (PDl bytes2) = Ok ([[-56; 7]], SDouble).
Proof. repeat split; reflexivity. Qed.
Definition small_bytes : arr Z := mkArr (mkTI TUInt 1) [2; 2] (Some [1; 2]) (fun ty o => if (0 <=? o) && (o <? 4) then Some (o + 5) else None).
Lemma small_bytes_ex : number_array small_bytes /\ halved small_bytes /\ zinc (Some SDouble) (PDl small_bytes) = Ok ([[5; 7]; [6; 8]], SDouble).
Proof. split; [cbn; auto|]. split; [intros _ o; reflexivity|reflexivity]. Qed.
Definition scalar0 : arr Z := mkArr (mkTI TFloat 8) [] None (fun _ => mem8 1).
Lemma zero_dim_witness : zinc (Some SDouble) (PDl scalar0) = UB /\ zco (tensor_opts (Some SRational)) (PDl scalar0) = Ok (([0], None), SRational).
Proof. split; reflexivity. Qed.
Definition one_elem : arr Z := mkArr (mkTI TFloat 8) [] None (fun _ o => if o =? 0 then Some 7 else None).
Lemma zero_dim_value_witness : a_mem one_elem (a_info one_elem) 0 = Some 7 /\ zco (tensor_opts (Some SDouble)) (PDl one_elem) = Ok (([7], None), SDouble) /\ zco (tensor_opts (Some SRational)) (PDl one_elem) = Ok (([0], None), SRational).
Proof. repeat split; reflexivity. Qed.
Definition f_order : arr Z := mkArr (mkTI TFloat 8) [2; 2] (Some [8; 16]) (fun _ => mem8 4).
Lemma fortran_buf_witness : a_mem f_order (a_info f_order) (0 * 8 + 1 * 16) = Some 2 /\ zinc (Some SDouble) (PBuf f_order) = Ok ([[0; 1]; [2; 3]], SDouble).
Proof. split; reflexivity. Qed.
Lemma foreign_witness : zinc (Some SDouble) (PList [foreign 1; dbl 2]) = Throw /\ zinc (Some SDouble) (PList [dbl 1; foreign 2]) = Ok ([[1; 2]], SDouble).
Proof. split; reflexivity. Qed.
Lemma first_entry_witness : zinc None (PList [dbl 1; rat 2]) = Ok ([[1; 2]], SDouble) /\ zinc None (PList [rat 2; dbl 1]) = Ok ([[2; 1]], SRational).
Proof. split; reflexivity. Qed.
Lemma bfloat_witness : compute_type_promotion (mkTI TBFloat 2) (mkTI TFloat 4) = Ok (mkTI TBFloat 2) /\ compute_type_promotion (mkTI TFloat 4) (mkTI TBFloat 2) = Ok (mkTI TFloat 4).
Proof. split; reflexivity. Qed.

(** Cases that meet the hypotheses. *)
Definition some_rows : pyval Z := PList [PList [int 1; dbl 2]; PDict [(int 3, dbl 5); (int 1, dbl 4)]; PLieD SDouble [7; 8; 9]].
Lemma ex_rows : plain some_rows = true /\ zinc (Some SRational) some_rows = Ok ([[1; 2]; [5; 4]; [7; 8; 9]], SRational) /\
  zinc None some_rows = Ok ([[1; 2]; [5; 4]; [7; 8; 9]], SDouble) /\ zco (lie_opts (Some SRational)) (PDict [(int 3, dbl 5); (int 1, dbl 4)]) = Ok (([5; 4], Some [3; 1]), SRational).
Proof. repeat split; reflexivity. Qed.
Definition strided1 : arr Z := mkArr (mkTI TFloat 8) [3] (Some [3]) (fun _ => mem8 9).
Definition strided2 : arr Z := mkArr (mkTI TFloat 8) [2; 3] (Some [1; 2]) (fun _ => mem8 6).
Lemma ex_strided : misread SDouble strided1 = false /\ misread SDouble strided2 = false /\ good_strides Z strided2 2 3 1 2 /\
  zinc (Some SDouble) (PDl strided1) = Ok ([[0; 3; 6]], SDouble) /\ zinc (Some SDouble) (PDl strided2) = Ok ([[0; 2; 4]; [1; 3; 5]], SDouble) /\
  zinc (Some SRational) (PList [PDl strided1; PDl strided1]) = Ok ([[0; 3; 6]; [0; 3; 6]], SRational).
Proof. split; [reflexivity|]. split; [reflexivity|]. split; [right; split; [reflexivity|left; discriminate]|]. repeat split; reflexivity. Qed.
