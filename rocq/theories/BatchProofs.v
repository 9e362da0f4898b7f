(** Proofs about calls on arrays with batch dimensions. *)
From Verif Require Export BatchSim TensorTop AntiProofs.
From Verif Require Import Mem.
Open Scope Z_scope.

(** Least significant dimension first: index number [k]. *)
Fixpoint unflat (rsh : list Z) (k : Z) : list Z :=
  match rsh with [] => [] | n :: rsh' => k mod n :: unflat rsh' (k / n) end.
Definition nth_index (sh : list Z) (k : Z) : list Z := rev (unflat (rev sh) k).
Fixpoint flat (rsh I : list Z) : Z :=
  match rsh, I with n :: rsh', i :: I' => i + n * flat rsh' I' | _, _ => 0 end.

Lemma zprod_app a b : zprod (a ++ b) = zprod a * zprod b.
Proof. unfold zprod. induction a as [|x a IH]; cbn [app fold_right]; [destruct (fold_right Z.mul 1 b); lia|]. rewrite IH. ring. Qed.
Lemma zprod_rev a : zprod (rev a) = zprod a.
Proof. induction a as [|x a IH]; [reflexivity|]. cbn [rev]. rewrite zprod_app, IH. unfold zprod. cbn [fold_right]. ring. Qed.
Lemma zprod_pos a : Forall (fun n => 0 < n) a -> 0 < zprod a.
Proof. induction 1; unfold zprod in *; cbn [fold_right]; nia. Qed.
Lemma zprod_cons x a : zprod (x :: a) = x * zprod a. Proof. reflexivity. Qed.
Lemma in_box_rev sh I : in_box sh I <-> in_box (rev sh) (rev I).
Proof.
  assert (K : forall sh I, in_box sh I -> in_box (rev sh) (rev I)).
  { induction 1; cbn [rev]; [constructor|]. apply Forall2_app; auto. }
  split; [apply K|]. intros H. apply K in H. rewrite !rev_involutive in H. auto.
Qed.
Lemma unflat_len rsh : forall k, length (unflat rsh k) = length rsh.
Proof. induction rsh; intros; cbn; auto. Qed.
Lemma unflat_box rsh : Forall (fun n => 0 < n) rsh -> forall k, in_box rsh (unflat rsh k).
Proof. induction 1; intros k; cbn [unflat]; constructor; [apply Z.mod_pos_bound; auto|apply IHForall]. Qed.
Lemma flat_bound rsh I : in_box rsh I -> 0 <= flat rsh I < zprod rsh.
Proof. induction 1; cbn [flat]; [cbn; lia|]. rewrite zprod_cons. nia. Qed.
Lemma unflat_flat rsh I : in_box rsh I -> unflat rsh (flat rsh I) = I.
Proof.
  induction 1 as [|n i rsh I Hi H IH]; cbn [flat unflat]; auto. f_equal.
  - rewrite (Z.mul_comm n), Z.mod_add by lia. apply Z.mod_small. lia.
  - rewrite (Z.mul_comm n), Z.div_add, Z.div_small, Z.add_0_l by lia. auto.
Qed.
Lemma flat_unflat rsh : Forall (fun n => 0 < n) rsh -> forall k, 0 <= k < zprod rsh -> flat rsh (unflat rsh k) = k.
Proof.
  induction 1 as [|n rsh Hn H IH]; intros k Hk; cbn [flat unflat]; [cbn in Hk; lia|].
  rewrite zprod_cons in Hk. rewrite IH; [pose proof (Z.div_mod k n ltac:(lia)); lia|].
  split; [apply Z.div_pos; lia|]. apply Z.div_lt_upper_bound; lia.
Qed.
Lemma adv_unflat rsh : Forall (fun n => 0 < n) rsh -> forall k, 0 <= k -> adv_r (unflat rsh k) rsh = unflat rsh (k + 1).
Proof.
  induction 1 as [|n rsh Hn H IH]; intros k Hk; cbn [unflat adv_r]; auto.
  pose proof (Z.div_mod k n ltac:(lia)) as E. pose proof (Z.mod_pos_bound k n Hn) as B.
  destruct (k mod n + 1 <? n) eqn:C; [apply Z.ltb_lt in C|apply Z.ltb_ge in C].
  - assert (D : (k + 1) / n = k / n) by (symmetry; apply Z.div_unique with (k mod n + 1); lia).
    assert (D' : (k + 1) mod n = k mod n + 1) by (symmetry; apply Z.mod_unique with (k / n); lia).
    rewrite D, D'. reflexivity.
  - assert (D : (k + 1) / n = k / n + 1) by (symmetry; apply Z.div_unique with 0; lia).
    assert (D' : (k + 1) mod n = 0) by (symmetry; apply Z.mod_unique with (k / n + 1); lia).
    rewrite D, D', IH; [reflexivity|]. apply Z.div_pos; lia.
Qed.

Section Odometer.
  Variable sh : list Z.
  Hypothesis Hpos : Forall (fun n => 0 < n) sh.
  Let Hr : Forall (fun n => 0 < n) (rev sh). Proof. apply Forall_rev. auto. Qed.
  Lemma nth_index_len k : length (nth_index sh k) = length sh.
  Proof. unfold nth_index. rewrite rev_length, unflat_len, rev_length. auto. Qed.
  Lemma nth_index_box k : in_box sh (nth_index sh k).
  Proof. apply in_box_rev. unfold nth_index. rewrite rev_involutive. apply unflat_box. auto. Qed.
  Lemma nth_index_onto I : in_box sh I -> exists k, 0 <= k < zprod sh /\ nth_index sh k = I.
  Proof.
    intros H. apply in_box_rev in H. exists (flat (rev sh) (rev I)). split.
    - rewrite <- (zprod_rev sh). apply flat_bound; auto.
    - unfold nth_index. rewrite unflat_flat by auto. apply rev_involutive.
  Qed.
  Lemma nth_index_inj j k : 0 <= j < zprod sh -> 0 <= k < zprod sh -> nth_index sh j = nth_index sh k -> j = k.
  Proof.
    intros Hj Hk E. unfold nth_index in E. apply (f_equal (@rev Z)) in E. rewrite !rev_involutive in E.
    rewrite <- (zprod_rev sh) in *. rewrite <- (flat_unflat _ Hr j), <- (flat_unflat _ Hr k), E by auto. auto.
  Qed.
  Lemma advance_nth n k : 0 <= k -> advance (sh ++ [n]) (nth_index sh k ++ [0]) = nth_index sh (k + 1) ++ [0].
  Proof.
    intros Hk. unfold advance. rewrite !removelast_last, last_last. unfold nth_index. rewrite rev_involutive, adv_unflat by auto. auto.
  Qed.
  Lemma unflat_0 l : unflat l 0 = repeat 0 (length l).
  Proof. induction l as [|n l IH]; cbn [unflat length repeat]; auto. rewrite Zmod_0_l, Zdiv_0_l, IH. auto. Qed.
  Lemma repeat_snoc (A : Type) (x : A) m : repeat x m ++ [x] = repeat x (S m).
  Proof. induction m; cbn; auto. rewrite IHm. auto. Qed.
  Lemma rev_repeat (A : Type) (x : A) m : rev (repeat x m) = repeat x m.
  Proof. induction m; cbn [repeat rev]; auto. rewrite IHm. apply repeat_snoc. Qed.
  Lemma index_0 n : repeat 0 (length (sh ++ [n])) = nth_index sh 0 ++ [0].
  Proof. unfold nth_index. rewrite unflat_0, rev_repeat, rev_length, repeat_snoc, app_length. cbn [length]. f_equal. lia. Qed.
End Odometer.

Lemma dot_snoc0 I st : dot (I ++ [0]) st = dot I st.
Proof. revert st. induction I as [|i I IH]; intros [|s st]; cbn [app dot]; auto. rewrite IH. auto. Qed.
Lemma zero_no_box sh : Forall (fun n => 0 <= n) sh -> zprod sh = 0 -> forall I, ~ in_box sh I.
Proof. intros _ H I B. apply flat_bound in B. lia. Qed.
Lemma nonneg_cases sh : Forall (fun n => 0 <= n) sh -> Forall (fun n => 0 < n) sh \/ zprod sh = 0.
Proof.
  induction 1 as [|n sh Hn H IH]; [left; constructor|]. destruct (Z.eq_dec n 0) as [->|Hz]; [right; reflexivity|].
  destruct IH as [IH|IH]; [left; constructor; auto; lia|right; rewrite zprod_cons, IH; lia].
Qed.
Lemma zrange_at n k rest dn : zrange n = dn ++ k :: rest -> k = Z.of_nat (length dn) /\ 0 <= k < n.
Proof. intros E. destruct (zrange_split _ _ _ _ E). lia. Qed.

Section Generic.
  Variable R : Type.
  Notation buf := (buf R).
  (** The function object sees only the pieces it is given. *)
  Definition localfn (fn : core_fn R) : Prop := forall o n B0 ob OB ps cs, emb2 o n B0 ob OB ->
    Forall2 (fun b cB => emb (fst cB) b (snd cB)) ps cs ->
    osim (emb2 o n B0) (fn (Ptr 0) (map (fun b => (Ptr 0, b)) ps) ob) (fn (Ptr o) (map (fun c => (Ptr (fst c), snd c)) cs) OB).

  Variables (sz : Z) (sh : list Z) (n : Z) (out : nparr).
  Hypothesis Hsz : 0 < sz < 2 ^ 64.
  Hypothesis Hsh : Forall (fun n => 0 <= n) sh.

  (** Arguments with the lengths of their last dimensions. *)
  Definition argt := (nparr * buf * Z)%type.
  Definition arr_of (a : argt) : nparr := fst (fst a).
  Definition mem_of (a : argt) : buf := snd (fst a).
  Definition len_of (a : argt) : Z := snd a.
  Definition arg_usable (a : argt) : Prop := usable sz sh (arr_of a) (len_of a) (blen (mem_of a)).
  Definition arg_piece (I : list Z) (a : argt) : buf := piece (mem_of a) (start sz (arr_of a) I) (len_of a).
  Definition arg_list (as_ : list argt) : list (nparr * buf) := map fst as_.

  Lemma estride_self : estride sz sz = 1.
  Proof. unfold estride. rewrite Z.mod_small by lia. apply Z.div_same. lia. Qed.
  Lemma last_stride a m len : usable sz sh a m len -> nth (Z.to_nat (Z.of_nat (length (sh ++ [n])) - 1)) (np_strides a) 0 = sz.
  Proof.
    intros [_ (bs & E & L) _]. rewrite E, app_length. cbn [length]. rewrite app_nth2 by lia.
    replace (Z.to_nat (Z.of_nat (length sh + 1) - 1) - length bs)%nat with 0%nat by lia. reflexivity.
  Qed.
  Lemma cell_start a m len I : usable sz sh a m len -> in_box sh I -> cell sz (get_ptr a (I ++ [0])) = Ok (start sz a I).
  Proof.
    intros [_ _ H] HI. destruct (H I HI) as (D & _). unfold cell, get_ptr, start. rewrite dot_snoc0.
    apply Z.mod_divide in D; [|lia]. rewrite D. reflexivity.
  Qed.
  Lemma cells_start args I : Forall arg_usable args -> in_box sh I ->
    arg_cells sz (arg_list args) (I ++ [0]) = Ok (map (fun a => (start sz (arr_of a) I, mem_of a)) args).
  Proof.
    induction 1 as [|[[a b] m] args Ha H IH]; intros HI; cbn [arg_list map arg_cells fst]; auto.
    rewrite (cell_start a m (blen b)) by auto. cbn [bind]. unfold arg_list in IH. rewrite IH by auto. reflexivity.
  Qed.
  Lemma emb_piece (b : buf) c m : 0 <= c -> c + m <= blen b -> emb c (piece b c m) b.
  Proof. intros H1 H2. repeat split; auto. Qed.

  Lemma strides_one args : Forall arg_usable args ->
    forallb (fun s => s =? 1) (map (fun ab : nparr * buf => estride (nth (Z.to_nat (Z.of_nat (length (sh ++ [n])) - 1)) (np_strides (fst ab)) 0) sz) (arg_list args)) = true.
  Proof.
    induction 1 as [|[[a b] m] args Ha H IH]; cbn [arg_list map forallb fst]; auto.
    unfold arg_usable in Ha. cbn [arr_of fst mem_of snd len_of] in Ha. rewrite (last_stride a m _ Ha), estride_self. cbn. auto.
  Qed.

  Lemma batch_loop fn args ob : localfn fn -> usable sz sh out n (blen ob) -> separate sz sh out n -> Forall arg_usable args ->
    (forall I, in_box sh I -> exists p, fn (Ptr 0) (map (fun b => (Ptr 0, b)) (map (arg_piece I) args)) (piece ob (start sz out I) n) = Ok p) ->
    exists r, outer_loop sz out (arg_list args) fn ob = Ok r /\
      batch_result sz sh out n ob r (fun I p => fn (Ptr 0) (map (fun b => (Ptr 0, b)) (map (arg_piece I) args)) (piece ob (start sz out I) n) = Ok p).
  Proof.
    intros Hloc Hout Hsep Hargs Hone. unfold outer_loop, ndims. rewrite (us_shape _ _ _ _ _ Hout).
    rewrite removelast_last, (last_stride out n _ Hout), estride_self, (strides_one args Hargs). cbn [Z.eqb Pos.eqb andb].
    destruct (nonneg_cases sh Hsh) as [Hpos|Hz].
    2:{ rewrite Hz. cbn. eexists. split; [reflexivity|]. repeat split; auto. intros I HI. destruct (zero_no_box sh Hsh Hz I HI). }
    rewrite (index_0 sh n).
    set (P := fun (dn : list Z) (st : buf * list Z) =>
      let k := Z.of_nat (length dn) in
      snd st = nth_index sh k ++ [0] /\ blen (fst st) = blen ob /\
      (forall j, 0 <= j < k -> exists p, fn (Ptr 0) (map (fun b => (Ptr 0, b)) (map (arg_piece (nth_index sh j)) args)) (piece ob (start sz out (nth_index sh j)) n) = Ok p /\ blen p = n /\
        forall x, 0 <= x < n -> bat (fst st) (start sz out (nth_index sh j) + x) = bat p x) /\
      (forall x, (forall j, 0 <= j < k -> ~ (start sz out (nth_index sh j) <= x < start sz out (nth_index sh j) + n)) -> bat (fst st) x = bat ob x)).
    edestruct (for_inv P (zrange (zprod sh)) (ob, nth_index sh 0 ++ [0])) as (st & E & HP).
    3:{ rewrite E. cbn [bind]. eexists. split; [reflexivity|]. destruct HP as (_ & H1 & H2 & H3).
        assert (HL : Z.of_nat (length (zrange (zprod sh))) = zprod sh).
        { unfold zrange. rewrite zseq_length. pose proof (zprod_pos sh Hpos). lia. }
        rewrite HL in *. split; [auto|split].
        - intros I HI. destruct (nth_index_onto sh I HI) as (k & Hk & <-). apply H2. auto.
        - intros x Hx. apply H3. intros j Hj. apply Hx. apply nth_index_box; auto. }
    - unfold P. cbn [length fst snd]. repeat split; auto. intros j Hj. exfalso. lia.
    - intros dn x rest [cur ix] El (H1 & H2 & H3 & H4). cbn [fst snd] in *.
      pose proof (zprod_pos sh Hpos) as Hp. destruct (zrange_at _ _ _ _ El) as [Hx Hb]. rewrite <- Hx in *.
      assert (HI : in_box sh (nth_index sh x)) by (apply nth_index_box; auto).
      rewrite H1, (cell_start out n (blen ob)), cells_start by auto. cbn [bind]. cbv beta.
      destruct (Hone _ HI) as (p & Ep). destruct (us_cells _ _ _ _ _ Hout _ HI) as (_ & C1 & C2).
      assert (Emb : emb2 (start sz out (nth_index sh x)) n cur (piece ob (start sz out (nth_index sh x)) n) cur).
      { repeat split; auto; cbn [piece blen bat]; try lia. intros k Hk. apply H4. intros j Hj Hin.
        destruct (Hsep (nth_index sh j) (nth_index sh x)); auto using nth_index_box; try lia.
        intros E. apply nth_index_inj in E; auto; lia. }
      assert (Ea : Forall2 (fun (b : buf) (cB : Z * buf) => emb (fst cB) b (snd cB)) (map (arg_piece (nth_index sh x)) args)
        (map (fun a => (start sz (arr_of a) (nth_index sh x), mem_of a)) args)).
      { clear - Hargs HI. induction Hargs as [|a args Ha H IH]; cbn [map]; constructor; auto. cbn [fst snd].
        destruct (us_cells _ _ _ _ _ Ha _ HI) as (_ & D1 & D2). apply emb_piece; auto. }
      pose proof (Hloc _ _ _ _ _ _ _ Emb Ea) as S. rewrite Ep in S. destruct S as (r & Er & HR).
      rewrite Er. cbn [bind]. eexists. split; [reflexivity|]. unfold P. cbn [fst snd]. rewrite app_length. cbn [length].
      replace (Z.of_nat (length dn + 1)) with (x + 1) by lia.
      destruct HR as ((R1 & R2 & R3) & R4 & R5 & R6). repeat split.
      + apply advance_nth; auto. lia.
      + lia.
      + intros j Hj. destruct (Z.eq_dec j x) as [->|Hne].
        * exists p. split; [auto|split; [auto|]]. intros k Hk. apply R3. lia.
        * destruct (H3 j ltac:(lia)) as (q & Eq & Lq & Hq). exists q. split; [auto|split; [auto|]]. intros k Hk. rewrite R6; auto. intros Hin.
          destruct (Hsep (nth_index sh j) (nth_index sh x)); auto using nth_index_box; try lia.
          intros E'. apply nth_index_inj in E'; auto; lia.
      + intros k Hk. rewrite R6; [|apply Hk; lia]. apply H4. intros j Hj. apply Hk. lia.
  Qed.

  Lemma check_ok args len : usable sz sh out n len -> Forall arg_usable args ->
    forallb (fun ab : nparr * buf => check_dims (np_shape (fst ab)) (ndims (fst ab) - 1) (np_shape out) (ndims out - 1)) (arg_list args) = true.
  Proof.
    intros Ho. induction 1 as [|[[a b] m] args Ha H IH]; cbn [arg_list map forallb fst]; auto. unfold arg_list in IH. rewrite IH, andb_true_r.
    unfold check_dims, ndims. rewrite (us_shape _ _ _ _ _ Ho). unfold arg_usable in Ha. cbn [arr_of fst] in Ha. rewrite (us_shape _ _ _ _ _ Ha), !app_length.
    cbn [length]. rewrite Z.eqb_refl. cbn [andb]. apply forallb_forall. intros i Hi.
    unfold zrange in Hi. apply zseq_In in Hi.
    rewrite !app_nth1 by lia. apply Z.eqb_refl.
  Qed.
  Lemma batch_call fn args ob : localfn fn -> usable sz sh out n (blen ob) -> separate sz sh out n -> Forall arg_usable args ->
    (forall I, in_box sh I -> exists p, fn (Ptr 0) (map (fun b => (Ptr 0, b)) (map (arg_piece I) args)) (piece ob (start sz out I) n) = Ok p) ->
    exists r, array_call sz out (arg_list args) fn ob = Ok r /\
      batch_result sz sh out n ob r (fun I p => fn (Ptr 0) (map (fun b => (Ptr 0, b)) (map (arg_piece I) args)) (piece ob (start sz out I) n) = Ok p).
  Proof.
    intros Hloc Hout Hsep Hargs Hone. unfold array_call. rewrite (check_ok args _ Hout Hargs). cbn [negb].
    unfold ndims. rewrite (us_shape _ _ _ _ _ Hout), app_length. cbn [length].
    destruct (Z.ltb_spec (Z.of_nat (length sh + 1)) 1); [lia|]. apply batch_loop; auto.
  Qed.
End Generic.
Arguments localfn {R}. Arguments arg_piece {R}. Arguments arg_usable {R}. Arguments arg_list {R}.
