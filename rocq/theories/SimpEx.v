(** Simplified streams: pieces that are not dyadic, and examples. *)
From Coq Require Import ZifyBool Lqa Qround Lia.
From Verif Require Export SimpTop PwEx StreamEx.
From Verif Require Import StreamProofs StreamProofs2 StreamProofs3 DyadicProofs DyadicProofs2 PwProofs StreamAlign IntervalProofs2.
From Verif Require DyadicLemmas.
Open Scope Z_scope.

Section Over.
  Context {lie : Type}.
  Variables (is_zero : lie -> bool) (S : sigs lie) (ok : lie -> Prop) (ctx : actx lie) (smul : Q -> lie -> lie).
  Variable SD : sound is_zero S ok ctx.
  Variable SC : scaling S ok smul.
  Infix "===" := (sg_eq S) (at level 70).
  Notation okd d := (Forall (fun p : lie_piece lie => ok (snd p)) d).
  Variables (d1 d2 : list (lie_piece lie)) (pa pb : Q) (tp : itype) (x : lie).
  Notation d := (d1 ++ (mkRI pa pb tp, x) :: d2).
  Hypothesis HO : in_order d.
  Hypothesis HK : okd d.

  Lemma inside_loop a b : (pa <= a)%Q -> (a < b)%Q -> (b <= pb)%Q -> ~ (a == pa /\ b == pb)%Q -> pw_loop smul a b d = [smul ((pb - a) / (pb - pa))%Q x].
  Proof.
    intros A B C N. destruct HO as [O1 O2]. assert (L : forall q, In q d1 -> (ri_sup (fst q) <= pa)%Q /\ (ri_inf (fst q) < ri_sup (fst q))%Q).
    { intros q Hq. rewrite Forall_forall in O1. split; [|apply O1, in_or_app; auto]. clear -O2 Hq. induction d1 as [|y d' IH]; [contradiction|]. cbn [app] in O2. apply StronglySorted_inv in O2 as [O2 O3]. destruct Hq as [->|Hq]; [|auto].
      rewrite Forall_forall in O3. apply (O3 (mkRI pa pb tp, x)). apply in_or_app. right. left. reflexivity. }
    assert (R : forall q, In q d2 -> (pb <= ri_inf (fst q))%Q).
    { intros q Hq. clear -O2 Hq. induction d1 as [|y d' IH]; cbn [app] in O2; apply StronglySorted_inv in O2 as [O2 O3]; [|auto]. rewrite Forall_forall in O3. apply (O3 q Hq). }
    rewrite (loop_app smul) by (intros q Hq; destruct (L q Hq); lra).
    assert (E1 : pw_loop smul a b d1 = []).
    { clear -L A B. induction d1 as [|q d' IH]; [reflexivity|]. cbn [pw_loop]. destruct (L q (or_introl eq_refl)) as [X Y].
      rewrite (proj2 (qle_niff b (ri_inf (fst q)))) by lra. rewrite (proj2 (qle_iff (ri_sup (fst q)) a)) by lra. apply IH. intros q' Hq'. apply L. right. exact Hq'. }
    assert (E2 : pw_loop smul a b d2 = []).
    { destruct d2 as [|q d']; [reflexivity|]. cbn [pw_loop]. specialize (R q (or_introl eq_refl)). rewrite (proj2 (qle_iff b (ri_inf (fst q)))) by lra. reflexivity. }
    rewrite E1. cbn [app pw_loop fst snd ri_inf ri_sup]. rewrite E2. rewrite (proj2 (qle_niff b pa)) by lra. rewrite (proj2 (qle_niff pb a)) by lra.
    destruct (qle a pa && qle pb b) eqn:W.
    - exfalso. apply andb_true_iff in W as [W1 W2]. apply qle_iff in W1, W2. apply N. split; lra.
    - rewrite (proj2 (qle_iff pb pb)) by lra. reflexivity.
  Qed.

  (** The query of a piece that is no dyadic interval counts it more than once. *)
  Lemma over_counted tol w t fuel : (pa < pb)%Q -> (grid_floor pa tol == pa)%Q -> (grid_floor pb tol == pb)%Q -> (forall k n, ~ (pa == dy k n /\ pb == dy (k + 1) n)%Q) ->
    - 2 ^ 28 <= tol <= 2 ^ 28 -> window pa tol -> window pb tol -> (31 <= fuel)%nat -> pws_data w = d ->
    exists y f0 fs, pws_impl is_zero smul fuel w (mkRI pa pb t) tol ctx = Ok y /\ sg_of S y === covered_prod S smul (map (fun f => (f, x)) (f0 :: fs)) /\ (f0 == 1)%Q /\ fs <> [] /\ Forall (fun f => (0 < f)%Q) fs.
  Proof.
    intros Hlt Ga Gb ND Ht W1 W2 Hf Ew. assert (Hle : (pa <= pb)%Q) by lra.
    destruct (DyadicLemmas.dissection_thm pa pb tol Hle Ht W1 W2 fuel Hf) as (l & E & F & EE & _).
    assert (HB := PwProofs.cell_bound pa pb tol l ltac:(lia) W1 W2 EE F).
    unfold pws_impl. cbn [ri_inf ri_sup]. rewrite E, Ew. cbn [bind].
    set (f := fun i : dint => ((pb - to_param (mkD (di_k i) (di_n i))) / (pb - pa))%Q).
    assert (Cell : forall i, In i l -> (pa <= dy (di_k i) (di_n i))%Q /\ (dy (di_k i) (di_n i) < dy (di_k i + 1) (di_n i))%Q /\ (dy (di_k i + 1) (di_n i) <= pb)%Q).
    { intros i Hi. destruct (end_to_end_in _ _ _ (di_k i) (di_n i) EE) as [X Y]; [apply (in_map (fun i => (di_k i, di_n i))) in Hi; exact Hi|]. rewrite Ga in X. rewrite Gb in Y. split; [exact X|]. split; [|exact Y].
      unfold dy. apply Qmult_lt_r; [apply Qpow2_pos|]. rewrite <- Zlt_Qlt. lia. }
    assert (Ok1 : ok x). { rewrite Forall_forall in HK. apply (HK (mkRI pa pb tp, x)). apply in_or_app. right. left. reflexivity. }
    assert (G : exists xs, pw_pieces smul d ctx l = Ok xs /\ Forall ok xs /\ sg_prod S xs === covered_prod S smul (map (fun g => (g, x)) (map f l))).
    { clear E EE. induction l as [|i l IH]; cbn [pw_pieces map].
      - exists []. split; [reflexivity|]. split; [constructor|apply (sd_refl _ _ _ _ SD)].
      - apply Forall_cons_iff in F as [_ F]. apply Forall_cons_iff in HB as [[T K] HB]. destruct (IH F HB) as (xs & E1 & O & P). { intros j Hj. apply Cell. right. exact Hj. }
        destruct (clopen_ends i T K) as [D1 D2]. rewrite D1, D2, E1. cbn [bind]. eexists. split; [reflexivity|]. destruct (Cell i (or_introl eq_refl)) as (C1 & C2 & C3).
        assert (Ep : pw_impl smul d ctx (mkRI (to_param (mkD (di_k i) (di_n i))) (to_param (mkD (di_k i + 1) (di_n i))) (di_t i)) = cx_cbh ctx [smul (f i) x]).
        { unfold pw_impl. cbn [ri_inf ri_sup]. rewrite inside_loop; [reflexivity| | | |]; rewrite ?to_param_dy; auto. intros [Z1 Z2]. apply (ND (di_k i) (di_n i)). split; lra. }
        rewrite Ep. assert (O1 : Forall ok [smul (f i) x]) by (constructor; [apply (sc_ok _ _ _ SC), Ok1|constructor]). split; [constructor; [apply (sd_cbh_ok _ _ _ _ SD), O1|exact O]|].
        unfold covered_prod in *. cbn [map sg_prod fold_right fst snd]. apply (sd_mul _ _ _ _ SD); [|exact P].
        eapply (sd_trans _ _ _ _ SD); [apply (sd_cbh _ _ _ _ SD), O1|]. apply (sd_one_r _ _ _ _ SD). }
    destruct G as (xs & Ex & Ox & Px). destruct (drop_zeros is_zero S ok ctx smul SD d l xs Ex Ox) as (ys & Ey & Oy & Py). rewrite Ey. cbn [bind].
    destruct l as [|i l]; [cbn [map end_to_end] in EE; lra|]. exists (cx_cbh ctx ys), (f i), (map f l). split; [reflexivity|]. split.
    - eapply (sd_trans _ _ _ _ SD); [apply (sd_cbh _ _ _ _ SD), Oy|]. eapply (sd_trans _ _ _ _ SD); [exact Py|exact Px].
    - cbn [map end_to_end] in EE. destruct EE as [E1 E2]. split; [|split].
      + unfold f. rewrite to_param_dy, <- E1, Ga. field. lra.
      + intros Z. apply map_eq_nil in Z. subst l. cbn [map end_to_end] in E2. apply (ND (di_k i) (di_n i)). split; lra.
      + apply Forall_forall. intros g Hg. apply in_map_iff in Hg as (j & <- & Hj). destruct (Cell j (or_intror Hj)) as (C1 & C2 & C3). unfold f. rewrite to_param_dy. apply Qlt_shift_div_l; lra.
  Qed.
End Over.

(** Increments at 1/8, 5/8 and 7/8; cells of length 1/8. *)
Definition q_stream : stream Q := mkStream (lis_data [((1#8)%Q, 1%Q); ((5#8)%Q, 2%Q); ((7#8)%Q, 4%Q)]) 3 q_ctx (mkRI 0 1 Clopen).
Definition q0 (x : Q) : bool := Qeq_bool x 0.
Definition q_part : IntervalModel.partition := partition_new (mkRI 0 1 Clopen) [1#2; 3#4]%Q.
Lemma q_stream_ok : stream_ok (fun _ => True) q_stream.
Proof. split; [apply lis_data_spec|]. split; [apply Forall_forall; auto|]. unfold Qle; cbn; lia. Qed.
Lemma q_part_pieces i iv : piece q_part i = Ok iv -> iv = mkRI 0 (1#2) Clopen \/ iv = mkRI (1#2) (3#4) Clopen \/ iv = mkRI (3#4) 1 Clopen.
Proof.
  destruct i as [|[|[|i]]]; intros H; try (vm_compute in H; injection H as <-; auto). exfalso. unfold piece in H. change (length (p_pts q_part)) with 2%nat in H. cbn [Nat.ltb Nat.leb] in H. discriminate.
Qed.
Lemma q_part_fits i iv : piece q_part i = Ok iv -> fits_call q_stream q_ctx (QAt iv 2).
Proof. intros H. apply q_part_pieces in H as [->|[->| ->]]; fits_compute. Qed.
Lemma q_part_dyadic : dyadic_pieces q_part (Z.min 2 (st_res q_stream)).
Proof.
  intros i iv H. apply q_part_pieces in H as [->|[->| ->]]; [exists 0, 1|exists 2, 2|exists 3, 2]; (split; [cbn; lia|]); split; vm_compute; reflexivity.
Qed.
Lemma q_part_between x : In x [0; 1#2; 3#4; 1]%Q -> between_pieces q_part x.
Proof. intros H i iv P. apply q_part_pieces in P. cbn [In] in H. destruct H as [<-|[<-|[<-|[<-|[]]]]]; destruct P as [->|[->| ->]]; cbn [ri_inf ri_sup]; unfold Qle; cbn; lia. Qed.
Definition q_simple : pwstream Q := mkPws [(mkRI 0 (1#2) Clopen, 1); (mkRI (1#2) (3#4) Clopen, 2); (mkRI (3#4) 1 Clopen, 4)]%Q 2 q_ctx (mkRI 0 1 Clopen).
Lemma q_simple_is : val (simplify q0 0%Q 31 q_stream (mkRI 0 1 Clopen) [] q_part 2 q_ctx) = Some q_simple.
Proof. vm_compute. reflexivity. Qed.
Lemma q_simple_asked : fits_at q_simple (mkRI (1#2) 1 Clopen) 2 /\ pws_at q0 Qmult 31 q_simple (mkRI (1#2) 1 Clopen) 2 q_ctx = Ok 6%Q /\
  val (ask q0 0%Q 31 q_stream q_ctx [] (QAt (mkRI (1#2) 1 Clopen) 2)) = Some 6%Q.
Proof.
  split; [|split; vm_compute; reflexivity]. split; [unfold Qle; cbn; lia|]. split; [lia|]. split; unfold window; vm_compute; split; discriminate.
Qed.
(** The partition [0, 3/4), [3/4, 1): the query of the first piece gives 4 in place of 3. *)
Definition q_coarse : IntervalModel.partition := partition_new (mkRI 0 1 Clopen) [3#4]%Q.
Lemma q_coarse_over : exists w, val (simplify q0 0%Q 31 q_stream (mkRI 0 1 Clopen) [] q_coarse 2 q_ctx) = Some w /\
  (exists x, pws_at q0 Qmult 31 w (mkRI 0 (3#4) Clopen) 2 q_ctx = Ok x /\ (x == 4)%Q) /\ val (ask q0 0%Q 31 q_stream q_ctx [] (QAt (mkRI 0 (3#4) Clopen) 2)) = Some 3%Q.
Proof. eexists. split; [vm_compute; reflexivity|]. split; [eexists; split; [vm_compute; reflexivity|reflexivity]|vm_compute; reflexivity]. Qed.

(** Simplifying at a lower depth changes what the stream answers afterwards. *)
Definition h_stream : stream heis := mkStream [((1#16)%Q, (1, 0, 0)); ((3#16)%Q, (0, 1, 0))] 2 heis2 (mkRI 0 1 Clopen).
Lemma h_spoiled : exists w c before after, simplify heis_is_zero (0, 0, 0) 31 h_stream (mkRI 0 1 Clopen) [] (mkP (mkRI 0 1 Clopen) []) 2 heis1 = Ok (w, c) /\
  val (ask heis_is_zero (0, 0, 0) 31 h_stream heis2 [] (QAt (mkRI 0 1 Clopen) 2)) = Some before /\
  val (ask heis_is_zero (0, 0, 0) 31 h_stream heis2 c (QAt (mkRI 0 1 Clopen) 2)) = Some after /\ before <> after.
Proof. eexists _, _, _, _. split; [vm_compute; reflexivity|]. split; [vm_compute; reflexivity|]. split; [vm_compute; reflexivity|discriminate]. Qed.
