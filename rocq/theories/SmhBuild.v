(** The finished matrix, and every history of the sparse matrix builder. *)
From Coq Require Import ZifyBool Sorted.
From Verif Require Import Outcome Alg Words Mem SparseModel SparseProofs HallTab HallProofs SmhModel SmhProofs.
Local Open Scope Z_scope.

Lemma split_rev {A} (l : list A) k : (k < length l)%nat -> exists l2 c l1, l = l2 ++ c :: l1 /\ length l1 = k.
Proof.
  intros Hk. destruct (nth_error l (length l - S k)) as [c|] eqn:E; [|apply nth_error_None in E; lia].
  destruct (nth_error_split _ _ E) as (l2 & l1 & El & Hl). exists l2, c, l1. split; auto. apply (f_equal (@length A)) in El. rewrite app_length in El. cbn [length] in El. lia.
Qed.
Lemma nth_rev_split {A} (l2 : list A) c l1 d : nth (length l1) (rev (l2 ++ c :: l1)) d = c.
Proof. rewrite rev_app_distr. cbn [rev]. rewrite <- app_assoc, app_nth2; rewrite rev_length; [|lia]. rewrite Nat.sub_diag. reflexivity. Qed.

Section Build.
  Variable R : cring.
  Add Ring Rring_smb : (rth R).
  Variable isz : R -> bool.
  Hypothesis isz_ok : forall x, isz x = true <-> x = r0.
  Notation col := (list (Z * R)).
  Notation nz := (nz R isz). Notation rep := (rep R isz). Notation safe := (safe R isz). Notation finish := (finish R isz).
  Notation cval := (cval R). Notation cins := (cins R). Notation flat := (flat R). Notation tot := (tot R). Notation frs := (frs R).
  Notation ptrs := (ptrs R). Notation csorted := (csorted R).

  Record mat_cols (m : csmat R) (rc : list col) : Prop := mkMC {
    mc_n : cs_n m = zlen rc;
    mc_plen : blen (cs_off m) = zlen rc + 1;
    mc_ptr : ptrs rc (cs_off m);
    mc_last : bat (cs_off m) (zlen rc) = tot rc;
    mc_data : has (cs_data m) (map snd (flat rc));
    mc_idx : has (cs_idx m) (map fst (flat rc));
    mc_dlen : blen (cs_data m) = tot rc;
    mc_ilen : blen (cs_idx m) = tot rc }.

  Lemma build_ok h c r : rep h (c :: r) -> safe (c :: r) -> zlen (c :: r) = s_alloc h -> s_cols h = s_alloc h ->
    exists m, build_matrix isz h = Ok m /\ mat_cols m (filter nz c :: r) /\ cs_inner m = s_rows h.
  Proof.
    intros H Hsafe Hsz Hcols. unfold build_matrix. rewrite (rep_size _ _ _ _ H). replace (zlen (c :: r) =? s_alloc h) with true by lia. cbn [negb].
    rewrite (rp_fr _ _ _ _ H). cbn [SmhProofs.frs].
    assert (A := rp_arr _ _ _ _ H). cbn [SmhProofs.flat] in A.
    destruct (remove_zeros_ok R isz (flat r) c (s_data h) (s_idx h) A (rp_nz _ _ _ _ H) Hsafe) as (d' & i' & E1 & E2 & E3).
    rewrite zlen_flat in E1. rewrite E1. cbn [bind].
    assert (Nn := rp_nnz _ _ _ _ H). cbn [tl] in Nn. assert (Hp := rp_plen _ _ _ _ H). assert (Hz := zlen_pos (c :: r)).
    destruct (bset (s_ptr h) (zlen (c :: r)) (s_nnz h + zlen (filter nz c))) as [p'| | |] eqn:Ep; [|rewrite bset_ok in Ep by lia; discriminate..].
    cbn [bind]. assert (Hps : ptrs (c :: r) p') by (apply (ptrs_set _ _ _ _ _ _ Ep); [lia|apply (rp_ptr _ _ _ _ H)]).
    assert (Ht := tot_nonneg R (filter nz c :: r)). cbn [SmhProofs.tot] in Ht.
    unfold smh_resize. cbn [s_data s_idx s_fr s_ptr s_alloc s_nnz s_rows s_cols]. replace (s_nnz h + zlen (filter nz c) <? 0) with false by lia. cbn [bind].
    eexists. split; [reflexivity|]. cbn [s_data s_idx s_fr s_ptr s_alloc s_nnz s_rows s_cols]. split; [|reflexivity].
    rewrite bset_ok in Ep by lia. injection Ep as <-. destruct E3 as (B1 & B2 & B3).
    assert (Zf : zlen (map snd (flat r ++ filter nz c)) = s_nnz h + zlen (filter nz c)) by (rewrite zlen_map, zlen_app, zlen_flat; lia).
    assert (Zi : zlen (map fst (flat r ++ filter nz c)) = s_nnz h + zlen (filter nz c)) by (rewrite zlen_map, zlen_app, zlen_flat; lia).
    constructor; cbn [cs_n cs_off cs_data cs_idx SmhProofs.flat SmhProofs.tot SmhProofs.ptrs blen bat]; rewrite ?zlen_cons in *.
    - lia.
    - lia.
    - cbn [SmhProofs.ptrs bat] in Hps. exact Hps.
    - rewrite Z.eqb_refl. lia.
    - apply has_resize; auto. lia.
    - apply has_resize; auto. lia.
    - cbn. lia.
    - cbn. lia.
  Qed.

  Lemma ptrs_at p r1 : forall r2, ptrs (r2 ++ r1) p -> bat p (zlen (r2 ++ r1)) = tot (r2 ++ r1) -> bat p (zlen r1) = tot r1.
  Proof. induction r2 as [|c r2 IH]; cbn [app]; auto. intros Hp _. cbn [SmhProofs.ptrs] in Hp. destruct Hp. auto. Qed.
  Lemma flat_split r2 c r1 : exists l, flat (r2 ++ c :: r1) = flat r1 ++ c ++ l.
  Proof. induction r2 as [|d r2 (l & IH)]; cbn [app SmhProofs.flat]; [exists []; rewrite app_nil_r; auto|]. exists (l ++ d). rewrite IH, <- !app_assoc. reflexivity. Qed.

  Lemma mc_slice m r2 c r1 : mat_cols m (r2 ++ c :: r1) -> bat (cs_off m) (zlen r1) = tot r1 /\ bat (cs_off m) (zlen r1 + 1) = tot r1 + zlen c /\
    slice m (zlen r1) = zseq (tot r1) (length c) /\
    (forall n p, nth_error c n = Some p -> bat (cs_idx m) (tot r1 + Z.of_nat n) = fst p /\ bat (cs_data m) (tot r1 + Z.of_nat n) = snd p).
  Proof.
    intros H. assert (P1 := ptrs_at _ (c :: r1) _ (mc_ptr _ _ H) (mc_last _ _ H)).
    assert (P0 : bat (cs_off m) (zlen r1) = tot r1).
    { apply (ptrs_at _ r1 (r2 ++ [c])); rewrite <- app_assoc; [apply (mc_ptr _ _ H)|apply (mc_last _ _ H)]. }
    rewrite zlen_cons in P1. cbn [SmhProofs.tot] in P1. replace (1 + zlen r1) with (zlen r1 + 1) in P1 by lia. repeat split; auto.
    - unfold slice. rewrite P0, P1. f_equal. unfold zlen. lia.
    - destruct (flat_split r2 c r1) as (l & El). destruct (mc_idx _ _ H) as [_ X]. rewrite El, !map_app in X.
      replace (tot r1 + Z.of_nat n) with (Z.of_nat (length (flat r1) + n)) by (rewrite <- zlen_flat; unfold zlen; lia).
      apply X. rewrite nth_error_app2; rewrite map_length; [|lia]. replace (length (flat r1) + n - length (flat r1))%nat with n by lia.
      rewrite nth_error_app1; [|rewrite map_length; apply nth_error_Some; congruence]. rewrite nth_error_map, H0. reflexivity.
    - destruct (flat_split r2 c r1) as (l & El). destruct (mc_data _ _ H) as [_ X]. rewrite El, !map_app in X.
      replace (tot r1 + Z.of_nat n) with (Z.of_nat (length (flat r1) + n)) by (rewrite <- zlen_flat; unfold zlen; lia).
      apply X. rewrite nth_error_app2; rewrite map_length; [|lia]. replace (length (flat r1) + n - length (flat r1))%nat with n by lia.
      rewrite nth_error_app1; [|rewrite map_length; apply nth_error_Some; congruence]. rewrite nth_error_map, H0. reflexivity.
  Qed.

  Lemma sum_zseq_nth (f : Z -> R) (g : Z * R -> R) c : forall a, (forall n p, nth_error c n = Some p -> f (a + Z.of_nat n) = g p) -> sum (zseq a (length c)) f = sum c g.
  Proof.
    induction c as [|p c IH]; intros a H; cbn [length zseq sum]; auto. f_equal.
    - rewrite <- (H 0%nat p eq_refl). f_equal. cbn. lia.
    - apply IH. intros n q Hq. rewrite <- (H (S n) q Hq). f_equal. lia.
  Qed.
  Lemma mc_entry m r2 c r1 j : mat_cols m (r2 ++ c :: r1) -> entry m (zlen r1) j = cval c j.
  Proof.
    intros H. destruct (mc_slice _ _ _ _ H) as (_ & _ & Es & Hn). unfold entry. rewrite Es. apply sum_zseq_nth.
    intros n p Hp. destruct (Hn n p Hp) as [-> ->]. reflexivity.
  Qed.
  Lemma mc_valid m rc : mat_cols m rc -> (forall p, In p (flat rc) -> 0 <= fst p < cs_inner m) -> cs_valid m.
  Proof.
    intros H Hin. assert (Z0 := zlen_pos rc).
    assert (Sp : forall d, 0 <= d < cs_n m -> exists r2 c r1, rc = r2 ++ c :: r1 /\ zlen r1 = d).
    { intros d Hd. rewrite (mc_n _ _ H) in Hd. destruct (split_rev rc (Z.to_nat d)) as (r2 & c & r1 & E & El); [unfold zlen in Hd; lia|].
      exists r2, c, r1. split; auto. unfold zlen. lia. }
    constructor.
    - rewrite (mc_n _ _ H). auto.
    - rewrite (mc_plen _ _ H), (mc_n _ _ H). auto.
    - assert (X := ptrs_at (cs_off m) [] rc). rewrite app_nil_r in X. specialize (X (mc_ptr _ _ H) (mc_last _ _ H)). cbn in X. change (zlen []) with 0 in X. lia.
    - intros d Hd. destruct (Sp d Hd) as (r2 & c & r1 & -> & <-). destruct (mc_slice _ _ _ _ H) as (-> & -> & _). assert (X := zlen_pos c). lia.
    - rewrite (mc_n _ _ H), (mc_last _ _ H), (mc_dlen _ _ H). lia.
    - rewrite (mc_n _ _ H), (mc_last _ _ H), (mc_ilen _ _ H). lia.
    - intros d t Hd Ht. destruct (Sp d Hd) as (r2 & c & r1 & -> & <-). destruct (mc_slice _ _ _ _ H) as (E1 & E2 & _ & Hn). rewrite E1, E2 in Ht.
      destruct (nth_error c (Z.to_nat (t - tot r1))) as [p|] eqn:E; [|apply nth_error_None in E; unfold zlen in Ht; lia].
      destruct (Hn _ _ E) as [X _]. replace (tot r1 + Z.of_nat (Z.to_nat (t - tot r1))) with t in X by lia. rewrite X. apply Hin.
      destruct (flat_split r2 c r1) as (l & ->). apply in_app_iff. right. apply in_app_iff. left. eapply nth_error_In; eauto.
  Qed.

  Lemma cval_filter c j : cval (filter nz c) j = cval c j.
  Proof.
    induction c as [|p c IH]; cbn [filter]; auto. unfold nz at 1. destruct (isz (snd p)) eqn:E; cbn [negb].
    - apply isz_ok in E. rewrite IH. unfold SmhProofs.cval. cbn [sum]. rewrite E. destruct (fst p =? j); ring.
    - unfold SmhProofs.cval in *. cbn [sum]. rewrite IH. reflexivity.
  Qed.
  Lemma cval_sorted_in c p : csorted c -> In p c -> cval c (fst p) = snd p.
  Proof.
    unfold SmhProofs.csorted. induction c as [|q c IH]; [intros _ []|]. intros Hs Hp. inversion Hs as [|? ? Hs' Hf]; subst. rewrite Forall_forall in Hf.
    unfold SmhProofs.cval in *. cbn [sum]. destruct Hp as [->|Hp].
    - rewrite Z.eqb_refl. rewrite sum_zero; [ring|].
      intros y Hy. assert (X := Hf (fst y) (in_map fst _ _ Hy)). replace (fst y =? fst p) with false by lia. reflexivity.
    - assert (X := Hf (fst p) (in_map fst _ _ Hp)). replace (fst q =? fst p) with false by lia. rewrite (IH Hs' Hp). ring.
  Qed.
  Lemma cval_absent c j : ~ In j (map fst c) -> cval c j = r0.
  Proof.
    intros H. unfold SmhProofs.cval. apply sum_zero.
    intros p Hp. destruct (Z.eqb_spec (fst p) j) as [<-|]; auto. destruct H. apply in_map; auto.
  Qed.

  (** Insert a list of values in the current column. *)
  Definition cinsall (c : col) (l : list (Z * R)) : col := fold_left (fun c p => if isz (snd p) then c else cins c (fst p) (snd p)) l c.
  Lemma cval_cinsall l : forall c j, cval (cinsall c l) j = radd (cval c j) (cval l j).
  Proof.
    unfold cinsall. induction l as [|p l IH]; intros c j; cbn [fold_left].
    - unfold SmhProofs.cval at 3. cbn [sum]. ring.
    - rewrite IH. unfold SmhProofs.cval at 4. cbn [sum]. fold (cval l j). destruct (isz (snd p)) eqn:E.
      + apply isz_ok in E. rewrite E. destruct (fst p =? j); ring.
      + rewrite cval_cins. ring.
  Qed.
  Lemma cinsall_fst l : forall c x, In x (map fst (cinsall c l)) -> In x (map fst c) \/ In x (map fst l).
  Proof.
    unfold cinsall. induction l as [|p l IH]; intros c x; cbn [fold_left]; [auto|]. intros Hx. apply IH in Hx. cbn [map In]. destruct Hx as [Hx|Hx]; [|auto].
    destruct (isz (snd p)); [auto|]. apply cins_fst in Hx. intuition auto.
  Qed.
  Lemma cinsall_app l1 l2 c : cinsall c (l1 ++ l2) = cinsall (cinsall c l1) l2.
  Proof. unfold cinsall. apply fold_left_app. Qed.
End Build.
