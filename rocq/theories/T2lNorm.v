(** Scaling the columns of a matrix under construction in place. *)
From Coq Require Import ZifyBool Sorted.
From Verif Require Import Outcome Alg Words Mem Series SparseModel SparseProofs SmhModel SmhProofs SmhBuild SmhLemmas HallModel HallTab HallProofs L2tModel L2tProofs.
Local Open Scope Z_scope.

Section Norm.
  Variable R : cring.
  Add Ring Rring_t2n : (rth R).
  Variable isz : R -> bool.
  Hypothesis isz_ok : forall x, isz x = true <-> x = r0.
  Notation col := (list (Z * R)).
  Notation nz := (nz R isz). Notation flat := (flat R). Notation tot := (tot R). Notation frs := (frs R). Notation ptrs := (ptrs R).
  Notation ready := (ready R isz). Notation colk := (colk R).

  Lemma flat_app r2 r1 : flat (r2 ++ r1) = flat r1 ++ flat r2.
  Proof. induction r2 as [|c r2 IH]; cbn [app SmhProofs.flat]; [rewrite app_nil_r; auto|]. rewrite IH, app_assoc. reflexivity. Qed.
  Lemma tot_swap r2 (c c' : col) r1 : zlen c = zlen c' -> tot (r2 ++ c' :: r1) = tot (r2 ++ c :: r1).
  Proof. intros E. induction r2 as [|d r2 IH]; cbn [app SmhProofs.tot]; lia. Qed.
  Lemma zlen_swap {A} (r2 : list A) (c c' : A) r1 : zlen (r2 ++ c' :: r1) = zlen (r2 ++ c :: r1).
  Proof. rewrite !zlen_app, !zlen_cons. reflexivity. Qed.
  Lemma frs_swap r2 (c c' : col) r1 : zlen c = zlen c' -> frs (r2 ++ c' :: r1) = frs (r2 ++ c :: r1).
  Proof. intros E. induction r2 as [|d r2 IH]; cbn [app SmhProofs.frs]; [rewrite E; auto|]. rewrite IH, (tot_swap r2 c c' r1 E). reflexivity. Qed.
  Lemma ptrs_swap r2 (c c' : col) r1 p : zlen c = zlen c' -> ptrs (r2 ++ c :: r1) p -> ptrs (r2 ++ c' :: r1) p.
  Proof.
    intros E. induction r2 as [|d r2 IH]; cbn [app SmhProofs.ptrs]; auto. rewrite (zlen_swap r2 c c' r1), (tot_swap r2 c c' r1 E). intros [X Y]. auto.
  Qed.

  Lemma set_entry rows cols h r2 a j x b r1 y : ready rows cols h (r2 ++ (a ++ (j, x) :: b) :: r1) -> (nz (j, x) = true -> nz (j, y) = true) ->
    bget (s_data h) (tot r1 + zlen a) = Ok x /\
    exists d, bset (s_data h) (tot r1 + zlen a) y = Ok d /\
      ready rows cols (mkSmh d (s_idx h) (s_fr h) (s_ptr h) (s_alloc h) (s_nnz h) (s_rows h) (s_cols h)) (r2 ++ (a ++ (j, y) :: b) :: r1).
  Proof.
    intros [Hrep Hcap Hal Hrw Hcl] Hnz. set (c := a ++ (j, x) :: b) in *. set (c' := a ++ (j, y) :: b).
    assert (Ec : zlen c = zlen c') by (unfold c, c'; rewrite !zlen_app, !zlen_cons; reflexivity).
    assert (Efst : map fst c = map fst c') by (unfold c, c'; rewrite !map_app; reflexivity).
    destruct (rp_arr _ _ _ _ Hrep) as (A1 & A2 & A3).
    assert (Ef : forall z, map (@snd Z R) (flat (r2 ++ (a ++ (j, z) :: b) :: r1)) = map snd (flat r1 ++ a) ++ z :: map snd (b ++ flat r2)).
    { intros z. rewrite flat_app. cbn [SmhProofs.flat]. rewrite !map_app. cbn [map snd]. rewrite <- !app_assoc. reflexivity. }
    assert (Ez : zlen (map snd (flat r1 ++ a)) = tot r1 + zlen a) by (rewrite zlen_map, zlen_app, zlen_flat; reflexivity).
    unfold c in A1. rewrite Ef in A1. assert (G := has_get _ _ _ _ A1). rewrite Ez in G. split; [exact G|].
    destruct (has_set _ _ _ y _ A1) as (d & Ed & Ld & Hd). rewrite Ez in Ed. exists d. split; [exact Ed|].
    constructor; cbn [s_data s_alloc s_rows s_cols]; auto; [|lia]. constructor; cbn [s_data s_idx s_fr s_ptr s_alloc s_nnz].
    - split; [|split].
      + unfold c'. rewrite Ef. exact Hd.
      + rewrite flat_app in *. cbn [SmhProofs.flat] in *. rewrite !map_app in *. rewrite <- Efst. exact A2.
      + lia.
    - rewrite (rp_fr _ _ _ _ Hrep). symmetry. apply frs_swap. auto.
    - apply (ptrs_swap r2 c c'); auto. apply (rp_ptr _ _ _ _ Hrep).
    - apply (rp_plen _ _ _ _ Hrep).
    - rewrite (zlen_swap r2 c c'). apply (rp_size _ _ _ _ Hrep).
    - rewrite (rp_nnz _ _ _ _ Hrep). destruct r2 as [|e r2]; cbn [app tl]; auto. symmetry. apply tot_swap. auto.
    - assert (X := rp_sorted _ _ _ _ Hrep). rewrite Forall_forall in *. intros e He. apply in_app_iff in He. destruct He as [He|[<-|He]].
      + apply X, in_app_iff. auto.
      + assert (Y := X c ltac:(apply in_app_iff; right; left; auto)). unfold csorted in *. rewrite <- Efst. exact Y.
      + apply X, in_app_iff. right. right. auto.
    - assert (X := rp_nz _ _ _ _ Hrep). destruct r2 as [|e r2]; cbn [app tl] in *; auto. intros p Hp. rewrite flat_app in *. cbn [SmhProofs.flat] in *.
      unfold c' in Hp. rewrite !in_app_iff in Hp. destruct Hp as [[Hp|[Hp|[<-|Hp]]]|Hp].
      + apply X. rewrite !in_app_iff. auto.
      + apply X. unfold c. rewrite !in_app_iff. auto.
      + apply Hnz, X. unfold c. rewrite !in_app_iff. left. right. right. left. auto.
      + apply X. unfold c. rewrite !in_app_iff. left. right. right. right. auto.
      + apply X. rewrite !in_app_iff. auto.
  Qed.

  Variable inv : Z -> R.
  Hypothesis inv_ok : forall d x, 1 <= d -> rmul x (inv d) = r0 -> x = r0.
  Definition sc (d : Z) (p : Z * R) : Z * R := (fst p, rmul (snd p) (inv d)).
  Lemma sc_nz d p : 1 <= d -> nz p = true -> nz (sc d p) = true.
  Proof.
    intros Hd. unfold SmhProofs.nz, sc. cbn [snd]. intros Hp. destruct (isz (rmul (snd p) (inv d))) eqn:E; auto. apply isz_ok in E. apply inv_ok in E; auto. apply isz_ok in E. rewrite E in Hp. discriminate.
  Qed.
  Definition norm_col (d i : Z) (h : smh R) : outcome (smh R) :=
    let! f := frame_at h i in
    for_ (zrange (snd f)) h (fun j h =>
      let! x := bget (s_data h) (fst f + j) in
      let! dt := bset (s_data h) (fst f + j) (rmul x (inv d)) in
      Ok (mkSmh dt (s_idx h) (s_fr h) (s_ptr h) (s_alloc h) (s_nnz h) (s_rows h) (s_cols h))).
  Lemma norm_col_ok rows cols d h r2 c r1 : 1 <= d -> ready rows cols h (r2 ++ c :: r1) ->
    exists h', norm_col d (zlen r1) h = Ok h' /\ ready rows cols h' (r2 ++ map (sc d) c :: r1).
  Proof.
    intros Hd Hr. unfold norm_col. assert (Zp := zlen_pos r1).
    assert (Ef : frame_at h (zlen r1) = Ok (tot r1, zlen c)).
    { unfold frame_at. replace (zlen r1 <? 0) with false by lia. rewrite (rp_fr _ _ _ _ (rd_rep _ _ _ _ _ _ Hr)). destruct (frs_split R r2 c r1) as (f & ->).
      rewrite rev_app_distr. cbn [rev]. rewrite <- app_assoc, nth_error_app2; rewrite rev_length, frs_length; unfold zlen; [|lia]. replace (Z.to_nat (Z.of_nat (length r1)) - length r1)%nat with 0%nat by lia. reflexivity. }
    rewrite Ef. cbn [bind fst snd].
    match goal with |- context [for_ _ h ?g] => set (f := g) end.
    assert (G : forall b a h, ready rows cols h (r2 ++ (map (sc d) a ++ b) :: r1) -> exists h', for_ (zseq (zlen a) (length b)) h f = Ok h' /\ ready rows cols h' (r2 ++ map (sc d) (a ++ b) :: r1)).
    { clear h Hr Ef. induction b as [|[j x] b IH]; intros a h Hr; cbn [length zseq for_].
      - exists h. rewrite app_nil_r in *. auto.
      - destruct (set_entry rows cols h r2 (map (sc d) a) j x b r1 (rmul x (inv d)) Hr (sc_nz d (j, x) Hd)) as (E1 & dt & E2 & H2). rewrite zlen_map in E1, E2.
        unfold f at 1. rewrite E1. cbn [bind]. rewrite E2. cbn [bind].
        match type of H2 with ready _ _ ?hh _ => destruct (IH (a ++ [(j, x)]) hh) as (h' & E' & H') end. { rewrite map_app, <- app_assoc. exact H2. }
        exists h'. rewrite zlen_app in E'. change (zlen [(j, x)]) with 1 in E'. rewrite <- app_assoc in H'. auto. }
    destruct (G c [] h Hr) as (h' & E & H'). exists h'. split; [|exact H']. unfold zrange. replace (Z.to_nat (zlen c)) with (length c) by (unfold zlen; lia). exact E.
  Qed.

  (** columns scaled by a factor that depends on their index *)
  Fixpoint nrm (cond : Z -> Z -> Prop) (r' r : list col) : Prop :=
    match r', r with
    | [], [] => True
    | c' :: r', c :: r => (exists d, cond d (zlen r) /\ c' = map (sc d) c) /\ nrm cond r' r
    | _, _ => False
    end.
  Lemma nrm_len cond r' : forall r, nrm cond r' r -> zlen r' = zlen r.
  Proof. induction r' as [|c' r' IH]; intros [|c r] Hr; cbn [nrm] in Hr; try contradiction; [reflexivity|]. rewrite !zlen_cons, (IH r); tauto. Qed.
  Lemma nrm_colk cond r' : forall r k, nrm cond r' r -> 0 <= k < zlen r -> exists d, cond d k /\ colk r' k = map (sc d) (colk r k).
  Proof.
    induction r' as [|c' r' IH]; intros [|c r] k Hr Hk; cbn [nrm] in Hr; try contradiction; [unfold zlen in Hk; cbn in Hk; lia|].
    destruct Hr as [(d & Hd & ->) Hr]. rewrite zlen_cons in Hk. assert (El := nrm_len _ _ _ Hr). destruct (Z.eq_dec k (zlen r)) as [->|Hne].
    - exists d. split; auto. rewrite colk_cur. rewrite <- El, colk_cur. reflexivity.
    - rewrite !colk_old by lia. apply IH; auto. lia.
  Qed.
  Definition ninv rows cols (cond : Z -> Z -> Prop) (rc : list col) (k : Z) (h : smh R) : Prop :=
    exists r2 r1 r1', rc = r2 ++ r1 /\ zlen r1 = k /\ nrm cond r1' r1 /\ ready rows cols h (r2 ++ r1').
  Lemma ninv_step rows cols cond rc k h d : ninv rows cols cond rc k h -> 0 <= k < zlen rc -> 1 <= d -> cond d k ->
    exists h', norm_col d k h = Ok h' /\ ninv rows cols cond rc (k + 1) h'.
  Proof.
    intros (r2 & r1 & r1' & E & El & Hn & Hr) Hk Hd Hc. destruct (exists_last (l := r2)) as (r3 & c & E2).
    { intros ->. cbn in E. subst rc. lia. }
    subst r2. rewrite <- app_assoc in *. cbn [app] in *. assert (Ez := nrm_len _ _ _ Hn).
    destruct (norm_col_ok rows cols d h r3 c r1' Hd Hr) as (h' & E' & H'). rewrite Ez, El in E'. exists h'. split; auto.
    exists r3, (c :: r1), (map (sc d) c :: r1'). split; auto. split; [rewrite zlen_cons; lia|]. split; auto. cbn [nrm]. split; auto. exists d. rewrite El. auto.
  Qed.
End Norm.
