(** The sparse matrix builder keeps a list of sorted columns. *)
From Coq Require Import ZifyBool Sorted.
From Verif Require Import Outcome Alg Words Mem SparseModel SparseProofs HallTab HallProofs SmhModel.
Local Open Scope Z_scope.

(** An array holding a list at its start. *)
Definition has {A} (b : buf A) (l : list A) : Prop :=
  zlen l <= blen b /\ forall n x, nth_error l n = Some x -> bat b (Z.of_nat n) = x.

Lemma zlen_cons {A} (x : A) l : zlen (x :: l) = 1 + zlen l.
Proof. unfold zlen. cbn [length]. lia. Qed.
Lemma zlen_map {A B} (f : A -> B) l : zlen (map f l) = zlen l.
Proof. unfold zlen. rewrite map_length. reflexivity. Qed.
Lemma zlen_pos {A} (l : list A) : 0 <= zlen l. Proof. unfold zlen. lia. Qed.

Lemma zseq_S_r a n : zseq a (S n) = zseq a n ++ [a + Z.of_nat n].
Proof. rewrite <- Nat.add_1_r, zseq_app. reflexivity. Qed.
Lemma SS_app_inv_lt l1 l2 : StronglySorted Z.lt (l1 ++ l2) -> forall x y, In x l1 -> In y l2 -> x < y.
Proof.
  induction l1 as [|z l1 IH]; cbn; [tauto|]. intros Hs x y Hx Hy. inversion Hs as [|? ? Hs' Hf]; subst. rewrite Forall_forall in Hf.
  destruct Hx as [<-|Hx]; [apply Hf, in_app_iff; auto|eauto].
Qed.

Lemma has_get {A} (b : buf A) l1 x l2 : has b (l1 ++ x :: l2) -> bget b (zlen l1) = Ok x.
Proof.
  intros [Hl Hn]. rewrite zlen_app, zlen_cons in Hl. assert (H1 := zlen_pos l1). assert (H2 := zlen_pos l2).
  rewrite bget_ok by lia. f_equal. apply Hn. rewrite nth_error_app2 by lia. rewrite Nat.sub_diag. reflexivity.
Qed.
Lemma has_set {A} (b : buf A) l1 x y l2 : has b (l1 ++ x :: l2) -> exists b', bset b (zlen l1) y = Ok b' /\ blen b' = blen b /\ has b' (l1 ++ y :: l2).
Proof.
  intros [Hl Hn]. rewrite zlen_app, zlen_cons in Hl. assert (H1 := zlen_pos l1). assert (H2 := zlen_pos l2).
  rewrite bset_ok by lia. eexists. split; [reflexivity|]. split; [reflexivity|]. split; [cbn [blen]; rewrite zlen_app, zlen_cons; lia|].
  intros n z Hz. cbn [bat]. destruct (Z.eqb_spec (Z.of_nat n) (zlen l1)) as [E|E].
  - assert (n = length l1) by (unfold zlen in E; lia). subst n. rewrite nth_error_app2, Nat.sub_diag in Hz by lia. cbn in Hz. congruence.
  - apply Hn. destruct (Nat.lt_ge_cases n (length l1)) as [Hlt|Hge].
    + rewrite nth_error_app1 in * by lia. auto.
    + rewrite nth_error_app2 in * by lia. unfold zlen in E. destruct (n - length l1)%nat eqn:En; [lia|]. auto.
Qed.
Lemma has_delete {A} (b : buf A) l1 x l2 : has b (l1 ++ x :: l2) ->
  exists b', bmove b (zlen l1) (zlen l1 + 1) (zlen l2) = Ok b' /\ blen b' = blen b /\ has b' (l1 ++ l2).
Proof.
  intros [Hl Hn]. rewrite zlen_app, zlen_cons in Hl. assert (H1 := zlen_pos l1). assert (H2 := zlen_pos l2). unfold bmove.
  destruct (zlen l2 =? 0) eqn:E0.
  - destruct l2 as [|y l2]; [|rewrite zlen_cons in E0; assert (H3 := zlen_pos l2); lia]. exists b. split; auto. split; auto.
    split; [rewrite app_nil_r; lia|]. intros n z Hz. rewrite app_nil_r in Hz. apply Hn.
    rewrite nth_error_app1; auto. apply nth_error_Some. congruence.
  - replace ((0 <=? zlen l1) && (0 <=? zlen l1 + 1) && (0 <=? zlen l2) && (zlen l1 + zlen l2 <=? blen b) && (zlen l1 + 1 + zlen l2 <=? blen b)) with true by lia.
    eexists. split; [reflexivity|]. split; [reflexivity|]. split; [cbn [blen]; rewrite zlen_app; lia|].
    intros n z Hz. cbn [bat]. destruct (Nat.lt_ge_cases n (length l1)) as [Hlt|Hge].
    + unfold zlen. replace ((Z.of_nat (length l1) <=? Z.of_nat n) && (Z.of_nat n <? Z.of_nat (length l1) + Z.of_nat (length l2))) with false by lia.
      apply Hn. rewrite nth_error_app1 in * by lia. auto.
    + assert (Hlt : (n < length (l1 ++ l2))%nat) by (apply nth_error_Some; congruence). rewrite app_length in Hlt.
      unfold zlen. replace ((Z.of_nat (length l1) <=? Z.of_nat n) && (Z.of_nat n <? Z.of_nat (length l1) + Z.of_nat (length l2))) with true by lia.
      replace (Z.of_nat (length l1) + 1 + (Z.of_nat n - Z.of_nat (length l1))) with (Z.of_nat (S n)) by lia.
      apply Hn. rewrite nth_error_app2 in * by lia. replace (S n - length l1)%nat with (S (n - length l1)) by lia. auto.
Qed.
Lemma has_insert {A} (b : buf A) l1 l2 y : has b (l1 ++ l2) -> zlen l1 + zlen l2 < blen b ->
  exists b1 b2, (if 0 <? zlen l2 then bmove b (zlen l1 + 1) (zlen l1) (zlen l2) else Ok b) = Ok b1 /\ blen b1 = blen b /\
    bset b1 (zlen l1) y = Ok b2 /\ blen b2 = blen b /\ has b2 (l1 ++ y :: l2).
Proof.
  intros [Hl Hn] Hc. rewrite zlen_app in Hl. assert (H1 := zlen_pos l1). assert (H2 := zlen_pos l2).
  assert (X : exists b1, (if 0 <? zlen l2 then bmove b (zlen l1 + 1) (zlen l1) (zlen l2) else Ok b) = Ok b1 /\ blen b1 = blen b /\
     (forall n, (n < length l1)%nat -> bat b1 (Z.of_nat n) = bat b (Z.of_nat n)) /\
     (forall n, (length l1 <= n < length l1 + length l2)%nat -> bat b1 (Z.of_nat (S n)) = bat b (Z.of_nat n))).
  { destruct (0 <? zlen l2) eqn:E0.
    - unfold bmove. replace (zlen l2 =? 0) with false by lia.
      replace ((0 <=? zlen l1 + 1) && (0 <=? zlen l1) && (0 <=? zlen l2) && (zlen l1 + 1 + zlen l2 <=? blen b) && (zlen l1 + zlen l2 <=? blen b)) with true by lia.
      eexists. split; [reflexivity|]. split; [reflexivity|]. cbn [bat]. unfold zlen. split; intros n Hn'.
      + replace ((Z.of_nat (length l1) + 1 <=? Z.of_nat n) && (Z.of_nat n <? Z.of_nat (length l1) + 1 + Z.of_nat (length l2))) with false by lia. reflexivity.
      + replace ((Z.of_nat (length l1) + 1 <=? Z.of_nat (S n)) && (Z.of_nat (S n) <? Z.of_nat (length l1) + 1 + Z.of_nat (length l2))) with true by lia.
        f_equal. lia.
    - exists b. repeat split; auto. intros n Hn'. unfold zlen in E0. lia. }
  destruct X as (b1 & E1 & L1 & M1 & M2). exists b1.
  rewrite bset_ok by lia. eexists. split; [exact E1|]. split; [auto|]. split; [reflexivity|]. split; [auto|].
  split; [cbn [blen]; rewrite zlen_app, zlen_cons; lia|]. intros n z Hz. cbn [bat].
  destruct (Z.eqb_spec (Z.of_nat n) (zlen l1)) as [E|E].
  - assert (n = length l1) by (unfold zlen in E; lia). subst n. rewrite nth_error_app2, Nat.sub_diag in Hz by lia. cbn in Hz. congruence.
  - destruct (Nat.lt_ge_cases n (length l1)) as [Hlt|Hge].
    + rewrite M1 by auto. apply Hn. rewrite nth_error_app1 in * by lia. auto.
    + rewrite nth_error_app2 in Hz by lia. unfold zlen in E. destruct (n - length l1)%nat as [|m] eqn:En; [lia|]. cbn in Hz.
      assert (Hm : (m < length l2)%nat) by (apply nth_error_Some; congruence).
      replace n with (S (n - 1)) by lia. rewrite M2 by lia. apply Hn. rewrite nth_error_app2 by lia. replace (n - 1 - length l1)%nat with m by lia. auto.
Qed.
Lemma has_prefix {A} (b : buf A) l1 l2 : has b (l1 ++ l2) -> has b l1.
Proof.
  intros [Hl Hn]. rewrite zlen_app in Hl. assert (H2 := zlen_pos l2). split; [lia|]. intros n x Hx. apply Hn. rewrite nth_error_app1; auto.
  apply nth_error_Some. congruence.
Qed.
Lemma has_resize {A} z (b : buf A) l n : has b l -> zlen l <= n -> has (bresize z b n) l.
Proof.
  intros [Hl Hn] Hle. split; [cbn; lia|]. intros k x Hx. cbn. assert (Hk : (k < length l)%nat) by (apply nth_error_Some; congruence).
  unfold zlen in *. replace (Z.of_nat k <? blen b) with true by lia. auto.
Qed.

Section Smh.
  Variable R : cring.
  Add Ring Rring_smh : (rth R).
  Variable isz : R -> bool.
  Hypothesis isz_ok : forall x, isz x = true <-> x = r0.
  Notation col := (list (Z * R)).

  Definition arrs (d : buf R) (i : buf Z) (l : col) : Prop := has d (map snd l) /\ has i (map fst l) /\ blen d = blen i.
  Definition nz (p : Z * R) : bool := negb (isz (snd p)).

  (** *** Removing zeros *)
  Lemma arrs_delete d i l1 x l2 : arrs d i (l1 ++ x :: l2) -> exists d' i',
    bmove i (zlen l1) (zlen l1 + 1) (zlen l2) = Ok i' /\ bmove d (zlen l1) (zlen l1 + 1) (zlen l2) = Ok d' /\
    blen d' = blen d /\ arrs d' i' (l1 ++ l2).
  Proof.
    intros (Hd & Hi & Hb). rewrite map_app in *. cbn [map] in *.
    destruct (has_delete _ _ _ _ Hd) as (d' & D1 & D2 & D3). destruct (has_delete _ _ _ _ Hi) as (i' & I1 & I2 & I3).
    rewrite !zlen_map in *. exists d', i'. repeat split; auto; try congruence; rewrite ?map_app; [apply D3|apply D3|apply I3|apply I3].
  Qed.
  Lemma remove_loop pre : forall a e d i, arrs d i (pre ++ a ++ e) -> exists d' i',
    for_ (rev (zseq 0 (length a))) (d, i, zlen a + zlen e) (remove_step isz (zlen pre)) = Ok (d', i', zlen (filter nz a) + zlen e) /\
    blen d' = blen d /\ arrs d' i' (pre ++ filter nz a ++ e).
  Proof.
    induction a as [|x a IH] using rev_ind; intros e d i Ha.
    - exists d, i. auto.
    - rewrite app_length. cbn [length]. rewrite Nat.add_1_r, zseq_S_r, rev_app_distr. cbn [rev app for_].
      rewrite <- app_assoc in Ha. cbn [app] in Ha. unfold remove_step at 1. rewrite Z.add_0_l.
      replace (zlen pre + Z.of_nat (length a)) with (zlen (pre ++ a)) by (rewrite zlen_app; reflexivity).
      assert (G : bget d (zlen (pre ++ a)) = Ok (snd x)).
      { destruct Ha as (Hd & _). rewrite app_assoc, map_app in Hd. cbn [map] in Hd. apply has_get in Hd. rewrite zlen_map in Hd. exact Hd. }
      rewrite G. cbn [bind]. rewrite filter_app.
      assert (Ef : filter nz [x] = if isz (snd x) then [] else [x]) by (cbn [filter]; unfold nz; destruct (isz (snd x)); reflexivity).
      rewrite Ef. destruct (isz (snd x)) eqn:Ez.
      + rewrite app_assoc in Ha. destruct (arrs_delete _ _ _ _ _ Ha) as (d1 & i1 & E1 & E2 & E3 & E4).
        replace (zlen (a ++ [x]) + zlen e - Z.of_nat (length a) - 1) with (zlen e) by (rewrite zlen_app, zlen_cons; unfold zlen; cbn [length]; lia).
        rewrite E1. cbn [bind]. rewrite E2. cbn [bind]. rewrite <- app_assoc in E4. destruct (IH e d1 i1 E4) as (d2 & i2 & F1 & F2 & F3).
        replace (zlen (a ++ [x]) + zlen e - 1) with (zlen a + zlen e) by (rewrite zlen_app, zlen_cons; unfold zlen; cbn [length]; lia).
        rewrite F1. exists d2, i2. rewrite app_nil_r. split; auto. split; auto. congruence.
      + destruct (IH (x :: e) d i Ha) as (d2 & i2 & F1 & F2 & F3).
        replace (zlen (a ++ [x]) + zlen e) with (zlen a + zlen (x :: e)) by (rewrite zlen_app, !zlen_cons; unfold zlen; cbn [length]; lia).
        cbn [bind]. rewrite F1. exists d2, i2. split; [|split; auto].
        * do 2 f_equal. rewrite zlen_app, !zlen_cons. unfold zlen. cbn [length]. lia.
        * rewrite <- app_assoc. exact F3.
  Qed.
  Lemma remove_zeros_ok pre c d i : arrs d i (pre ++ c) -> (forall p, In p pre -> nz p = true) ->
    (c <> [] -> pre = [] -> filter nz c <> []) ->
    exists d' i', remove_zeros isz d i (zlen pre, zlen c) = Ok (d', i', zlen (filter nz c)) /\ blen d' = blen d /\ arrs d' i' (pre ++ filter nz c).
  Proof.
    intros Ha Hpre Hne. unfold remove_zeros. destruct c as [|x c].
    { cbn. exists d, i. auto. }
    assert (Hc : 0 <= zlen c) by apply zlen_pos. replace (zlen (x :: c) <=? 0) with false by (rewrite zlen_cons; lia).
    set (c1 := x :: c) in *. destruct (remove_loop pre c1 [] d i) as (d1 & i1 & E1 & E2 & E3); [rewrite app_nil_r; auto|].
    unfold zlen at 1 in E1. change (zlen []) with 0 in E1. rewrite !Z.add_0_r in E1. fold (zlen c1) in E1.
    replace (Z.to_nat (zlen c1)) with (length c1) by (unfold zlen; lia). unfold zlen at 1 in E1. fold (zlen c1) in E1.
    rewrite E1. cbn [bind]. rewrite app_nil_r in E3.
    assert (Hlast : exists l x, pre ++ filter nz c1 = l ++ [x] /\ nz x = true).
    { destruct (exists_last (l := pre ++ filter nz c1)) as (l & y & Ey).
      - destruct pre; [|discriminate]. cbn. apply Hne; auto; discriminate.
      - exists l, y. split; auto. assert (Hy : In y (pre ++ filter nz c1)) by (rewrite Ey; apply in_app_iff; right; left; auto).
        apply in_app_iff in Hy. destruct Hy as [Hy|Hy]; [auto|apply filter_In in Hy; tauto]. }
    destruct Hlast as (l & y & El & Hy).
    assert (Epos : zlen pre + (zlen (filter nz c1) - 1) = zlen l).
    { assert (X : zlen (pre ++ filter nz c1) = zlen (l ++ [y])) by congruence. rewrite !zlen_app in X. unfold zlen in *. cbn [length] in X. lia. }
    rewrite Epos. rewrite El in E3. destruct E3 as (Hd & Hi & Hb). assert (G := Hd). rewrite map_app in G. cbn [map] in G. apply has_get in G. rewrite zlen_map in G.
    rewrite G. cbn [bind]. unfold nz in Hy. destruct (isz (snd y)) eqn:Ez; [discriminate|].
    exists d1, i1. split; [reflexivity|]. split; [congruence|]. rewrite El. repeat split; auto; apply Hd || apply Hi.
  Qed.

  (** *** Columns and the helper *)
  Fixpoint tot (rc : list col) : Z := match rc with [] => 0 | c :: r => tot r + zlen c end.
  Fixpoint flat (rc : list col) : col := match rc with [] => [] | c :: r => flat r ++ c end.
  Fixpoint frs (rc : list col) : list (Z * Z) := match rc with [] => [] | c :: r => (tot r, zlen c) :: frs r end.
  Fixpoint ptrs (rc : list col) (p : buf Z) : Prop := match rc with [] => True | c :: r => bat p (zlen r) = tot r /\ ptrs r p end.
  Lemma zlen_flat rc : zlen (flat rc) = tot rc.
  Proof. induction rc; cbn [flat tot]; [reflexivity|]. rewrite zlen_app. lia. Qed.
  Lemma tot_nonneg rc : 0 <= tot rc. Proof. rewrite <- zlen_flat. apply zlen_pos. Qed.
  Lemma frs_length rc : length (frs rc) = length rc. Proof. induction rc; cbn; auto. Qed.
  Lemma reframe_frs rc fr : map snd fr = map snd (frs rc) -> reframe fr = frs rc.
  Proof.
    intros Hs. unfold reframe.
    assert (G : fold_left (fun s f => (fst s + snd f, (fst s, snd f) :: snd s)) (rev fr) (0, []) = (tot rc, frs rc)); [|rewrite G; reflexivity].
    revert fr Hs. induction rc as [|c r IH]; intros fr Hs; cbn [frs map snd] in Hs.
    - destruct fr; [reflexivity|discriminate].
    - destruct fr as [|[o s] fr]; [discriminate|]. cbn [map snd] in Hs. injection Hs as -> Hs. cbn [rev]. rewrite fold_left_app, (IH fr Hs). reflexivity.
  Qed.
  Lemma ptrs_set rc p k v p' : bset p k v = Ok p' -> zlen rc <= k -> ptrs rc p -> ptrs rc p'.
  Proof.
    intros E. unfold bset in E. destruct ((0 <=? k) && (k <? blen p)); [|discriminate]. injection E as <-.
    induction rc as [|c r IH]; cbn [ptrs]; auto. rewrite zlen_cons. intros Hk [H1 H2]. cbn [bat]. replace (zlen r =? k) with false by lia. split; auto. apply IH; auto. lia.
  Qed.

  Definition csorted (c : col) : Prop := StronglySorted Z.lt (map fst c).
  (** The helper stands for the columns [rc] (most recent first); earlier columns are finished. *)
  Record rep (h : smh R) (rc : list col) : Prop := mkRep {
    rp_arr : arrs (s_data h) (s_idx h) (flat rc);
    rp_fr : s_fr h = frs rc;
    rp_ptr : ptrs rc (s_ptr h);
    rp_plen : blen (s_ptr h) = s_alloc h + 1;
    rp_size : zlen rc <= s_alloc h;
    rp_nnz : s_nnz h = tot (tl rc);
    rp_sorted : Forall csorted rc;
    rp_nz : forall p, In p (flat (tl rc)) -> nz p = true }.

  Lemma rep_size h rc : rep h rc -> s_size h = zlen rc.
  Proof. intros H. unfold s_size. rewrite (rp_fr _ _ H), frs_length. reflexivity. Qed.

  (** finishing the current column *)
  Definition finish (rc : list col) : list col := match rc with [] => [] | c :: r => filter nz c :: r end.
  Definition safe (rc : list col) : Prop := match rc with [] => True | c :: r => c <> [] -> flat r = [] -> filter nz c <> [] end.

  Lemma csorted_filter c : csorted c -> csorted (filter nz c).
  Proof.
    unfold csorted. induction c as [|p c IH]; intros Hs; [constructor|]. inversion Hs as [|? ? Hs' Hf]; subst. cbn [filter].
    destruct (nz p); [|auto]. cbn [map]. constructor; auto. rewrite Forall_forall in *. intros x Hx. apply Hf.
    apply in_map_iff in Hx. destruct Hx as (q & <- & Hq). apply filter_In in Hq. apply in_map. tauto.
  Qed.

  Lemma insert_frame_ok h rc : rep h rc -> safe rc -> zlen rc < s_alloc h ->
    exists h', insert_frame isz h = Ok h' /\ rep h' ([] :: finish rc) /\ s_alloc h' = s_alloc h /\ blen (s_data h') = blen (s_data h) /\ s_rows h' = s_rows h /\ s_cols h' = s_cols h.
  Proof.
    intros H Hsafe Hlt. unfold insert_frame. rewrite (rep_size _ _ H). replace (zlen rc =? s_alloc h) with false by lia.
    assert (Hp := rp_plen _ _ H). assert (Hz := zlen_pos rc).
    destruct rc as [|c r].
    - rewrite (rp_fr _ _ H). cbn [frs bind]. rewrite bset_ok by lia. cbn [bind]. eexists. split; [reflexivity|]. split; [|auto].
      constructor; cbn.
      + apply (rp_arr _ _ H).
      + reflexivity.
      + split; auto. rewrite (rp_nnz _ _ H). reflexivity.
      + lia.
      + unfold zlen in *. cbn in *. lia.
      + apply (rp_nnz _ _ H).
      + constructor; constructor.
      + intros p [].
    - rewrite (rp_fr _ _ H). cbn [frs]. assert (A := rp_arr _ _ H). cbn [flat] in A.
      destruct (remove_zeros_ok (flat r) c (s_data h) (s_idx h) A (rp_nz _ _ H) Hsafe) as (d' & i' & E1 & E2 & E3). rewrite zlen_flat in E1. rewrite E1. cbn [bind].
      assert (Nn := rp_nnz _ _ H). cbn [tl] in Nn.
      destruct (bset (s_ptr h) (zlen (c :: r)) (s_nnz h + zlen (filter nz c))) as [p'| | |] eqn:Ep; [|rewrite bset_ok in Ep by lia; discriminate..].
      cbn [bind]. eexists. split; [reflexivity|]. split; [|auto].
      assert (Hps : ptrs (c :: r) p') by (apply (ptrs_set _ _ _ _ _ Ep); [lia|apply (rp_ptr _ _ H)]).
      rewrite bset_ok in Ep by lia. injection Ep as <-.
      assert (Hso := rp_sorted _ _ H). inversion Hso as [|? ? Hs1 Hs2]; subst.
      constructor; cbn [s_data s_idx s_fr s_ptr s_alloc s_nnz finish flat frs ptrs tl tot blen bat].
      + rewrite app_nil_r. exact E3.
      + reflexivity.
      + rewrite !zlen_cons in *. rewrite Z.eqb_refl. split; [lia|]. cbn [ptrs] in Hps. exact Hps.
      + lia.
      + rewrite !zlen_cons in *. lia.
      + lia.
      + constructor; [constructor|]. constructor; [apply csorted_filter; auto|auto].
      + intros p Hin. apply in_app_iff in Hin. destruct Hin as [Hin|Hin]; [apply (rp_nz _ _ H); auto|apply filter_In in Hin; tauto].
  Qed.

  (** *** Values *)
  Fixpoint cins (c : col) (k : Z) (v : R) : col :=
    match c with
    | [] => [(k, v)]
    | (j, x) :: c' => if k =? j then (j, radd x v) :: c' else if k <? j then (k, v) :: c else (j, x) :: cins c' k v
    end.
  Lemma cins_found a k x b v : (forall p, In p a -> fst p < k) -> cins (a ++ (k, x) :: b) k v = a ++ (k, radd x v) :: b.
  Proof.
    induction a as [|[j y] a IH]; intros Ha; cbn [app cins]; [rewrite Z.eqb_refl; reflexivity|].
    assert (X := Ha (j, y) (or_introl eq_refl)). cbn [fst] in X. replace (k =? j) with false by lia. replace (k <? j) with false by lia. f_equal. apply IH. intros; apply Ha; right; auto.
  Qed.
  Lemma cins_absent a k b v : (forall p, In p a -> fst p < k) -> (forall p, In p b -> k < fst p) -> cins (a ++ b) k v = a ++ (k, v) :: b.
  Proof.
    induction a as [|[j y] a IH]; intros Ha Hb; cbn [app cins].
    - destruct b as [|[j y] b]; [reflexivity|]. cbn [cins]. assert (X := Hb (j, y) (or_introl eq_refl)). cbn [fst] in X.
      replace (k =? j) with false by lia. replace (k <? j) with true by lia. reflexivity.
    - assert (X := Ha (j, y) (or_introl eq_refl)). cbn [fst] in X. replace (k =? j) with false by lia. replace (k <? j) with false by lia. f_equal. apply IH; auto. intros; apply Ha; right; auto.
  Qed.
  Lemma cins_fst c k v x : In x (map fst (cins c k v)) -> x = k \/ In x (map fst c).
  Proof.
    induction c as [|[j y] c IH]; cbn [cins]; [cbn; intuition auto|]. destruct (Z.eqb_spec k j) as [->|Hn]; [cbn; intuition auto|].
    destruct (k <? j); cbn; [intuition auto|]. intros [|Hx]; auto. apply IH in Hx. intuition auto.
  Qed.
  Lemma cins_sorted c k v : csorted c -> csorted (cins c k v).
  Proof.
    unfold csorted. induction c as [|[j y] c IH]; intros Hs; cbn [cins]; [repeat constructor|]. inversion Hs as [|? ? Hs' Hf]; subst.
    rewrite Forall_forall in Hf. fold (map fst c) in *. destruct (Z.eqb_spec k j) as [->|Hn]; [auto|]. destruct (Z.ltb_spec k j) as [Hlt|Hge].
    - cbn [map fst]. constructor; auto. rewrite Forall_forall. intros x [<-|Hx]; auto. apply Hf in Hx. lia.
    - cbn [map fst]. constructor; auto. rewrite Forall_forall. intros x Hx. apply cins_fst in Hx. destruct Hx as [->|Hx]; [lia|auto].
  Qed.
  Definition cval (c : col) (k : Z) : R := sum c (fun p => if fst p =? k then snd p else r0).
  Lemma cval_cins c k v i : cval (cins c k v) i = radd (cval c i) (if k =? i then v else r0).
  Proof.
    induction c as [|[j y] c IH]; cbn [cins].
    - unfold cval. cbn [sum fst snd]. destruct (k =? i); ring.
    - destruct (Z.eqb_spec k j) as [->|Hn].
      + unfold cval. cbn [sum fst snd]. destruct (j =? i); ring.
      + destruct (k <? j).
        * unfold cval. cbn [sum fst snd]. destruct (k =? i); ring.
        * unfold cval in *. cbn [sum fst snd]. rewrite IH. ring.
  Qed.

  Lemma search_ok pre c idx index : has idx (map fst (pre ++ c)) -> csorted c ->
    forall fuel diff p, 0 <= p -> 0 <= diff -> p + diff <= zlen c -> diff < Z.of_nat fuel ->
    (forall n q, nth_error c n = Some q -> Z.of_nat n < p -> fst q < index) ->
    (forall n q, nth_error c n = Some q -> p + diff <= Z.of_nat n -> index < fst q) ->
    (exists n x, search fuel idx (zlen pre) index diff p = Ok (inl (Z.of_nat n)) /\ nth_error c n = Some (index, x)) \/
    (exists n, search fuel idx (zlen pre) index diff p = Ok (inr (Z.of_nat n)) /\ (n <= length c)%nat /\
       (forall m q, nth_error c m = Some q -> (m < n)%nat -> fst q < index) /\ (forall m q, nth_error c m = Some q -> (n <= m)%nat -> index < fst q)).
  Proof.
    intros Hh Hs. induction fuel as [|fuel IH]; intros diff p Hp Hd Hpd Hf Hlo Hhi; [lia|]. cbn [search].
    destruct (diff >? 0) eqn:E0.
    - assert (Hh2 : 0 <= diff / 2 < diff) by (split; [apply Z.div_pos; lia|apply Z.div_lt; lia]).
      assert (Hm : exists q, nth_error c (Z.to_nat (p + diff / 2)) = Some q).
      { destruct (nth_error c (Z.to_nat (p + diff / 2))) eqn:E; eauto. apply nth_error_None in E. unfold zlen in Hpd. lia. }
      destruct Hm as ([j x] & Hm). destruct (nth_error_split _ _ Hm) as (a & b & Ec & El).
      assert (G : bget idx (zlen pre + (p + diff / 2)) = Ok j).
      { rewrite Ec, app_assoc, map_app in Hh. cbn [map fst] in Hh. apply has_get in Hh. rewrite zlen_map, zlen_app in Hh.
        replace (zlen a) with (p + diff / 2) in Hh by (unfold zlen; lia). exact Hh. }
      rewrite G. cbn [bind]. destruct (Z.eqb_spec index j) as [->|Hne].
      + left. exists (Z.to_nat (p + diff / 2)), x. rewrite Z2Nat.id by lia. auto.
      + assert (Sa : forall m q, nth_error c m = Some q -> (m < length a)%nat -> fst q < j).
        { intros m q Hq Hlt. rewrite Ec in Hs. unfold csorted in Hs. rewrite map_app in Hs. cbn [map fst] in Hs.
          apply (SS_app_inv_lt _ _ Hs); [|left; auto]. apply in_map. rewrite Ec, nth_error_app1 in Hq by lia. eapply nth_error_In; eauto. }
        assert (Sb : forall m q, nth_error c m = Some q -> (length a < m)%nat -> j < fst q).
        { intros m q Hq Hlt. rewrite Ec in Hs. unfold csorted in Hs. rewrite map_app in Hs. cbn [map fst] in Hs.
          change (j :: map fst b) with ([j] ++ map fst b) in Hs. rewrite app_assoc in Hs. apply (SS_app_inv_lt _ _ Hs); [apply in_app_iff; right; left; auto|].
          apply in_map. rewrite Ec, nth_error_app2 in Hq by lia. destruct (m - length a)%nat as [|k] eqn:Ek; [lia|]. cbn [nth_error] in Hq. eapply nth_error_In; eauto. }
        destruct (j <? index) eqn:Ej.
        * apply IH; try lia.
          -- intros n q Hq Hn. destruct (Nat.lt_ge_cases n (length a)) as [Hl|Hl]; [specialize (Sa n q Hq Hl); lia|].
             assert (n = length a) by lia. subst n. rewrite El in Hq. rewrite Hm in Hq. injection Hq as <-. cbn. lia.
          -- intros n q Hq Hn. apply (Hhi n); auto. lia.
        * apply IH; try lia.
          -- intros n q Hq Hn. apply (Hlo n); auto.
          -- intros n q Hq Hn. destruct (Nat.lt_ge_cases (length a) n) as [Hl|Hl]; [specialize (Sb n q Hq Hl); lia|].
             assert (n = length a) by lia. subst n. rewrite El in Hq. rewrite Hm in Hq. injection Hq as <-. cbn. lia.
    - right. exists (Z.to_nat p). rewrite Z2Nat.id by lia. split; [reflexivity|]. split; [unfold zlen in Hpd; lia|]. split.
      + intros m q Hq Hlt. apply (Hlo m); auto. lia.
      + intros m q Hq Hge. apply (Hhi m); auto. lia.
  Qed.

  Lemma rep_resize h rc n : rep h rc -> tot rc <= n -> exists h', smh_resize h n = Ok h' /\ rep h' rc /\ s_alloc h' = s_alloc h /\ blen (s_data h') = n /\ s_rows h' = s_rows h /\ s_cols h' = s_cols h.
  Proof.
    intros H Hn. assert (Ht := tot_nonneg rc). unfold smh_resize. replace (n <? 0) with false by lia. eexists. split; [reflexivity|]. split; [|auto].
    assert (A := rp_arr _ _ H). destruct A as (A1 & A2 & A3). assert (Hz := zlen_flat rc).
    constructor; cbn [s_data s_idx s_fr s_ptr s_alloc s_nnz]; try apply H.
    - split; [apply has_resize; auto; rewrite zlen_map; lia|]. split; [apply has_resize; auto; rewrite zlen_map; lia|reflexivity].
    - apply reframe_frs. rewrite (rp_fr _ _ H). reflexivity.
  Qed.

  Lemma insert_value_ok h c r k v : rep h (c :: r) -> 1 <= blen (s_data h) -> exists h',
    insert_value isz h k v = Ok h' /\ rep h' ((if isz v then c else cins c k v) :: r) /\ s_alloc h' = s_alloc h /\ blen (s_data h) <= blen (s_data h') /\ s_rows h' = s_rows h /\ s_cols h' = s_cols h.
  Proof.
    intros H Hcap. unfold insert_value. destruct (isz v) eqn:Ev; [exists h; repeat split; auto; try lia; apply H|].
    unfold get_scalar. rewrite (rp_fr _ _ H). cbn [frs].
    assert (A := rp_arr _ _ H). cbn [flat] in A. destruct A as (A1 & A2 & A3). assert (Hso := rp_sorted _ _ H). inversion Hso as [|? ? Hs1 Hs2]; subst.
    assert (Hzc := zlen_pos c).
    destruct (search_ok (flat r) c (s_idx h) k A2 Hs1 (S (Z.to_nat (zlen c))) (zlen c) 0) as [(n & x & Es & Hn)|(n & Es & Hn & Hlo & Hhi)]; try lia.
    { intros n q Hq Hn. assert (X : (n < length c)%nat) by (apply nth_error_Some; congruence). unfold zlen in Hn. lia. }
    - rewrite zlen_flat in Es. rewrite Es. cbn [bind]. destruct (nth_error_split _ _ Hn) as (a & b & Ec & El).
      assert (Hpos : tot r + Z.of_nat n = zlen (flat r ++ a)) by (rewrite zlen_app, zlen_flat; unfold zlen; lia). rewrite Hpos.
      rewrite Ec, app_assoc, map_app in A1. cbn [map snd] in A1. assert (G := has_get _ _ _ _ A1). rewrite zlen_map in G. rewrite G. cbn [bind].
      destruct (has_set _ _ _ (radd x v) _ A1) as (d' & S1 & S2 & S3). rewrite zlen_map in S1. rewrite S1. cbn [bind].
      eexists. split; [reflexivity|]. cbn [s_data s_alloc s_rows s_cols]. split; [|repeat split; auto; lia].
      assert (Ei : cins c k v = a ++ (k, radd x v) :: b).
      { rewrite Ec. apply cins_found. intros p Hp. unfold csorted in Hs1. rewrite Ec, map_app in Hs1. cbn [map fst] in Hs1.
        apply (SS_app_inv_lt _ _ Hs1); [apply in_map; auto|left; auto]. }
      rewrite Ei. constructor; cbn [s_data s_idx s_fr s_ptr s_alloc s_nnz flat frs ptrs tl tot]; try apply H.
      + split; [|split; [|lia]].
        * rewrite app_assoc, map_app. cbn [map snd]. exact S3.
        * rewrite Ec in A2. rewrite !map_app in *. cbn [map fst] in *. exact A2.
      + rewrite (rp_fr _ _ H). cbn [frs]. rewrite Ec. unfold zlen. rewrite !app_length. reflexivity.
      + constructor; auto. rewrite <- Ei. apply cins_sorted; auto.
    - rewrite zlen_flat in Es. rewrite Es. cbn [bind].
      set (a := firstn n c). set (b := skipn n c).
      assert (Ec : c = a ++ b) by (symmetry; apply firstn_skipn).
      assert (La : length a = n) by (unfold a; rewrite firstn_length; lia).
      assert (Ha : forall p, In p a -> fst p < k).
      { intros p Hp. apply In_nth_error in Hp. destruct Hp as (m & Hm). assert (Hml : (m < length a)%nat) by (apply nth_error_Some; congruence).
        apply (Hlo m); [|lia]. rewrite Ec, nth_error_app1; auto. }
      assert (Hb : forall p, In p b -> k < fst p).
      { intros p Hp. apply In_nth_error in Hp. destruct Hp as (m & Hm). apply (Hhi (n + m)%nat); [|lia]. rewrite Ec, nth_error_app2 by lia.
        replace (n + m - length a)%nat with m by lia. auto. }
      assert (Ei : cins c k v = a ++ (k, v) :: b) by (rewrite Ec; apply cins_absent; auto).
      assert (Zb : zlen c = Z.of_nat n + zlen b) by (rewrite Ec, zlen_app; unfold zlen; lia). assert (Hzb := zlen_pos b).
      assert (Hit : (if Z.of_nat n <? zlen c then let! i := bget (s_idx h) (tot r + Z.of_nat n) in Ok (i =? k) else Ok false) = Ok false).
      { destruct (Z.of_nat n <? zlen c) eqn:E; [|reflexivity]. destruct b as [|q b'] eqn:Eb; [unfold zlen in *; cbn [length] in *; lia|].
        rewrite Ec, app_assoc, map_app in A2. cbn [map] in A2. apply has_get in A2. rewrite zlen_map, zlen_app, zlen_flat in A2.
        replace (zlen a) with (Z.of_nat n) in A2 by (unfold zlen; lia). rewrite A2. cbn [bind]. f_equal.
        assert (X := Hb q (or_introl eq_refl)). lia. }
      rewrite Hit. cbn [bind].
      assert (Htot : tot (c :: r) <= blen (s_data h)).
      { rewrite <- zlen_flat. cbn [flat]. destruct A1 as [A1 _]. rewrite zlen_map in A1. exact A1. }
      assert (Nn := rp_nnz _ _ H). cbn [tl] in Nn. cbn [tot] in Htot.
      assert (X : exists h1, (if s_nnz h + zlen c =? blen (s_data h) then smh_resize h (blen (s_data h) * 2) else Ok h) = Ok h1 /\ rep h1 (c :: r) /\
          s_alloc h1 = s_alloc h /\ blen (s_data h) <= blen (s_data h1) /\ tot r + zlen c < blen (s_data h1) /\ s_rows h1 = s_rows h /\ s_cols h1 = s_cols h).
      { destruct (s_nnz h + zlen c =? blen (s_data h)) eqn:E.
        - destruct (rep_resize h (c :: r) (blen (s_data h) * 2) H) as (h1 & E1 & E2 & E3 & E4 & E5 & E6); [cbn [tot]; lia|].
          exists h1. repeat split; auto; try lia; apply E2.
        - exists h. repeat split; auto; try lia; apply H. }
      destruct X as (h1 & -> & H1 & Al & Cap & Cap2 & Hr & Hc). cbn [bind]. rewrite (rp_fr _ _ H1). cbn [frs].
      assert (B := rp_arr _ _ H1). cbn [flat] in B. rewrite Ec, app_assoc in B. destruct B as (B1 & B2 & B3). rewrite map_app in B1, B2.
      destruct (has_insert _ _ _ k B2) as (i1 & i2 & I1 & I2 & I3 & I4 & I5); [rewrite !zlen_map, zlen_app, zlen_flat; unfold zlen in *; lia|].
      destruct (has_insert _ _ _ r0 B1) as (d1 & d2 & D1 & D2 & D3 & D4 & D5); [rewrite !zlen_map, zlen_app, zlen_flat; unfold zlen in *; lia|].
      rewrite !zlen_map, zlen_app, zlen_flat in I1. rewrite !zlen_map, zlen_app, zlen_flat in D1. rewrite !zlen_map, zlen_app, zlen_flat in I3. rewrite !zlen_map, zlen_app, zlen_flat in D3. replace (zlen a) with (Z.of_nat n) in I1, D1, I3, D3 by (unfold zlen; lia).
      replace (0 <? zlen b) with (Z.of_nat n <? zlen c) in I1, D1 by lia. replace (zlen b) with (zlen c - Z.of_nat n) in I1, D1 by lia.
      rewrite I1. cbn [bind]. rewrite D1. cbn [bind]. rewrite I3. cbn [bind]. rewrite D3. cbn [bind s_data].
      replace (tot r + Z.of_nat n) with (zlen (flat r ++ a)) by (rewrite zlen_app, zlen_flat; unfold zlen; lia).
      assert (G := has_get _ _ _ _ D5). rewrite zlen_map in G. rewrite G. cbn [bind].
      destruct (has_set _ _ _ (radd r0 v) _ D5) as (d' & S1 & S2 & S3). rewrite zlen_map in S1. rewrite S1. cbn [bind].
      eexists. split; [reflexivity|]. cbn [s_data s_idx s_fr s_ptr s_alloc s_nnz s_rows s_cols]. split; [|repeat split; auto; lia].
      rewrite Ei. replace (radd r0 v) with v in S3 by ring.
      constructor; cbn [s_data s_idx s_fr s_ptr s_alloc s_nnz flat frs ptrs tl tot]; try apply H1.
      + rewrite app_assoc. split; [rewrite map_app; exact S3|]. split; [rewrite map_app; exact I5|]. congruence.
      + f_equal. f_equal. rewrite Ec. rewrite !zlen_app, zlen_cons. lia.
      + constructor; auto. rewrite <- Ei. apply cins_sorted; auto.
  Qed.
End Smh.
