(** Histories of the sparse matrix builder: specification and main lemmas. *)
From Coq Require Import ZifyBool Sorted.
From Verif Require Import Outcome Alg Words Mem SparseModel SparseProofs HallTab HallProofs SmhModel SmhProofs SmhBuild.
Local Open Scope Z_scope.

(** ** Specification *)
(** A use of the builder: start the next column, or add a value at a row of the current column. *)
Inductive sop (R : cring) : Type := OFrame | OVal (i : Z) (v : R).
Arguments OFrame {R}. Arguments OVal {R}.
(** The values added to column [k] when the current column is [cur]. *)
Fixpoint added {R : cring} (ops : list (sop R)) (cur k : Z) : list (Z * R) :=
  match ops with
  | [] => []
  | OFrame :: o => added o (cur + 1) k
  | OVal i v :: o => if cur =? k then (i, v) :: added o cur k else added o cur k
  end.
(** The total added at column [k], row [i]. *)
Definition total {R : cring} (ops : list (sop R)) (k i : Z) : R := sum (added ops (-1) k) (fun p => if fst p =? i then snd p else r0).
Fixpoint nframes {R : cring} (ops : list (sop R)) : Z :=
  match ops with [] => 0 | OFrame :: o => 1 + nframes o | OVal _ _ :: o => nframes o end.
(** Every column that gets a non-zero value has a non-zero total in it or before it. *)
Definition not_cancelled {R : cring} (ops : list (sop R)) : Prop :=
  forall k, (exists p, In p (added ops (-1) k) /\ snd p <> r0) -> exists k' i, 0 <= k' <= k /\ total ops k' i <> r0.

(** The sequence of builder calls. *)
Definition sstep {R : cring} (isz : R -> bool) (o : sop R) (h : smh R) : outcome (smh R) :=
  match o with OFrame => insert_frame isz h | OVal i v => insert_value isz h i v end.
Definition srun {R : cring} (isz : R -> bool) jd ji jp (nrows ncols est : Z) (ops : list (sop R)) : outcome (smh R) :=
  let! h := smh_init jd ji jp nrows ncols est in for_ ops h (sstep isz).

Section Hist.
  Variable R : cring.
  Add Ring Rring_smhist : (rth R).
  Variable isz : R -> bool.
  Hypothesis isz_ok : forall x, isz x = true <-> x = r0.
  Notation col := (list (Z * R)).
  Notation nz := (nz R isz). Notation rep := (rep R isz). Notation safe := (safe R isz). Notation finish := (finish R isz).
  Notation cval := (cval R). Notation cins := (cins R). Notation flat := (flat R). Notation tot := (tot R). Notation frs := (frs R).
  Notation ptrs := (ptrs R). Notation csorted := (csorted R).

  Lemma isz_false x : isz x = false <-> x <> r0.
  Proof. destruct (isz x) eqn:E; split; intros H; try congruence. - destruct H. apply isz_ok; auto. - intros ->. assert (X := proj2 (isz_ok r0) eq_refl). congruence. Qed.

  Lemma nframes_app a b : @nframes R (a ++ b) = nframes a + nframes b.
  Proof. induction a as [|[|i v] a IH]; cbn [app nframes]; lia. Qed.
  Lemma nframes_nonneg ops : 0 <= @nframes R ops.
  Proof. induction ops as [|[|i v] a IH]; cbn [nframes]; lia. Qed.
  Lemma added_app a b : forall cur k, @added R (a ++ b) cur k = added a cur k ++ added b (cur + nframes a) k.
  Proof.
    induction a as [|[|i v] a IH]; intros cur k; cbn [app nframes added].
    - f_equal. lia.
    - rewrite IH. do 2 f_equal. lia.
    - rewrite IH. destruct (cur =? k); reflexivity.
  Qed.
  Lemma added_past ops : forall cur k, k < cur -> @added R ops cur k = [].
  Proof. induction ops as [|[|i v] a IH]; intros cur k H; cbn [added]; auto; [apply IH; lia|]. replace (cur =? k) with false by lia. auto. Qed.
  Lemma added_future ops : forall cur k, cur + nframes ops < k -> @added R ops cur k = [].
  Proof.
    induction ops as [|[|i v] a IH]; intros cur k H; cbn [added nframes] in *; auto; [apply IH; lia|].
    assert (X := nframes_nonneg a). replace (cur =? k) with false by lia. auto.
  Qed.
  Lemma total_cval ops k i : total ops k i = cval (added ops (-1) k) i. Proof. reflexivity. Qed.
  Lemma cval_app a b i : cval (a ++ b) i = radd (cval a i) (cval b i). Proof. unfold SmhProofs.cval. apply sum_app. Qed.

  (** Column [k] of a helper state. *)
  Definition colk (rc : list col) (k : Z) : col := nth (Z.to_nat k) (rev rc) [].
  Lemma colk_old c r k : 0 <= k < zlen r -> colk (c :: r) k = colk r k.
  Proof. intros H. unfold colk. cbn [rev]. apply app_nth1. rewrite rev_length. unfold zlen in H. lia. Qed.
  Lemma colk_cur c r : colk (c :: r) (zlen r) = c.
  Proof. unfold colk. cbn [rev]. rewrite app_nth2; rewrite rev_length; unfold zlen; [|lia]. replace (Z.to_nat _ - _)%nat with 0%nat by lia. reflexivity. Qed.
  Lemma colk_flat rc : forall k p, 0 <= k < zlen rc -> In p (colk rc k) -> In p (flat rc).
  Proof.
    induction rc as [|c r IH]; intros k p Hk Hp; [unfold zlen in Hk; cbn in Hk; lia|]. rewrite zlen_cons in Hk. cbn [SmhProofs.flat]. apply in_app_iff.
    destruct (Z.eq_dec k (zlen r)) as [->|Hn]; [rewrite colk_cur in Hp; auto|]. rewrite colk_old in Hp by lia. left. apply (IH k); auto. lia.
  Qed.
  Lemma flat_colk rc p : In p (flat rc) -> exists k, 0 <= k < zlen rc /\ In p (colk rc k).
  Proof.
    induction rc as [|c r IH]; cbn [SmhProofs.flat]; [intros []|]. intros Hp. apply in_app_iff in Hp. assert (Hz := zlen_pos r). destruct Hp as [Hp|Hp].
    - destruct (IH Hp) as (k & Hk & Hi). exists k. rewrite zlen_cons, colk_old by lia. split; auto. lia.
    - exists (zlen r). rewrite zlen_cons, colk_cur. split; auto. lia.
  Qed.

  Record hinv (ops : list (sop R)) (h : smh R) (rc : list col) (nrows ncols : Z) : Prop := mkHI {
    hi_rep : rep h rc;
    hi_n : zlen rc = nframes ops;
    hi_val : forall k i, 0 <= k < zlen rc -> cval (colk rc k) i = total ops k i;
    hi_idx : forall k p, 0 <= k < zlen rc -> In p (colk rc k) -> In (fst p) (map fst (added ops (-1) k));
    hi_ne : forall k, 0 <= k < zlen rc -> colk rc k <> [] -> exists p, In p (added ops (-1) k) /\ snd p <> r0;
    hi_cap : 1 <= blen (s_data h);
    hi_alloc : s_alloc h = ncols; hi_rows : s_rows h = nrows; hi_cols : s_cols h = ncols }.

  Lemma hinv_safe ops rest h rc nrows ncols : hinv ops h rc nrows ncols -> (rest = [] \/ exists o, rest = OFrame :: o) -> not_cancelled (ops ++ rest) -> safe rc.
  Proof.
    intros H Hr Hnc. destruct rc as [|c r]; cbn; auto. intros Hc Hf Habs. assert (Hz := zlen_pos r).
    assert (Hn := hi_n _ _ _ _ _ H). rewrite zlen_cons in Hn.
    assert (Ea : forall k, k <= zlen r -> added (ops ++ rest) (-1) k = added ops (-1) k).
    { intros k Hk. rewrite added_app. destruct Hr as [->|(o & ->)]; cbn [added]; rewrite ?app_nil_r; auto. rewrite (added_past o) by lia. apply app_nil_r. }
    destruct (hi_ne _ _ _ _ _ H (zlen r)) as (p & Hp & Hv); [rewrite zlen_cons; lia|rewrite colk_cur; auto|].
    destruct (Hnc (zlen r)) as (k' & i & Hk' & Ht); [exists p; rewrite Ea by lia; auto|].
    apply Ht. unfold total. rewrite Ea by lia. fold (total ops k' i). rewrite <- (hi_val _ _ _ _ _ H) by (rewrite zlen_cons; lia).
    destruct (Z.eq_dec k' (zlen r)) as [->|Hne].
    - rewrite colk_cur. rewrite <- (cval_filter R isz isz_ok). rewrite Habs. reflexivity.
    - rewrite colk_old by lia. apply cval_absent. intros Hin. apply in_map_iff in Hin. destruct Hin as (q & _ & Hq). apply colk_flat in Hq; [|lia]. rewrite Hf in Hq. destruct Hq.
  Qed.

  Lemma hinv_step o ops h rc nrows ncols : hinv ops h rc nrows ncols -> safe rc \/ o <> OFrame -> nframes (ops ++ [o]) <= ncols -> (o <> OFrame -> rc <> []) ->
    exists h' rc', sstep isz o h = Ok h' /\ hinv (ops ++ [o]) h' rc' nrows ncols.
  Proof.
    intros H Hs Hn Hne. assert (Hnn := hi_n _ _ _ _ _ H). assert (Hz := zlen_pos rc). rewrite nframes_app in Hn.
    assert (Ea : forall k, added (ops ++ [o]) (-1) k = added ops (-1) k ++ added [o] (zlen rc - 1) k) by (intros k; rewrite added_app; do 2 f_equal; lia).
    assert (Et : forall k i, total (ops ++ [o]) k i = radd (total ops k i) (cval (added [o] (zlen rc - 1) k) i)) by (intros k i; unfold total; rewrite Ea, sum_app; reflexivity).
    destruct o as [|i v]; cbn [sstep nframes added] in *.
    - assert (Hsafe : safe rc) by (destruct Hs as [Hs|Hs]; [auto|congruence]).
      destruct (insert_frame_ok R isz h rc (hi_rep _ _ _ _ _ H) Hsafe) as (h' & E1 & E2 & E3 & E4 & E5 & E6); [rewrite (hi_alloc _ _ _ _ _ H); lia|].
      exists h', ([] :: finish rc). split; auto.
      assert (Zf : zlen (finish rc) = zlen rc) by (destruct rc; reflexivity).
      assert (Hcol : forall k, 0 <= k < zlen rc -> colk ([] :: finish rc) k = colk rc k \/ colk ([] :: finish rc) k = filter nz (colk rc k)).
      { intros k Hk. rewrite colk_old by lia. destruct rc as [|c r]; [auto|]. cbn [SmhProofs.finish]. rewrite zlen_cons in Hk.
        destruct (Z.eq_dec k (zlen r)) as [->|Hk2]; [rewrite !colk_cur; auto|rewrite !colk_old by lia; auto]. }
      constructor; auto; try lia.
      + rewrite zlen_cons, nframes_app, Zf. cbn [nframes]. lia.
      + intros k j Hk. rewrite zlen_cons, Zf in Hk. rewrite Et. unfold SmhProofs.cval at 2. cbn [sum].
        destruct (Z.eq_dec k (zlen rc)) as [->|Hk2].
        * rewrite <- Zf at 1. rewrite colk_cur. unfold total. rewrite added_future by lia. unfold SmhProofs.cval. cbn [sum]. ring.
        * rewrite <- (hi_val _ _ _ _ _ H) by lia. destruct (Hcol k ltac:(lia)) as [->| ->]; rewrite ?(cval_filter R isz isz_ok); ring.
      + intros k p Hk Hp. rewrite zlen_cons, Zf in Hk. rewrite Ea, app_nil_r. destruct (Z.eq_dec k (zlen rc)) as [->|Hk2].
        * rewrite <- Zf in Hp at 1. rewrite colk_cur in Hp. destruct Hp.
        * apply (hi_idx _ _ _ _ _ H); [lia|]. destruct (Hcol k ltac:(lia)) as [X|X]; rewrite X in Hp; [auto|apply filter_In in Hp; tauto].
      + intros k Hk Hc. rewrite zlen_cons, Zf in Hk. rewrite Ea, app_nil_r. destruct (Z.eq_dec k (zlen rc)) as [->|Hk2].
        * rewrite <- Zf in Hc at 1. rewrite colk_cur in Hc. congruence.
        * apply (hi_ne _ _ _ _ _ H); [lia|]. destruct (Hcol k ltac:(lia)) as [X|X]; rewrite X in Hc; [auto|]. intros X2. rewrite X2 in Hc. apply Hc. reflexivity.
      + rewrite E4. apply (hi_cap _ _ _ _ _ H).
      + rewrite E3. apply (hi_alloc _ _ _ _ _ H).
      + rewrite E5. apply (hi_rows _ _ _ _ _ H).
      + rewrite E6. apply (hi_cols _ _ _ _ _ H).
    - destruct rc as [|c r]; [destruct Hne; congruence|]. assert (Hzr := zlen_pos r).
      destruct (insert_value_ok R isz h c r i v (hi_rep _ _ _ _ _ H) (hi_cap _ _ _ _ _ H)) as (h' & E1 & E2 & E3 & E4 & E5 & E6).
      exists h', ((if isz v then c else cins c i v) :: r). split; auto. rewrite zlen_cons in *.
      assert (Hold : forall k, 0 <= k < zlen r -> added [OVal i v] (1 + zlen r - 1) k = []).
      { intros k Hk. cbn [added]. replace (1 + zlen r - 1 =? k) with false by lia. reflexivity. }
      assert (Hcur : added [OVal i v] (1 + zlen r - 1) (zlen r) = [(i, v)]).
      { cbn [added]. replace (1 + zlen r - 1 =? zlen r) with true by lia. reflexivity. }
      fold (@added R [OVal i v]) in *. change (if 1 + zlen r - 1 =? zlen r then [(i, v)] else []) with (added [OVal i v] (1 + zlen r - 1) (zlen r)) in *.
      constructor; auto; rewrite ?zlen_cons; try lia.
      + rewrite nframes_app. cbn [nframes]. lia.
      + intros k j Hk. rewrite Et. destruct (Z.eq_dec k (zlen r)) as [->|Hk2].
        * rewrite colk_cur. replace (1 + zlen r - 1 =? zlen r) with true by lia. assert (X := hi_val _ _ _ _ _ H (zlen r) j). rewrite zlen_cons, colk_cur in X. rewrite <- X by lia.
          destruct (isz v) eqn:Ev; [apply isz_ok in Ev; rewrite Ev; unfold SmhProofs.cval at 3; cbn [sum fst snd]; destruct (i =? j); ring|].
          rewrite cval_cins. unfold SmhProofs.cval at 3. cbn [sum fst snd]. ring.
        * assert (X := hi_val _ _ _ _ _ H k j). rewrite zlen_cons, colk_old in X by lia. rewrite colk_old by lia. rewrite X by lia.
          replace (1 + zlen r - 1 =? k) with false by lia. unfold SmhProofs.cval. cbn [sum]. ring.
      + intros k p Hk Hp. rewrite Ea, map_app, in_app_iff. destruct (Z.eq_dec k (zlen r)) as [->|Hk2].
        * rewrite colk_cur in Hp. replace (1 + zlen r - 1 =? zlen r) with true by lia. cbn [map fst In].
          assert (X := hi_idx _ _ _ _ _ H (zlen r)). rewrite zlen_cons, colk_cur in X.
          destruct (isz v); [left; apply X; auto; lia|]. apply (in_map fst) in Hp. apply cins_fst in Hp. destruct Hp as [->|Hp]; [auto|].
          apply in_map_iff in Hp. destruct Hp as (q & Eq & Hq). rewrite <- Eq. left. apply X; auto.
        * left. rewrite colk_old in Hp by lia. apply (hi_idx _ _ _ _ _ H); [rewrite zlen_cons; lia|]. rewrite colk_old by lia. auto.
      + intros k Hk Hc. rewrite Ea. destruct (Z.eq_dec k (zlen r)) as [->|Hk2].
        * rewrite colk_cur in Hc. destruct (isz v) eqn:Ev.
          -- assert (X := hi_ne _ _ _ _ _ H (zlen r)). rewrite zlen_cons, colk_cur in X. destruct X as (p & Hp & Hv); [lia|auto|].
             exists p. split; auto. apply in_app_iff. auto.
          -- exists (i, v). split; [|apply isz_false; auto]. apply in_app_iff. right. replace (1 + zlen r - 1 =? zlen r) with true by lia. left. reflexivity.
        * rewrite colk_old in Hc by lia. assert (X := hi_ne _ _ _ _ _ H k). rewrite zlen_cons, colk_old in X by lia. destruct X as (p & Hp & Hv); [lia|auto|].
          exists p. split; auto. apply in_app_iff. auto.
      + assert (X := hi_cap _ _ _ _ _ H). lia.
      + rewrite E3. apply (hi_alloc _ _ _ _ _ H).
      + rewrite E5. apply (hi_rows _ _ _ _ _ H).
      + rewrite E6. apply (hi_cols _ _ _ _ _ H).
  Qed.

  Lemma hinv_run rest : forall ops h rc nrows ncols, hinv ops h rc nrows ncols -> not_cancelled (ops ++ rest) -> nframes (ops ++ rest) <= ncols ->
    (rc <> [] \/ rest = [] \/ exists o, rest = OFrame :: o) -> exists h' rc', for_ rest h (sstep isz) = Ok h' /\ hinv (ops ++ rest) h' rc' nrows ncols.
  Proof.
    induction rest as [|o rest IH]; intros ops h rc nrows ncols H Hnc Hn Hf.
    - exists h, rc. rewrite app_nil_r. auto.
    - replace (ops ++ o :: rest) with ((ops ++ [o]) ++ rest) in * by (rewrite <- app_assoc; reflexivity).
      assert (X := nframes_nonneg rest). rewrite nframes_app in Hn.
      destruct (hinv_step o ops h rc nrows ncols H) as (h1 & rc1 & E1 & H1).
      + destruct o; [left|right; discriminate]. rewrite <- app_assoc in Hnc. apply (hinv_safe _ _ _ _ _ _ H (or_intror (ex_intro _ rest eq_refl)) Hnc).
      + lia.
      + intros Ho. destruct Hf as [Hf|[Hf|(o' & Hf)]]; [auto|discriminate|injection Hf as Hf _; congruence].
      + cbn [for_]. rewrite E1. cbn [bind]. apply (IH _ h1 rc1); auto; [rewrite nframes_app; lia|].
        left. intros ->. assert (Y := hi_n _ _ _ _ _ H1). rewrite nframes_app in Y. unfold zlen in Y. cbn [length] in Y. assert (Z1 := nframes_nonneg ops).
        destruct o; cbn [nframes] in Y; [lia|]. assert (Y2 := hi_n _ _ _ _ _ H). destruct rc; [|rewrite zlen_cons in Y2; assert (Z2 := zlen_pos rc); lia].
        destruct Hf as [Hf|[Hf|(o' & Hf)]]; congruence.
  Qed.

  Lemma hinv_init jd ji jp nrows ncols est : 1 <= ncols -> est <> 0 -> exists h, smh_init jd ji jp nrows ncols est = Ok h /\ hinv [] h [] nrows ncols.
  Proof.
    intros Hn He. unfold smh_init. set (e := if est <? 0 then ncols else est).
    assert (He1 : 1 <= e) by (unfold e; destruct (est <? 0) eqn:Ee; lia). clearbody e.
    replace ((ncols <? 0) || (e <? 0)) with false by lia.
    rewrite bset_ok by (cbn [blen]; lia); cbn [bind]; eexists; split; [reflexivity|].
    all: constructor; cbn; auto; try lia; try (intros; unfold zlen in *; cbn in *; lia).
    all: constructor; cbn; auto; try lia; try (intros ? []); try (unfold zlen; cbn; lia).
    all: repeat split; cbn; try (unfold zlen; cbn; lia); intros [|n] x; discriminate.
  Qed.

  Definition first_frame (ops : list (sop R)) : Prop := exists o, ops = OFrame :: o.

  Theorem smh_builds jd ji jp nrows ncols est ops : first_frame ops -> nframes ops = ncols -> est <> 0 -> not_cancelled ops ->
    (forall i v, In (OVal i v) ops -> 0 <= i < nrows) ->
    exists m, (let! h := srun isz jd ji jp nrows ncols est ops in build_matrix isz h) = Ok m /\
      cs_valid m /\ cs_n m = ncols /\ cs_inner m = nrows /\
      (forall k i, 0 <= k < ncols -> entry m k i = total ops k i) /\
      (forall k t, 0 <= k < ncols -> In t (slice m k) -> bat (cs_data m) t <> r0) /\
      (forall k t t', 0 <= k < ncols -> In t (slice m k) -> In t' (slice m k) -> t < t' -> bat (cs_idx m) t < bat (cs_idx m) t') /\
      blen (cs_data m) = bat (cs_off m) ncols /\ blen (cs_idx m) = bat (cs_off m) ncols.
  Proof.
    intros [o Ho] Hn He Hnc Hidx. assert (Hnn := nframes_nonneg o). assert (Hn1 : 1 <= ncols) by (rewrite Ho in Hn; cbn [nframes] in Hn; lia).
    destruct (hinv_init jd ji jp nrows ncols est Hn1 He) as (h0 & E0 & H0). unfold srun. rewrite E0. cbn [bind].
    destruct (hinv_run ops [] h0 [] nrows ncols H0) as (h & rc & E & H); auto; [cbn; lia|right; right; exists o; auto|].
    cbn [app] in H. rewrite E. cbn [bind]. assert (Hz := hi_n _ _ _ _ _ H).
    destruct rc as [|c r]; [unfold zlen in Hz; cbn in Hz; lia|].
    assert (Hs : safe (c :: r)) by (apply (hinv_safe _ [] _ _ _ _ H); [auto|rewrite app_nil_r; auto]).
    destruct (build_ok R isz h c r (hi_rep _ _ _ _ _ H) Hs) as (m & Em & Hm & Hi).
    { rewrite (hi_alloc _ _ _ _ _ H). lia. } { rewrite (hi_cols _ _ _ _ _ H), (hi_alloc _ _ _ _ _ H). auto. }
    exists m. split; [exact Em|]. set (rc := filter nz c :: r) in *.
    assert (Zrc : zlen rc = ncols) by (unfold rc; rewrite zlen_cons in *; lia).
    assert (Hcol : forall k, 0 <= k < ncols -> colk rc k = colk (c :: r) k \/ colk rc k = filter nz (colk (c :: r) k)).
    { intros k Hk. unfold rc in *. rewrite zlen_cons in *. destruct (Z.eq_dec k (zlen r)) as [->|Hk2]; [rewrite !colk_cur; auto|rewrite !colk_old by lia; auto]. }
    assert (Hsp : forall k, 0 <= k < ncols -> exists r2 r1, rc = r2 ++ colk rc k :: r1 /\ zlen r1 = k).
    { intros k Hk. destruct (split_rev rc (Z.to_nat k)) as (r2 & d & r1 & E1 & El); [unfold zlen in Zrc; lia|].
      exists r2, r1. split; [|unfold zlen; lia]. replace (colk rc k) with d; auto. unfold colk. rewrite E1, <- El. symmetry. apply nth_rev_split. }
    assert (Hnzf : forall p, In p (flat rc) -> nz p = true).
    { intros p Hp. unfold rc in Hp. cbn [SmhProofs.flat] in Hp. apply in_app_iff in Hp. destruct Hp as [Hp|Hp]; [apply (rp_nz _ _ _ _ (hi_rep _ _ _ _ _ H)); auto|apply filter_In in Hp; tauto]. }
    assert (Hsr : Forall csorted rc).
    { assert (X := rp_sorted _ _ _ _ (hi_rep _ _ _ _ _ H)). inversion X; subst. constructor; auto. apply csorted_filter; auto. }
    assert (Hadd : forall o cur k p, In p (@added R o cur k) -> In (OVal (fst p) (snd p)) o).
    { induction o0 as [|[|i v] o0 IHo]; intros cur k p Hp; cbn [added] in Hp; [destruct Hp|right; eauto|]. destruct (cur =? k); [|right; eauto].
      destruct Hp as [<-|Hp]; [left; auto|right; eauto]. }
    split; [|split; [|split; [|split; [|split; [|split; [|split]]]]]].
    - apply (mc_valid R m rc Hm); intros p Hp; apply flat_colk in Hp; destruct Hp as (k & Hk & Hp); rewrite Hi, (hi_rows _ _ _ _ _ H);
      (assert (Hp2 : In p (colk (c :: r) k)) by (destruct (Hcol k ltac:(lia)) as [X|X]; rewrite X in Hp; [auto|apply filter_In in Hp; tauto]));
      apply (hi_idx _ _ _ _ _ H) in Hp2; [|lia]; apply in_map_iff in Hp2; destruct Hp2 as (q & <- & Hq); apply Hadd in Hq; eapply Hidx; eauto.
    - rewrite (mc_n _ _ _ Hm). auto.
    - rewrite Hi. apply (hi_rows _ _ _ _ _ H).
    - intros k i Hk. destruct (Hsp k Hk) as (r2 & r1 & E1 & Er). assert (Hm2 := Hm). rewrite E1 in Hm2. rewrite <- Er at 1. rewrite (mc_entry R m r2 _ r1 i Hm2).
      rewrite <- (hi_val _ _ _ _ _ H) by lia. destruct (Hcol k Hk) as [->| ->]; auto. apply cval_filter; auto.
    - intros k t Hk Ht. destruct (Hsp k Hk) as (r2 & r1 & E1 & Er). assert (Hm2 := Hm). rewrite E1 in Hm2. destruct (mc_slice R m r2 _ r1 Hm2) as (_ & _ & Es & Hx).
      rewrite <- Er, Es in Ht. apply zseq_In in Ht. rewrite Er in *. destruct (nth_error (colk rc k) (Z.to_nat (t - tot r1))) as [p|] eqn:En; [|apply nth_error_None in En; lia].
      destruct (Hx _ _ En) as [_ X]. replace (tot r1 + Z.of_nat (Z.to_nat (t - tot r1))) with t in X by lia. rewrite X.
      apply isz_false. apply nth_error_In in En. apply colk_flat in En; [|lia]. apply Hnzf in En. unfold SmhProofs.nz in En. destruct (isz (snd p)); [discriminate|auto].
    - intros k t t' Hk Ht Ht' Hlt. destruct (Hsp k Hk) as (r2 & r1 & E1 & Er). assert (Hm2 := Hm). rewrite E1 in Hm2. destruct (mc_slice R m r2 _ r1 Hm2) as (_ & _ & Es & Hx).
      rewrite <- Er, Es in Ht, Ht'. apply zseq_In in Ht, Ht'. rewrite Er in *.
      destruct (nth_error (colk rc k) (Z.to_nat (t - tot r1))) as [p|] eqn:En; [|apply nth_error_None in En; lia].
      destruct (nth_error (colk rc k) (Z.to_nat (t' - tot r1))) as [p'|] eqn:En'; [|apply nth_error_None in En'; lia].
      destruct (Hx _ _ En) as [X _]. destruct (Hx _ _ En') as [X' _].
      replace (tot r1 + Z.of_nat (Z.to_nat (t - tot r1))) with t in X by lia. replace (tot r1 + Z.of_nat (Z.to_nat (t' - tot r1))) with t' in X' by lia. rewrite X, X'.
      assert (Hso : csorted (colk rc k)). { rewrite Forall_forall in Hsr. apply Hsr. rewrite E1 at 2. apply in_app_iff. right. left. auto. }
      destruct (nth_error_split _ _ En') as (l1 & l2 & El & Hl). rewrite El in Hso. unfold SmhProofs.csorted in Hso. rewrite map_app in Hso. cbn [map] in Hso.
      apply (SS_app_inv_lt _ _ Hso); [|left; auto]. apply in_map. rewrite El, nth_error_app1 in En by lia. eapply nth_error_In; eauto.
    - rewrite (mc_dlen _ _ _ Hm), <- Zrc, (mc_last _ _ _ Hm). reflexivity.
    - rewrite (mc_ilen _ _ _ Hm), <- Zrc, (mc_last _ _ _ Hm). reflexivity.
  Qed.

  Theorem smh_too_few jd ji jp nrows ncols est ops : first_frame ops -> nframes ops < ncols -> est <> 0 -> not_cancelled ops ->
    (let! h := srun isz jd ji jp nrows ncols est ops in build_matrix isz h) = Throw.
  Proof.
    intros [o Ho] Hn He Hnc. assert (Hnn := nframes_nonneg ops).
    destruct (hinv_init jd ji jp nrows ncols est ltac:(lia) He) as (h0 & E0 & H0). unfold srun. rewrite E0. cbn [bind].
    destruct (hinv_run ops [] h0 [] nrows ncols H0) as (h & rc & E & H); auto; [cbn; lia|right; right; exists o; auto|].
    rewrite E. cbn [bind]. unfold build_matrix. rewrite (rep_size _ _ _ _ (hi_rep _ _ _ _ _ H)), (hi_n _ _ _ _ _ H), (hi_alloc _ _ _ _ _ H). cbn [app].
    replace (nframes ops =? ncols) with false by lia. reflexivity.
  Qed.
  Theorem smh_too_many jd ji jp nrows ncols est ops rest : first_frame ops -> 1 <= ncols -> nframes ops = ncols -> est <> 0 -> not_cancelled ops ->
    srun isz jd ji jp nrows ncols est (ops ++ OFrame :: rest) = Throw.
  Proof.
    intros [o Ho] Hn1 Hn He Hnc.
    destruct (hinv_init jd ji jp nrows ncols est Hn1 He) as (h0 & E0 & H0). unfold srun. rewrite E0. cbn [bind].
    destruct (hinv_run ops [] h0 [] nrows ncols H0) as (h & rc & E & H); auto; [cbn; lia|right; right; exists o; auto|].
    rewrite for_app, E. cbn [bind for_ sstep]. unfold insert_frame. rewrite (rep_size _ _ _ _ (hi_rep _ _ _ _ _ H)), (hi_n _ _ _ _ _ H), (hi_alloc _ _ _ _ _ H). cbn [app].
    replace (nframes ops =? ncols) with true by lia. reflexivity.
  Qed.
End Hist.

Definition zisz (x : Zcr) : bool := Z.eqb x 0.
Lemma zisz_ok (x : Zcr) : zisz x = true <-> x = r0. Proof. apply Z.eqb_eq. Qed.
Definition ex_ops : list (sop Zcr) :=
  [OFrame; OVal 4 (7 : Zcr); OVal 1 (5 : Zcr); OVal 4 (-3 : Zcr); OFrame; OVal 2 (6 : Zcr); OVal 2 (-6 : Zcr); OVal 0 (0 : Zcr); OFrame; OFrame; OVal 5 (1 : Zcr); OVal 0 (2 : Zcr); OVal 3 (-9 : Zcr)].
Definition csmat_lists {R : cring} (m : outcome (csmat R)) : option (list Z * list Z * list R) :=
  match m with
  | Ok m => Some (map (bat (cs_off m)) (zrange (blen (cs_off m))), map (bat (cs_idx m)) (zrange (blen (cs_idx m))), map (bat (cs_data m)) (zrange (blen (cs_data m))))
  | _ => None end.
Lemma ex_ops_ok : first_frame Zcr ex_ops /\ nframes ex_ops = 4 /\ not_cancelled ex_ops /\ (forall i v, In (OVal i v) ex_ops -> 0 <= i < 6).
Proof.
  split; [eexists; reflexivity|]. split; [reflexivity|]. split.
  - intros k (p & Hp & _). exists 0, 1. assert (Hk : 0 <= k).
    { destruct (Z_lt_le_dec k 0) as [H|H]; auto. unfold ex_ops in Hp. cbn [added] in Hp.
      repeat match type of Hp with context [if ?a =? k then _ else _] => replace (a =? k) with false in Hp by lia end. destruct Hp. }
    split; [lia|]. vm_compute. discriminate.
  - intros i v H. cbn [ex_ops In] in H. repeat (destruct H as [H|H]; [try discriminate; injection H as <- <-; lia|]). destruct H.
Qed.
Lemma ex_ops_result : csmat_lists (let! h := srun zisz (fun _ => 77 : Zcr) (fun _ => 88) (fun _ => 99) 6 4 1 ex_ops in build_matrix zisz h) =
  Some ([0; 2; 2; 2; 5], [1; 4; 0; 3; 5], [5 : Zcr; 4 : Zcr; 2 : Zcr; -9 : Zcr; 1 : Zcr]).
Proof. vm_compute. reflexivity. Qed.

(** A first column whose values cancel. *)
Definition cancel_ops : list (sop Zcr) := [OFrame; OVal 2 (6 : Zcr); OVal 2 (-6 : Zcr); OFrame; OVal 1 (1 : Zcr)].
Lemma cancel_ub jd ji jp : (let! h := srun zisz jd ji jp 4 2 8 cancel_ops in build_matrix zisz h) = UB.
Proof. reflexivity. Qed.
Definition short_ops : list (sop Zcr) := [OFrame; OVal 2 (6 : Zcr)].
Lemma est_zero_ub jd ji jp : (let! h := srun zisz jd ji jp 4 1 0 short_ops in build_matrix zisz h) = UB.
Proof. reflexivity. Qed.
Lemma no_frame_ub jd ji jp est i v : 1 <= est -> v <> 0 -> srun zisz jd ji jp 4 1 est [OVal i (v : Zcr)] = UB.
Proof.
  intros He Hv. unfold srun, smh_init. replace (est <? 0) with false by lia. replace ((1 <? 0) || (est <? 0)) with false by lia. cbn.
  unfold insert_value. assert (X : zisz (v : Zcr) = false) by (unfold zisz; apply Z.eqb_neq; auto). rewrite X. reflexivity.
Qed.
