(** Proofs about streams of sound files made from Python, and cases. *)
From Coq Require Import ZArith QArith Qround List Bool String Lia.
Import ListNotations.
From Verif Require Import Outcome Alg SchemaModel SchemaSpec SchemaProofs SchemaProofs2 PsModel PtPad PtEx PtPadWhole SfModel SfSpec SfProofs.
Open Scope nat_scope.
Open Scope list_scope.

Section Sound.
  Variable R : cring.
  Notation sound := (sound R).
  Lemma fill_length s p c : forall l i w w', fill R s p c i l w = Ok w' -> List.length w' = List.length w.
  Proof.
    induction l as [|[n ch] l IH]; intros i w w'; cbn [fill]; [now intros [= <-]|]. destruct channel_to_stream_dim as [out| | |]; cbn [bind]; try discriminate.
    destruct at_index as [x| | |]; cbn [bind]; try discriminate. match goal with |- bind ?e _ = _ -> _ => destruct e end; cbn [bind]; try discriminate.
    unfold write_at. destruct (_ <? _)%nat; cbn [bind]; try discriminate. intros H. apply IH in H. now rewrite upd_len in H.
  Qed.
  Lemma row_lengths f s : forall n pos p w rows, read_rows R f s n pos p w = Ok rows -> Forall (fun r => List.length r = List.length w) rows.
  Proof.
    induction n as [|n IH]; intros pos p w rows; cbn [read_rows]; [intros [= <-]; constructor|]. destruct fill as [w1| | |] eqn:F; cbn [bind]; try discriminate.
    destruct read_rows as [r| | |] eqn:E; cbn [bind]; try discriminate. intros [= <-]. apply fill_length in F. constructor; [exact F|]. apply IH in E. now rewrite F in E.
  Qed.
  Lemma query_lengths f s p q rows : query R f s p q = Ok rows -> Forall (fun r => List.length r = width s) rows.
  Proof.
    unfold query. destruct (Z.eqb _ _); [intros [= <-]; constructor|]. destruct (_ && _ && _)%bool; [|discriminate]. intros H. apply row_lengths in H. now rewrite repeat_length in H.
  Qed.
  Lemma regroup_rows w : forall rows : list (list R), Forall (fun r => List.length r = w) rows -> regroup R (List.length rows) w (List.concat rows) = Ok rows.
  Proof.
    induction rows as [|r rows IH]; intros H; [reflexivity|]. inversion H as [|x y Hr Hs]; subst x y. cbn [List.length List.concat regroup].
    assert (L : (List.length (r ++ List.concat rows) <? w)%nat = false) by (apply Nat.ltb_ge; rewrite app_length; lia). rewrite L.
    rewrite skipn_app, skipn_all2, Hr, Nat.sub_diag by lia. cbn [app skipn]. rewrite (IH Hs). cbn [bind]. rewrite firstn_app, Hr, Nat.sub_diag, firstn_all2 by lia. cbn [firstn]. now rewrite app_nil_r.
  Qed.
  (** with one width and one type, the stream has the rows of the query *)
  Theorem increments_are f st p q : Z.to_nat (ss_width st) = width (ss_schema st) -> increments R f st (ss_type st) p q = query R f (ss_schema st) p q.
  Proof.
    intros W. unfold increments. destruct (query R f (ss_schema st) p q) as [rows| | |] eqn:Q; cbn [bind]; try reflexivity. destruct rows as [|r rows]; [reflexivity|].
    rewrite Nat.eqb_refl, W. apply regroup_rows. eapply query_lengths; eauto.
  Qed.
  (** what every stream made has *)
  Theorem uri_has f k st : from_uri R f k = Ok st -> final (ss_schema st) = true /\ ss_width st = Z.of_nat (sd_channels R f) /\ ss_type st = snd (ss_ctx st) /\
    (ss_end st == inject_Z (num_frames R f) / inject_Z (sd_rate R f))%Q.
  Proof.
    unfold from_uri. destruct (kwargs_to_metadata k) as [md| | |] eqn:M; cbn [bind]; try discriminate.
    assert (T : forall w d t, md_ctx md = Some (w, d, t) -> md_type md = Some t).
    { unfold kwargs_to_metadata in M. destruct (read_schema (k_schema k)) as [s| | |]; cbn [bind] in M; try discriminate. destruct (read_channels (k_channels k) s) as [[s1 df]| | |]; cbn [bind] in M; try discriminate.
      destruct (read_time (k_time k) _) as [[s2 tm]| | |]; cbn [bind] in M; try discriminate. destruct (k_ctx k) as [[[w d] t]|]; destruct (final s2); [destruct (k_width k); [destruct (Z.eqb _ _)|]| |destruct (k_width k); [destruct (Z.eqb _ _)|]|];
      try discriminate; injection M as <-; cbn [md_ctx md_type]; intros ? ? ? [= <- <- <-] || intros ? ? ? [=]; try reflexivity. }
    match goal with |- bind ?e _ = _ -> _ => destruct e as [w| | |] eqn:W end; cbn [bind]; try discriminate.
    assert (Ew : w = Z.of_nat (sd_channels R f)) by (destruct (Z.eqb (md_width md) 0); [congruence|destruct (Z.eqb (md_width md) _); congruence]).
    match goal with |- bind ?e _ = _ -> _ => destruct e as [c| | |] eqn:C end; cbn [bind]; try discriminate.
    match goal with |- bind ?e _ = _ -> _ => destruct e as [s| | |] eqn:S end; cbn [bind]; try discriminate. intros [= <-]. cbn [ss_schema ss_width ss_type ss_ctx ss_end].
    split; [|split; [exact Ew|split; [|reflexivity]]].
    - destruct (final (md_schema md)) eqn:F; [congruence|]. unfold finalize in S. destruct (_ && _)%bool; [discriminate|]. destruct inserts as [s1| | |]; cbn [bind] in S; try discriminate. now injection S as <-.
    - destruct (md_ctx md) as [[[a b] t]|] eqn:X; [injection C as <-; cbn [snd]; now rewrite (T a b t eq_refl)|]. destruct (_ || _)%bool; [discriminate|]. injection C as <-. reflexivity.
  Qed.
  (** with no schema and no time: one increment channel for each channel of the file *)
  Theorem uri_plain f k t st : only_type k t -> timed k = false -> from_uri R f k = Ok st -> ss_schema st = mkSch (map auto (seq 0 (sd_channels R f))) true false.
  Proof.
    intros Hk Ht. unfold from_uri. destruct (kwargs_to_metadata k) as [md| | |] eqn:M; cbn [bind]; try discriminate. destruct (meta_type k t md Hk M) as (C & F & T0 & Tm & _ & _).
    match goal with |- bind ?e _ = _ -> _ => destruct e as [w| | |] eqn:W end; cbn [bind]; try discriminate.
    assert (Ew : w = Z.of_nat (sd_channels R f)) by (destruct (Z.eqb (md_width md) 0); [congruence|destruct (Z.eqb (md_width md) _); congruence]). subst w.
    match goal with |- bind ?e _ = _ -> _ => destruct e as [c| | |] eqn:Cx end; cbn [bind]; try discriminate. rewrite F. rewrite Ht in T0. destruct (md_schema md) as [c0 f0 b0]. cbn [chans final time] in C, F, T0. subst c0 f0 b0.
    unfold finalize. replace (width (mkSch [] false false)) with 0 by reflexivity. rewrite Nat.sub_0_r, Nat2Z.id.
    replace ((0 <? Z.of_nat (sd_channels R f))%Z && (Z.of_nat (sd_channels R f) <? Z.of_nat 0)%Z)%bool with false by (symmetry; apply andb_false_iff; right; apply Z.ltb_ge; lia).
    destruct (inserts_auto (sd_channels R f) 0 (mkSch [] false false) eq_refl) as (m & Lm & E & _ & En). rewrite E. cbn [bind chans final time app]. intros [= <-]. cbn [ss_schema].
    assert (m = sd_channels R f) as -> by (destruct (Nat.eq_dec m (sd_channels R f)); [auto|destruct (En ltac:(lia))]). reflexivity.
  Qed.
  Lemma auto_chan n c : c < n -> nth_error (map auto (seq 0 n)) c = Some (auto c).
  Proof. intros H. apply map_nth_error. rewrite (nth_error_nth' _ 0) by (rewrite seq_length; lia). now rewrite seq_nth. Qed.
  Lemma auto_to n f t c : c <= n -> width_to (mkSch (map auto (seq 0 n)) f t) c = c.
  Proof.
    intros H. rewrite width_to_sum. cbn [chans]. replace n with (c + (n - c)) by lia. rewrite seq_app, map_app, firstn_app, map_length, seq_length, Nat.sub_diag, firstn_all2 by (rewrite map_length, seq_length; lia).
    cbn [firstn]. rewrite app_nil_r. apply auto_width.
  Qed.
  Lemma auto_fits (f : sound) : fits R f (mkSch (map auto (seq 0 (sd_channels R f))) true false).
  Proof.
    split; [unfold size; cbn [chans]; rewrite map_length, seq_length; lia|]. intros x Hx. cbn [chans] in Hx. apply in_map_iff in Hx as (y & <- & _). cbn. lia.
  Qed.
  Lemma auto_row (f : sound) n r : whole R f -> n < List.length (sd_frames R f) -> row_of R f (mkSch (map auto (seq 0 (sd_channels R f))) true false) n r -> nth_error (sd_frames R f) n = Some r.
  Proof.
    intros [_ W] Hn (L & C & _). rewrite Forall_forall in W. assert (E : nth_error (sd_frames R f) n = Some (nth n (sd_frames R f) [])) by now apply nth_error_nth'. rewrite E. f_equal.
    pose proof (W _ (nth_error_In _ _ E)) as Lf. assert (Wd : width (mkSch (map auto (seq 0 (sd_channels R f))) true false) = sd_channels R f) by (rewrite width_sum; cbn [chans time]; rewrite auto_width; lia).
    rewrite Wd in L. apply SfProofs.nth_ext. intros d. destruct (Nat.lt_ge_cases d (sd_channels R f)) as [Hd|Hd].
    - specialize (C d (to_string d) (Increment false)). rewrite auto_to in C by lia. rewrite C by (apply auto_chan; exact Hd). cbn [entry]. unfold sample. now apply nth_error_nth'; rewrite Lf.
    - transitivity (@None R); [|symmetry]; apply nth_error_None; lia.
  Qed.
  Lemma auto_rows (f : sound) : whole R f -> forall rows n, n + List.length rows <= List.length (sd_frames R f) -> rows_of R f (mkSch (map auto (seq 0 (sd_channels R f))) true false) n rows ->
    rows = firstn (List.length rows) (skipn n (sd_frames R f)).
  Proof.
    intros W. induction rows as [|r rows IH]; intros n L; cbn [rows_of List.length firstn] in *; [reflexivity|]. intros [H1 H2]. apply auto_row in H1; [|exact W|lia].
    apply nth_error_split in H1 as (l1 & l2 & E & Ln). assert (S1 : skipn n (sd_frames R f) = r :: l2) by (rewrite E, <- Ln, skipn_app, skipn_all, Nat.sub_diag; reflexivity).
    rewrite S1. f_equal. assert (S2 : skipn (S n) (sd_frames R f) = l2) by (rewrite E, skipn_app, skipn_all2, Ln by lia; replace (S n - n) with 1 by lia; reflexivity).
    rewrite <- S2. apply IH; [lia|exact H2].
  Qed.
  (** then the increments are the frames themselves *)
  Theorem uri_frames f k t st p q b e : whole R f -> only_type k t -> timed k = false -> from_uri R f k = Ok st -> (p <= q)%Q -> first_at R f p b -> first_at R f q e ->
    (0 <= b)%Z -> (e <= num_frames R f)%Z -> increments R f st (snd (ss_ctx st)) p q = Ok (firstn (Z.to_nat e - Z.to_nat (Z.max 1 b)) (skipn (Z.to_nat (Z.max 1 b)) (sd_frames R f))).
  Proof.
    intros W Hk Ht H Hpq Hb He H0 H1. destruct (uri_has f k st H) as (_ & Hw & Hty & _). pose proof (uri_plain f k t st Hk Ht H) as S. rewrite <- Hty.
    rewrite increments_are by (rewrite Hw, S, Nat2Z.id, width_sum; cbn [chans time]; rewrite auto_width; lia). rewrite S.
    destruct (query_is R f _ p q b e W (auto_fits f) Hpq Hb He) as (A & B & _).
    pose proof (frame_mono R f p q (proj1 W) Hpq) as M. rewrite (first_unique R f _ _ _ (frame_first R f p) Hb), (first_unique R f _ _ _ (frame_first R f q) He) in M.
    destruct (Z.eq_dec b e) as [E|Ne].
    - rewrite (A E). f_equal. replace (Z.to_nat e - Z.to_nat (Z.max 1 b)) with 0 by lia. reflexivity.
    - destruct (B Ne H0 H1) as (rows & Q & L & Rs). rewrite Q. f_equal. unfold from_frame in *. rewrite <- L. apply auto_rows; [exact W| |exact Rs]. unfold num_frames in H1. lia.
  Qed.
End Sound.
