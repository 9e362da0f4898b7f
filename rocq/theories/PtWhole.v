(** Proofs about ticks given from Python: streams whose schema is made by the ticks. *)
From Coq Require Import ZArith QArith List Bool Ascii String Lia.
Import ListNotations.
From Verif Require Import Outcome Alg SchemaModel SchemaProofs PsModel PsSpec PsProofs PtModel PtSpec PtProofs PtRows PtSchema.
Open Scope nat_scope.
Open Scope list_scope.

Section Whole.
  Variable data : Type.
  Variable R : cring.
  Variable to_label : data -> outcome string.
  Variable to_scalar : data -> outcome R.
  Variable lie : Type.
  Variable co : coordinates_of R lie.
  Notation call := (call data).
  Notation channel_of := (channel_of data to_label).
  Notation channels_of := (channels_of data to_label).
  Notation labels := (map (c_label data)).
  Notation stream := (from_ticks data R to_label to_scalar lie (co_zero R lie co) (co_letter R lie co) r1 (co_sub R lie co) (co_cbh R lie co) (co_set R lie co)).

  Lemma extend_final s c s' : extend_schema data to_label s c = Ok s' -> final s' = final s.
  Proof.
    unfold extend_schema. destruct (final s) eqn:F; [congruence|]. unfold insert. rewrite F. unfold find_mut. destruct (String.eqb (c_label data c) ""); rewrite F; cbn [bind];
    (destruct find as [i|]; cbn [bind]; (destruct (c_type data c); [congruence|congruence| |congruence] || (destruct (c_type data c); try (intros [= <-]; auto))));
    destruct (c_data data c) as [d|]; try (intros [= <-]; auto); destruct (to_label d) as [v| | |]; cbn [bind]; try discriminate; unfold on_channel; destruct nth_error as [x|]; try discriminate; cbn [bind]; intros [= <-]; auto.
  Qed.
  Lemma add_tick_keeps h c h' : add_tick data h c = Ok h' -> hp_schema _ h' = hp_schema _ h /\ hp_only _ h' = hp_only _ h.
  Proof.
    unfold add_tick. destruct (hp_only data h) eqn:O; [intros [= <-]; auto|]. destruct (c_stamp data c); try discriminate; destruct (c_data data c); try discriminate;
    (match goal with |- bind ?e _ = _ -> _ => destruct e end; cbn [bind]; try discriminate; destruct bump; intros [= <-]; auto).
  Qed.
  Lemma categories_given : forall r h h', final (hp_schema _ h) = false -> add_calls data to_label h r = Ok h' -> hp_only _ h = false ->
    Forall (fun c => c_type _ c = TCategorical -> category data to_label c <> []) r.
  Proof.
    induction r as [|c r IH]; intros h h' F; cbn [add_calls]; [constructor|]. unfold add_call. destruct extend_schema as [s| | |] eqn:X; cbn [bind]; try discriminate.
    destruct (add_tick data _ c) as [h1| | |] eqn:A; cbn [bind]; try discriminate. intros E O. constructor.
    - intros T. unfold category. rewrite T. unfold extend_schema in X. rewrite F in X. destruct (insert _ _ _) as [[s1 i]| | |]; cbn [bind] in X; try discriminate. rewrite T in X.
      unfold add_tick in A. cbn [hp_only] in A. rewrite O in A. destruct (c_data data c) as [d|]; [|destruct (c_stamp data c); discriminate]. destruct (to_label d); [discriminate|discriminate X..].
    - pose proof (add_tick_keeps _ _ _ A) as [K1 K2]. cbn [hp_schema hp_only] in K1, K2. apply (IH h1 h'); [|exact E|congruence]. rewrite K1. rewrite <- F. eapply extend_final; eauto.
  Qed.
  Lemma named_nodup : forall l vs, NoDup vs -> NoDup (named vs l).
  Proof.
    induction l as [|x l IH]; intros vs H; [exact H|]. rewrite named_step. destruct (variant_cat vs x) as [vs' E]. rewrite E. apply IH. eapply ins_good; [|exact E]. intros ws [= <-]. exact H.
  Qed.
  Lemma named_length : forall l vs, List.length vs <= List.length (named vs l).
  Proof. induction l as [|x l IH]; intros vs; cbn [named]; auto. destruct in_dec; auto. etransitivity; [|apply IH]. rewrite app_length. cbn. lia. Qed.
  Lemma named_some l : l <> [] -> 0 < List.length (named [] l).
  Proof.
    destruct l as [|x l]; [contradiction|]. intros _. cbn [named]. destruct in_dec as [[]|]. eapply Nat.lt_le_trans; [|apply named_length]. cbn. lia.
  Qed.
  Lemma channels_good calls f t : Forall usable (labels calls) -> good (mkSch (channels_of calls) f t).
  Proof.
    intros H. assert (Nm : names (channels_of calls) = first_of_each (labels calls)) by (unfold PtSpec.channels_of, names; rewrite map_map; cbn [fst]; apply map_id).
    split; [|split]; cbn [chans].
    - rewrite Nm. apply first_nodup.
    - intros x Hx. rewrite Nm, first_in in Hx. rewrite Forall_forall in H. destruct (H x Hx). split; [now apply plain_clean|auto].
    - intros n vs Hin. apply in_map_iff in Hin as (x & E & _). injection E as _ E. unfold PtSpec.channel_of in E. destruct (with_label data x calls) as [|c r]; [discriminate|]. destruct (c_type data c); try discriminate.
      injection E as <-. apply named_nodup. constructor.
  Qed.
  Lemma channels_some calls f t : Forall (fun c => c_type _ c = TCategorical -> category data to_label c <> []) calls -> no_empty_channel (mkSch (channels_of calls) f t).
  Proof.
    intros H [n ch] Hin. apply in_map_iff in Hin as (x & E & _). injection E as <- <-. cbn [snd]. unfold PtSpec.channel_of. destruct (with_label data x calls) as [|c r] eqn:W; [cbn; lia|].
    destruct (c_type data c) eqn:T; cbn [num_variants]; try lia. apply named_some. cbn [flat_map]. rewrite Forall_forall in H.
    assert (Hc : In c calls) by (apply (filter_In (fun c => String.eqb (c_label data c) x)); fold (with_label data x calls); rewrite W; now left).
    specialize (H c Hc T). destruct (category data to_label c); [contradiction|discriminate].
  Qed.
  Lemma meta_none k md : no_schema k -> kwargs_to_metadata k = Ok md -> chans (md_schema md) = [] /\ final (md_schema md) = false /\ time (md_schema md) = md_time md /\ md_width md = 0%Z /\ md_depth md = or_else (k_depth k) 0%Z.
  Proof.
    intros (H1 & H2 & H3 & H4). unfold kwargs_to_metadata. rewrite H1, H2, H3, H4. cbn [read_schema read_channels bind or_else]. unfold read_time. destruct (k_time k) as [o|]; [|cbn; intros [= <-]; auto].
    destruct (cast_bool o) as [[]| | |]; cbn; try discriminate; intros [= <-]; auto.
  Qed.
  Lemma setup_none s md : final s = false -> md_width md = 0%Z -> last_minute_setup s md = Ok (mkSch (chans s) true (time s || md_time md)).
  Proof.
    intros F W. unfold last_minute_setup. rewrite F, W. replace (Z.to_nat (0 - Z.of_nat (width s))) with 0 by lia. cbn [pad bind]. unfold finalize. cbn [Z.ltb andb Z.compare Z.to_nat Nat.sub inserts bind chans final time]. reflexivity.
  Qed.
  Theorem stream_channels k calls s w d rows : no_schema k -> Forall usable (labels calls) -> stream k calls = Ok (s, w, d, rows) ->
    chans s = channels_of calls /\ final s = true /\ (exists md, kwargs_to_metadata k = Ok md /\ time s = md_time md) /\ w = Z.of_nat (width s) /\ d = (if Z.eqb (or_else (k_depth k) 0) 0 then 2 else or_else (k_depth k) 0)%Z.
  Proof.
    intros Hk Hu. unfold from_ticks. destruct (kwargs_to_metadata k) as [md| | |] eqn:M; cbn [bind]; try discriminate. destruct (meta_none k md Hk M) as (C & F & Tm & W & D).
    destruct (add_calls data to_label _ calls) as [h| | |] eqn:A; cbn [bind]; try discriminate. apply schema_of_calls in A as (C1 & F1 & T1); auto.
    destruct (sort_ticks data (hp_ticks data h)) as [|t l]; [discriminate|]. unfold finalize_schema. rewrite (setup_none _ md F1 W), W. cbn [bind Z.eqb].
    destruct (Z.eqb _ 0); [discriminate|]. destruct (_ && _); [discriminate|]. cbn [bind]. match goal with |- bind ?e _ = _ -> _ => destruct e end; cbn [bind]; try discriminate. intros [= <- <- <- <-].
    cbn [chans final time]. rewrite T1, Tm, orb_diag, <- D. split; [exact C1|]. split; [reflexivity|]. split; [exists md; auto|]. split; reflexivity.
  Qed.
  Lemma calls_plain : (forall x, plain_out (to_label x)) -> forall r h, plain_out (add_calls data to_label h r).
  Proof.
    intros Hl. induction r as [|c r IH]; intros h; cbn [add_calls]; [exact I|]. apply plain_bind; [|auto]. unfold add_call. apply plain_bind.
    - unfold extend_schema. destruct final; [exact I|]. apply plain_bind; [apply insert_plain|]. intros [s i]. destruct (c_type data c); try exact I. destruct (c_data data c); [|exact I]. apply plain_bind; [apply Hl|].
      intros v. apply on_plain. intros; exact I.
    - intros s. unfold add_tick. cbn [hp_only]. destruct (hp_only data h); [exact I|]. destruct (c_stamp data c) as [q|u| |]; try exact I; destruct (c_data data c); try exact I; cbn [hp_ref hp_prec];
      (apply plain_bind; [destruct (or_else (hp_ref data h) _); exact I|]; intros t; destruct bump; exact I).
  Qed.
  (** no execution without a defined outcome *)
  Theorem stream_plain k calls : no_schema k -> Forall usable (labels calls) -> (forall x, plain_out (to_label x)) -> (forall x, plain_out (to_scalar x)) -> plain_out (stream k calls).
  Proof.
    intros Hk Hu Hl Hs. unfold from_ticks. destruct (kwargs_to_metadata k) as [md| | |] eqn:M.
    2-4: destruct Hk as (K1 & K2 & K3 & K4); unfold kwargs_to_metadata in M; rewrite K1, K2, K3, K4 in M; cbn [read_schema read_channels bind or_else] in M; unfold read_time in M;
      destruct (k_time k) as [o|]; [|discriminate M]; destruct o; cbn in M; try discriminate M; try exact I; try (destruct b; discriminate M).
    cbn [bind]. destruct (meta_none k md Hk M) as (C & F & Tm & W & D). pose proof (calls_plain Hl calls (mkHp data [] (md_schema md) false None [])) as P.
    destruct (add_calls data to_label _ calls) as [h| | |] eqn:A; cbn [bind]; auto.
    pose proof (categories_given calls (mkHp data [] (md_schema md) false None []) _ F A eq_refl) as Cg. destruct (calls_in_order _ _ _ _ _ A) as (ts & Ht & Et & (Pm & _) & _). apply schema_of_calls in A as (C1 & F1 & T1); auto. rewrite Et.
    destruct (sort_ticks data ts) as [|t l] eqn:S; [exact I|]. unfold finalize_schema. rewrite (setup_none _ md F1 W), W. cbn [bind Z.eqb].
    destruct (Z.eqb _ 0); [exact I|]. destruct (_ && _); [exact I|]. cbn [bind]. apply plain_bind; [|intros; exact I]. rewrite C1.
    apply rows_safe; [now apply channels_good|now apply channels_some|rewrite repeat_length; lia|].
    intros u Hin. split; [|apply Hs]. apply (Permutation.Permutation_in u Pm) in Hin. clear - Ht Hin Hu.
    revert Ht. generalize (first_stamp data calls). intros st Ht. induction Ht as [|c t' l1 l2 H _ IH]; [destruct Hin|]. inversion Hu as [|x y Hx Hy]; subst. destruct Hin as [->|Hin]; auto. destruct H as (-> & _). apply Hx.
  Qed.

  (** ** Readable calls make a stream *)
  Notation readable := (readable data R to_scalar to_label).
  Lemma extend_ok s c : final s = false -> (c_type _ c = TCategorical -> forall d, c_data _ c = Some d -> exists v, to_label d = Ok v) -> exists s', extend_schema data to_label s c = Ok s'.
  Proof.
    intros F H. unfold extend_schema. rewrite F. unfold insert. rewrite F. set (x := if String.eqb (c_label data c) "" then to_string (size s) else c_label data c). unfold find_mut. rewrite F. cbn [bind].
    assert (K : forall st i y, nth_error (chans st) i = Some y -> exists s', match c_type data c, c_data data c with TCategorical, Some d => let! v := to_label d in on_channel st i (fun x => Ok (insert_variant x v)) | _, _ => Ok st end = Ok s').
    { intros st i y N. destruct (c_type data c); eauto. destruct (c_data data c) as [d|]; eauto. destruct (H eq_refl d eq_refl) as [v ->]. cbn [bind]. unfold on_channel. rewrite N. cbn [bind]. eauto. }
    destruct (find s x) as [i|] eqn:Fi; cbn [bind].
    - apply find_go_some in Fi as (y & _ & N & _). rewrite Nat.sub_0_r in N. eapply K; eauto.
    - eapply K. cbn [chans]. apply nth_last.
  Qed.
  Lemma calls_ok : forall r first h, final (hp_schema _ h) = false -> hp_only _ h = false -> (forall st, hp_ref _ h = Some st -> same_kind first st) -> (hp_ref _ h = None -> r <> [] -> first_stamp data r = first) ->
    Forall (readable first) r -> exists h', add_calls data to_label h r = Ok h'.
  Proof.
    induction r as [|c r IH]; intros first h F O Hr Hf H; cbn [add_calls]; [eauto|]. inversion H as [|x y [Hk (d & Hd & Ht)] H']; subst. unfold add_call.
    destruct (extend_ok (hp_schema data h) c F) as [s Es]. { intros T d' Hd'. rewrite T in Ht. rewrite Hd in Hd'. injection Hd' as <-. exact Ht. }
    rewrite Es. cbn [bind]. unfold add_tick. cbn [hp_only hp_ref hp_prec hp_ticks hp_schema]. rewrite O, Hd. pose proof (extend_final _ _ _ Es) as F1. rewrite F in F1.
    assert (Q : exists t, delta (c_stamp data c) (or_else (hp_ref data h) (c_stamp data c)) = Ok t /\ same_kind first (or_else (hp_ref data h) (c_stamp data c))).
    { destruct (hp_ref data h) as [st|]; cbn [or_else].
      - specialize (Hr st eq_refl). destruct (c_stamp data c), first, st; cbn in *; try tauto; eauto.
      - destruct (c_stamp data c), first; cbn in *; try tauto; eauto. }
    destruct Q as (t & Q & K). destruct (c_stamp data c) as [q|u| |] eqn:St; try (destruct first; contradiction); rewrite Q; cbn [bind]; destruct (bump (hp_prec data h) t) as [n m];
    (apply (IH first); cbn [hp_schema hp_only hp_ref]; auto; [intros st [= <-]; exact K|discriminate]).
  Qed.
  Lemma value_ok s previous t : good s -> no_empty_channel s -> plain_label (tk_label _ t) -> In (tk_label _ t) (names (chans s)) -> width s <= List.length previous ->
    match tk_type _ t with TIncrement | TValue => exists x, to_scalar (tk_data _ t) = Ok x | TCategorical => True | TLie => False end ->
    exists x previous', tick_value data R to_scalar lie (co_letter R lie co) r1 (co_sub R lie co) (co_cbh R lie co) s previous t = Ok (x, previous') /\ List.length previous' = List.length previous.
  Proof.
    intros G Hn Hl Hin Hw Ht. apply plain_clean in Hl. apply in_map_iff in Hin as ([n ch] & E & Hin). cbn [fst] in E. subst n. apply In_nth_error in Hin as [c N].
    pose proof (find_at s c _ ""%string G N I) as F. cbn [fst] in F. rewrite sapp_nil in F. pose proof (name_dim s c _ ch G N) as D. pose proof (width_at s c _ N) as W. cbn [snd] in W. pose proof (Hn _ (nth_error_In _ _ N)) as P. cbn [snd] in P.
    unfold tick_value, label_to_lie_key. rewrite D, F, N. cbn [bind]. destruct (tk_type data t); try contradiction.
    - destruct Ht as [x ->]. cbn [bind]. eauto.
    - destruct Ht as [x ->]. cbn [bind].
      assert (A : forall i, i < width s -> exists p, at_dim lie previous i = Ok p) by (intros i Hi; unfold at_dim; destruct (nth_error previous i) as [p|] eqn:E; [eauto|apply nth_error_None in E; lia]).
      destruct (is_lead_lag ch) eqn:L.
      + assert (num_variants ch = 2) by (destruct ch as [[]|[]| |]; cbn in *; congruence).
        destruct (A (width_to s c)) as [p ->]; [lia|]. destruct (A (width_to s c + 1)) as [q ->]; [lia|]. cbn [bind]. do 2 eexists. split; [reflexivity|]. now rewrite !upd_length.
      + destruct (A (width_to s c)) as [p ->]; [lia|]. cbn [bind]. do 2 eexists. split; [reflexivity|]. now rewrite !upd_length.
    - eauto.
  Qed.
  Theorem rows_ok s : good s -> no_empty_channel s -> forall l previous q, width s <= List.length previous ->
    (forall t, In t l -> plain_label (tk_label _ t) /\ In (tk_label _ t) (names (chans s)) /\
      match tk_type _ t with TIncrement | TValue => exists x, to_scalar (tk_data _ t) = Ok x | TCategorical => True | TLie => False end) ->
    exists rows, tick_rows data R to_scalar lie (co_letter R lie co) r1 (co_sub R lie co) (co_cbh R lie co) (co_set R lie co) s previous q l = Ok rows.
  Proof.
    intros G Hn. induction l as [|t l IH]; intros previous q Hw Hl; cbn [tick_rows]; [eauto|]. destruct (Hl t (or_introl eq_refl)) as (H1 & H2 & H3).
    destruct (value_ok s previous t G Hn H1 H2 Hw H3) as (x & previous' & -> & L). cbn [bind]. destruct (IH previous' (tk_time data t)) as [rows ->]; [lia|intros u Hu; apply Hl; now right|]. cbn [bind]. eauto.
  Qed.
  Lemma made_in st calls ts t : Forall2 (made_by data st) calls ts -> In t ts -> exists c, In c calls /\ made_by data st c t.
  Proof. induction 1 as [|c u l1 l2 H _ IH]; [intros []|]. intros [->|Hin]; [exists c; split; [now left|auto]|]. destruct (IH Hin) as (c' & H1 & H2). exists c'. split; [now right|auto]. Qed.
  Theorem stream_accepts k calls : no_schema k -> (exists md, kwargs_to_metadata k = Ok md) -> calls <> [] -> Forall usable (labels calls) -> Forall (readable (first_stamp data calls)) calls -> exists r, stream k calls = Ok r.
  Proof.
    intros Hk [md M] Ne Hu Hr. unfold from_ticks. rewrite M. cbn [bind]. destruct (meta_none k md Hk M) as (C & F & Tm & W & D).
    destruct (calls_ok calls (first_stamp data calls) (mkHp data [] (md_schema md) false None [])) as [h A]; auto; [discriminate|]. rewrite A. cbn [bind].
    pose proof (categories_given calls (mkHp data [] (md_schema md) false None []) _ F A eq_refl) as Cg. destruct (calls_in_order _ _ _ _ _ A) as (ts & Ht & Et & (Pm & _) & _). apply schema_of_calls in A as (C1 & F1 & T1); auto. rewrite Et.
    destruct (sort_ticks data ts) as [|t l] eqn:S; [apply Permutation.Permutation_nil in Pm; subst; rewrite Pm in Ht; inversion Ht; subst; contradiction|]. unfold finalize_schema. rewrite (setup_none _ md F1 W), W, C1. cbn [bind Z.eqb].
    set (s := mkSch (channels_of calls) true (time (hp_schema data h) || md_time md)).
    assert (Nm : names (chans s) = first_of_each (labels calls)) by (unfold s, PtSpec.channels_of, names; cbn [chans]; rewrite map_map; cbn [fst]; apply map_id).
    assert (Wd : 0 < width_without_param s).
    { destruct (chans s) as [|[n ch] r] eqn:Es; [destruct calls; [contradiction|discriminate Nm]|]. unfold width_without_param, size. rewrite width_to_sum, Es, firstn_all. unfold wsum. cbn.
      pose proof (channels_some calls true (time (hp_schema data h) || md_time md) Cg (n, ch)) as P. fold s in P. rewrite Es in P. specialize (P (or_introl eq_refl)). cbn in P. lia. }
    assert (W1 : Z.eqb (Z.of_nat (width s)) 0 = false) by (apply Z.eqb_neq; unfold width; lia). rewrite W1.
    assert (W2 : md_time md && Z.eqb (Z.of_nat (width s)) 1 = false).
    { destruct (md_time md) eqn:Mt; [|reflexivity]. apply Z.eqb_neq. unfold width. replace (time s) with true by (unfold s; cbn [time]; now rewrite orb_true_r). lia. }
    rewrite W2. cbn [bind].
    destruct (rows_ok s (channels_good calls _ _ Hu) (channels_some calls _ _ Cg) (t :: l) (repeat (co_zero R lie co) (Z.to_nat (Z.of_nat (width s)))) 0%Q) as [rows ->]; [rewrite repeat_length; lia| |cbn [bind]; eauto].
    intros u Hin. apply (Permutation.Permutation_in u Pm) in Hin. destruct (made_in _ _ _ _ Ht Hin) as (c & Hc & (L & T & Dt & _)). rewrite L, T.
    assert (Lc : In (c_label data c) (labels calls)) by now apply in_map. rewrite Forall_forall in Hu, Hr. split; [now apply Hu|]. split; [rewrite Nm; now apply first_in|].
    destruct (Hr c Hc) as (_ & d & Hd & Hx). rewrite Hd in Dt. injection Dt as <-. destruct (c_type data c); auto.
  Qed.
  Corollary stream_accepts_plain k calls : no_schema k -> k_time k = None -> calls <> [] -> Forall usable (labels calls) -> Forall (readable (first_stamp data calls)) calls -> exists r, stream k calls = Ok r.
  Proof.
    intros Hk Ht. apply stream_accepts; auto. destruct Hk as (K1 & K2 & K3 & K4). unfold kwargs_to_metadata. rewrite K1, K2, K3, K4, Ht. cbn. eauto.
  Qed.

  (** the first tick is at time 0 *)
  Theorem first_at_zero c calls ts : Forall2 (made_by data (first_stamp data (c :: calls))) (c :: calls) ts -> exists t r, ts = t :: r /\ (tk_time _ t == 0)%Q.
  Proof.
    intros H. inversion H as [|a t l r Ht _]; subst. exists t, r. split; auto. destruct Ht as (_ & _ & _ & Ht). cbn [first_stamp] in Ht. destruct (c_stamp data c) as [q|u| |]; cbn in Ht; try tauto.
    - rewrite Ht. ring.
    - rewrite Ht, Z.sub_diag. reflexivity.
  Qed.
End Whole.
