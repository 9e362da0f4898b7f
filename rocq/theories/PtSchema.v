(** Proofs about ticks given from Python: the channels they make. *)
From Coq Require Import ZArith QArith List Bool Ascii String Lia.
Import ListNotations.
From Verif Require Import Outcome Alg SchemaModel SchemaProofs PsModel PsSpec PsProofs PtModel PtSpec PtProofs PtRows.
Open Scope nat_scope.
Open Scope list_scope.

Section Channels.
  Variable data : Type.
  Variable to_label : data -> outcome string.
  Notation call := (call data).
  Notation channel_of := (channel_of data to_label).
  Notation labels := (map (c_label data)).

  Lemma remove_app x : forall a b, remove string_dec x (a ++ b) = remove string_dec x a ++ remove string_dec x b.
  Proof. intros a b. apply List.remove_app. Qed.
  Lemma first_in x : forall l, In x (first_of_each l) <-> In x l.
  Proof.
    induction l as [|y l IH]; cbn [first_of_each]; [tauto|]. cbn [In]. destruct (string_dec y x) as [->|N]; [tauto|].
    split; intros [H|H]; auto; right; [apply in_remove in H as [H _]; tauto|apply in_in_remove; [congruence|tauto]].
  Qed.
  Lemma first_snoc x : forall l, first_of_each (l ++ [x]) = if in_dec string_dec x l then first_of_each l else first_of_each l ++ [x].
  Proof.
    induction l as [|y l IH]; [reflexivity|]. cbn [app first_of_each]. rewrite IH. destruct (in_dec string_dec x l) as [Hl|Hl].
    - destruct (in_dec string_dec x (y :: l)) as [_|N]; [reflexivity|destruct N; now right].
    - rewrite remove_app. cbn [remove]. destruct (string_dec y x) as [->|N].
      + rewrite app_nil_r. destruct (in_dec string_dec x (x :: l)) as [_|N]; [reflexivity|destruct N; now left].
      + destruct (in_dec string_dec x (y :: l)) as [[E|H]|_]; [contradiction|contradiction|reflexivity].
  Qed.
  Lemma first_nodup : forall l, NoDup (first_of_each l).
  Proof.
    induction l as [|y l IH]; cbn [first_of_each]; constructor; [apply remove_In|]. clear - IH.
    induction IH as [|x r Hx _ IHr]; cbn [remove]; [constructor|]. destruct (string_dec y x); auto. constructor; auto. intros H. apply Hx. now apply in_remove in H.
  Qed.
  Lemma named_snoc v : forall l vs, Categorical (named vs (l ++ [v])) = insert_variant (Categorical (named vs l)) v.
  Proof.
    induction l as [|x l IH]; intros vs.
    - cbn [app]. rewrite named_step. cbn [named]. destruct (variant_cat vs v) as [vs' ->]. reflexivity.
    - cbn [app]. rewrite !named_step. destruct (variant_cat vs x) as [vs' ->]. apply IH.
  Qed.
  (** the channel of a label after one more call *)
  Definition more (ch : channel) (c : call) : channel := match category data to_label c with [] => ch | v :: _ => insert_variant ch v end.
  Lemma channel_more l c : with_label data (c_label _ c) l <> [] -> channel_of (l ++ [c]) (c_label _ c) = more (channel_of l (c_label _ c)) c.
  Proof.
    intros Hn. unfold PtSpec.channel_of, more. set (x := c_label data c). assert (E : with_label data x (l ++ [c]) = with_label data x l ++ [c]).
    { unfold with_label. rewrite filter_app. cbn [filter]. unfold x. now rewrite String.eqb_refl. }
    rewrite E. destruct (with_label data x l) as [|c0 r] eqn:W; [contradiction|]. cbn [app]. rewrite app_comm_cons, flat_map_app. cbn [flat_map]. rewrite app_nil_r.
    destruct (category data to_label c) as [|v vs] eqn:C; [now rewrite app_nil_r|].
    assert (vs = []) as -> by (unfold category in C; destruct (c_type data c); try discriminate; destruct (c_data data c); try discriminate; destruct (to_label d); congruence).
    destruct (c_type data c0); auto. apply named_snoc.
  Qed.
  Lemma channel_new l c : with_label data (c_label _ c) l = [] -> channel_of (l ++ [c]) (c_label _ c) = more (new_channel (c_type _ c)) c.
  Proof.
    intros W. unfold PtSpec.channel_of, more. assert (E : with_label data (c_label data c) (l ++ [c]) = [c]) by (unfold with_label in *; rewrite filter_app, W; cbn [filter app]; now rewrite String.eqb_refl).
    rewrite E. cbn [flat_map]. rewrite app_nil_r. unfold category. destruct (c_type data c); auto. destruct (c_data data c) as [d|]; auto. destruct (to_label d) as [v| | |]; auto.
    change [v] with ([] ++ [v])%list. now rewrite named_snoc.
  Qed.
  Lemma channel_other l c x : x <> c_label _ c -> channel_of (l ++ [c]) x = channel_of l x.
  Proof.
    intros N. unfold PtSpec.channel_of. assert (E : with_label data x (l ++ [c]) = with_label data x l).
    { unfold with_label. rewrite filter_app. cbn [filter]. destruct (String.eqb (c_label data c) x) eqn:Q; [apply String.eqb_eq in Q; congruence|apply app_nil_r]. }
    now rewrite E.
  Qed.
  Lemma with_in x : forall l, with_label data x l <> [] <-> In x (labels l).
  Proof.
    induction l as [|c l IH]; cbn; [tauto|]. destruct (String.eqb (c_label data c) x) eqn:E.
    - apply String.eqb_eq in E. split; [auto|discriminate].
    - apply String.eqb_neq in E. unfold with_label in IH. tauto.
  Qed.
  Lemma upd_map {A B} (f g : A -> B) : forall l n a, nth_error l n = Some a -> (forall m b, nth_error l m = Some b -> m <> n -> f b = g b) -> upd (map f l) n (g a) = map g l.
  Proof.
    induction l as [|y l IH]; intros [|n] a; cbn; try discriminate.
    - intros [= ->] H. f_equal. apply map_ext_in. intros b Hb. apply In_nth_error in Hb as [m Hm]. apply (H (S m) b); auto.
    - intros Hn H. f_equal; [apply (H 0 y); auto|]. apply IH; auto. intros m b Hm Ne. apply (H (S m) b); auto.
  Qed.
  Lemma extend_are s l c s' : final s = false -> chans s = channels_of data to_label l -> Forall usable (labels l) -> usable (c_label _ c) ->
    extend_schema data to_label s c = Ok s' -> final s' = false /\ time s' = time s /\ chans s' = channels_of data to_label (l ++ [c]).
  Proof.
    intros F C Hl [Hc He] E. unfold extend_schema in E. rewrite F in E. unfold insert in E. rewrite F in E. replace (String.eqb (c_label data c) "") with false in E by (symmetry; now apply String.eqb_neq).
    unfold find_mut in E. rewrite F in E. cbn [bind] in E.
    assert (Nm : names (chans s) = first_of_each (labels l)) by (rewrite C; unfold channels_of, names; rewrite map_map; cbn [fst]; apply map_id).
    assert (G : forall x, In x (names (chans s)) -> clean x /\ x <> ""%string).
    { intros x Hx. rewrite Nm, first_in in Hx. rewrite Forall_forall in Hl. apply Hl in Hx as [H1 H2]. split; [now apply plain_clean|exact H2]. }
    apply plain_clean in Hc.
    assert (K : forall st i ch, nth_error (chans st) i = Some (c_label data c, ch) -> final st = false ->
      match c_type data c, c_data data c with TCategorical, Some d => let! v := to_label d in on_channel st i (fun x => Ok (insert_variant x v)) | _, _ => Ok st end = Ok s' ->
      final s' = false /\ time s' = time st /\ chans s' = upd (chans st) i (c_label data c, more ch c)).
    { intros st i ch N Ft. assert (U : chans st = upd (chans st) i (c_label data c, ch)).
      { clear - N. revert i N. induction (chans st) as [|y r IH]; intros [|i]; cbn; try discriminate; [congruence|]. intros N. now rewrite <- IH. }
      unfold more, category. destruct (c_type data c); try (intros [= <-]; now rewrite <- U). destruct (c_data data c) as [d|]; [|intros [= <-]; now rewrite <- U]. destruct (to_label d) as [v| | |]; cbn [bind]; try discriminate.
      unfold on_channel. rewrite N. cbn [bind snd fst]. intros [= <-]. auto. }
    unfold channels_of. rewrite map_app. cbn [map]. rewrite first_snoc. destruct (find s (c_label data c)) as [i|] eqn:Fi; cbn [bind] in E.
    - apply find_go_some in Fi as ([n ch] & _ & N & Q). rewrite Nat.sub_0_r in N. cbn [fst] in Q. rewrite <- (sapp_nil (c_label data c)) in Q.
      assert (In n (names (chans s))) as Hn by (change n with (fst (n, ch)); apply in_map; eapply nth_error_In; eauto).
      apply cmp_clean in Q; auto; [|now apply G|exact I]. subst n. apply (K s i ch N F) in E as (E1 & E2 & E3). split; auto. split; auto. rewrite E3.
      assert (Hin : In (c_label data c) (labels l)) by (rewrite <- first_in, <- Nm; auto). destruct (in_dec string_dec (c_label data c) (labels l)) as [_|]; [|contradiction].
      rewrite C in N |- *. unfold channels_of in N |- *. rewrite nth_error_map in N. destruct (nth_error (first_of_each (labels l)) i) as [y|] eqn:Ny; [|discriminate]. cbn in N. injection N as -> <-.
      rewrite <- channel_more by (now apply with_in).
      apply (upd_map (fun x => (x, channel_of l x)) (fun x => (x, channel_of (l ++ [c]) x)) _ i (c_label data c) Ny). intros m b Hm Ne. f_equal. symmetry. apply channel_other. intros ->.
      apply Ne. eapply (proj1 (NoDup_nth_error _) (first_nodup (labels l))); [apply nth_error_Some; congruence|congruence].
    - assert (Hnin : ~ In (c_label data c) (labels l)).
      { intros Hin. rewrite <- first_in, <- Nm in Hin. apply in_map_iff in Hin as ([n ch] & Q & Hin). cbn [fst] in Q. subst n.
        assert (X : forall r i, In (c_label data c, ch) r -> find_go r i (c_label data c) <> None).
        { clear - He. induction r as [|y r IH]; intros i; cbn [In find_go]; [tauto|]. intros [->|H]; [|destruct compare_labels; [discriminate|now apply IH]]. cbn [fst].
          replace (compare_labels (c_label data c) (c_label data c)) with true; [discriminate|]. symmetry. rewrite <- (sapp_nil (c_label data c)) at 2. apply cmp_self; [exact He|exact I]. }
        exact (X _ 0 Hin Fi). }
      destruct (in_dec string_dec (c_label data c) (labels l)) as [|_]; [contradiction|].
      pose proof (K (mkSch (chans s ++ [(c_label data c, new_channel (c_type data c))]) false (time s)) (size s) (new_channel (c_type data c)) (nth_last _ _) eq_refl E) as (E1 & E2 & E3).
      split; auto. split; auto. rewrite E3. cbn [chans]. unfold size. rewrite upd_last, map_app. cbn [map]. f_equal.
      + rewrite C. unfold channels_of. apply map_ext_in. intros x Hx. f_equal. symmetry. apply channel_other. intros ->. apply Hnin. now apply first_in.
      + rewrite channel_new; auto. destruct (with_label data (c_label data c) l) eqn:W; auto. exfalso. apply Hnin. apply with_in. rewrite W. discriminate.
  Qed.
  Lemma add_calls_schema : forall r l h h', final (hp_schema _ h) = false -> hp_only _ h = false -> chans (hp_schema _ h) = channels_of data to_label l -> Forall usable (labels l) -> Forall usable (labels r) ->
    add_calls data to_label h r = Ok h' -> final (hp_schema _ h') = false /\ time (hp_schema _ h') = time (hp_schema _ h) /\ chans (hp_schema _ h') = channels_of data to_label (l ++ r).
  Proof.
    induction r as [|c r IH]; intros l h h' F Ho C Hl Hr; cbn [add_calls].
    - intros [= <-]. now rewrite app_nil_r.
    - inversion Hr as [|x y Hc Hr']; subst. unfold add_call. destruct extend_schema as [s| | |] eqn:X; cbn [bind]; try discriminate. pose proof (extend_are _ l c s F C Hl Hc X) as (F1 & T1 & C1).
      destruct (add_tick data _ c) as [h1| | |] eqn:A; cbn [bind]; try discriminate. intros E.
      assert (S1 : hp_schema _ h1 = s /\ hp_only _ h1 = false).
      { unfold add_tick in A. cbn [hp_only] in A. rewrite Ho in A. destruct (c_stamp data c); try discriminate; destruct (c_data data c); try discriminate;
          (match type of A with bind ?e _ = _ => destruct e end; cbn [bind] in A; try discriminate; destruct bump; injection A as <-; auto). }
      destruct S1 as [<- O1]. apply (IH (l ++ [c])) in E as (E1 & E2 & E3); auto; [|rewrite map_app; apply Forall_app; split; [exact Hl|constructor; [exact Hc|constructor]]]. rewrite <- app_assoc in E3. cbn [app] in E3. repeat split; auto. congruence.
  Qed.
  Theorem schema_of_calls s calls h : chans s = [] -> final s = false -> Forall usable (labels calls) -> add_calls data to_label (mkHp data [] s false None []) calls = Ok h ->
    chans (hp_schema _ h) = channels_of data to_label calls /\ final (hp_schema _ h) = false /\ time (hp_schema _ h) = time s.
  Proof. intros C F Hu H. apply (add_calls_schema calls []) in H as (H1 & H2 & H3); [auto|auto|auto|exact C|constructor|exact Hu]. Qed.
  (** a final schema stays as it is *)
  Theorem schema_kept s : final s = true -> forall calls h h', hp_schema _ h = s -> add_calls data to_label h calls = Ok h' -> hp_schema _ h' = s.
  Proof.
    intros F. induction calls as [|c r IH]; intros h h' Hs; cbn [add_calls]; [congruence|]. unfold add_call, extend_schema. rewrite Hs, F. cbn [bind].
    destruct (add_tick data _ c) as [h1| | |] eqn:A; cbn [bind]; try discriminate. apply IH. unfold add_tick in A. cbn [hp_only hp_schema] in A. destruct (hp_only data h); [now injection A as <-|].
    destruct (c_stamp data c); try discriminate; destruct (c_data data c); try discriminate; (match type of A with bind ?e _ = _ => destruct e end; cbn [bind] in A; try discriminate; destruct bump; injection A as <-; auto).
  Qed.
End Channels.
