(** Proofs about the metadata that keyword arguments ask for. *)
From Coq Require Import ZArith List Bool Ascii String Lia.
Import ListNotations.
From Verif Require Import Outcome SchemaModel SchemaProofs PsModel PsSpec PsProofs.
Open Scope nat_scope.
Open Scope list_scope.

Lemma plain_new t : plain t = new_channel t.
Proof. now destruct t. Qed.
Lemma unlabelled : forall l ts s, says_types l ts -> final s = false -> (forall j, size s <= j -> ~ In (to_string j) (names (chans s))) ->
  unlabelled_channels s l = Ok (mkSch (chans s ++ numbered (size s) ts) false (time s)).
Proof.
  intros l ts s H. revert s. induction H as [|o t l ts Ho _ IH]; intros s Hf Hn; cbn [unlabelled_channels numbered].
  - rewrite app_nil_r. destruct s; cbn in *; now subst.
  - apply type_iff in Ho. rewrite Ho. cbn [bind]. unfold insert, find_mut. rewrite Hf. cbn [String.eqb].
    assert (E : find s (to_string (size s)) = None) by (apply find_number; apply Hn; lia). rewrite E. cbn [bind].
    assert (Z : size (mkSch (chans s ++ [(to_string (size s), new_channel t)]) false (time s)) = S (size s)) by (unfold size; cbn [chans]; rewrite app_length; cbn; lia).
    rewrite IH; [|reflexivity|].
    + rewrite Z. cbn [chans time]. rewrite app_cons. now destruct t.
    + rewrite Z. cbn [chans]. intros j Hj. unfold names. rewrite map_app, in_app_iff. intros [Q|[Q|[]]]; [apply (Hn j); auto; lia|]. cbn [fst] in Q. apply to_string_inj in Q. lia.
Qed.
Lemma labelled : forall d l s, Forall2 says_labelled d l -> rest_fits s l -> labelled_channels s d = Ok (mkSch (chans s ++ l) false (time s)).
Proof.
  intros d l s H. revert s. induction H as [|e [x c] d l He _ IH]; intros s Hs; cbn [labelled_channels].
  - rewrite app_nil_r. destruct s, Hs as [Hf _]; cbn in *; now subst.
  - apply rest_cons in Hs as [Hx Hr]. inversion He as [label o t Ht]; subst. apply type_iff in Ht. rewrite Ht. cbn [bind cast_string].
    rewrite insert_fits by auto. cbn [bind]. replace (new_channel t) with (plain t) by apply plain_new. rewrite IH by auto. cbn [chans time]. now rewrite app_cons.
Qed.
Lemma given_read k s : given k s -> read_schema (k_schema k) = Ok (Some (mkSch (chans s) true (time s))).
Proof.
  assert (F : forall s, (if final s then Ok (Some s) else let! s := finalize s 0 in Ok (Some s)) = Ok (Some (mkSch (chans s) true (time s)))).
  { intros [c [] tm]; cbn [final chans time]; auto. }
  intros [s' E|o l E Hs Hl]; unfold read_schema; rewrite E; cbn [bind]; [apply F|]. rewrite (parse_ok o l) by auto. cbn [bind]. apply F.
Qed.
Lemma one_type_read k t s : one_type k t -> read_channels (k_channels k) s = Ok (s, t).
Proof.
  intros [E|o t' E H|o E [[b ->]| ->]]; rewrite E; cbn [read_channels]; auto. apply type_iff in H. destruct o; cbn [py_to_channel_type] in H; try discriminate.
  - rewrite H. reflexivity.
  - now injection H as ->.
Qed.
Lemma picks_read k s t : picks k s t -> exists r q, read_schema (k_schema k) = Ok r /\ read_channels (k_channels k) r = Ok (q, t) /\ or_else q empty_schema = s.
Proof.
  assert (G : k_schema k = None \/ (exists s, given k s) -> exists r, read_schema (k_schema k) = Ok r).
  { intros [E|[s' H]]; [rewrite E; cbn; eauto|]. apply given_read in H. eauto. }
  intros [l ts E H Hg|d l E H Hl Hg|s' t' H Hg|t' H Hg].
  - destruct (G Hg) as [r Hr]. exists r. eexists. split; [exact Hr|]. rewrite E. cbn [read_channels]. rewrite (unlabelled l ts) by (auto; intros j _ []). cbn [bind]. split; reflexivity.
  - destruct (G Hg) as [r Hr]. exists r. eexists. split; [exact Hr|]. rewrite E. cbn [read_channels].
    assert (Hf : rest_fits empty_schema l) by (split; [reflexivity|]; split; [exact Hl|intros y []]). rewrite (labelled d l) by auto. cbn [bind]. split; reflexivity.
  - apply given_read in Hg. eexists. eexists. split; [exact Hg|]. split; [now apply one_type_read|reflexivity].
  - rewrite Hg. eexists. eexists. split; [reflexivity|]. split; [now apply one_type_read|reflexivity].
Qed.
Lemma time_read k b s : asks_time k b -> read_time (k_time k) s = if b && final s then Throw else Ok (mkSch (chans s) (final s) (time s || b), b).
Proof.
  intros [[E ->]|E]; rewrite E; cbn [read_time cast_bool bind andb]; [destruct s; cbn; now rewrite orb_false_r|].
  destruct b; cbn [andb]; [destruct (final s) eqn:F; auto; now rewrite orb_true_r|destruct s; cbn; now rewrite orb_false_r].
Qed.
(** The answer *)
Definition with_time (s : schema) (b : bool) : schema := mkSch (chans s) (final s) (time s || b).
Lemma meta k s t b : picks k s t -> asks_time k b -> kwargs_to_metadata k =
  if b && final s then Throw else
  if final s && match k_width k with Some w => negb (Z.eqb (Z.of_nat (width s)) w) | None => false end then Throw else
  Ok (mkMd (if final s && match k_width k with None => true | _ => false end then Z.of_nat (width s) else base_width k) (base_depth k) (k_ctx k) (base_type k) (with_time s b) t b).
Proof.
  intros Hp Ht. apply picks_read in Hp as (r & q & H1 & H2 & H3). unfold kwargs_to_metadata. rewrite H1. cbn [bind]. rewrite H2. cbn [bind]. rewrite H3, (time_read k b s) by auto.
  destruct (b && final s) eqn:B; cbn [bind]; auto. cbn [final]. fold (with_time s b).
  assert (W : final s = true -> width (with_time s b) = width s).
  { intros F. rewrite F, andb_true_r in B. subst b. unfold with_time, width, width_without_param, width_to, size. cbn [chans time]. now rewrite orb_false_r. }
  unfold base_width, base_depth, base_type. destruct (final s) eqn:F; cbn [andb].
  - rewrite W by auto. destruct (k_ctx k) as [[[w d] ct]|], (k_width k) as [w'|]; cbn [or_else]; auto; destruct Z.eqb; cbn [negb]; auto; now destruct (k_depth k).
  - destruct (k_ctx k) as [[[w d] ct]|]; auto.
Qed.
Theorem meta_schema k s t b md : picks k s t -> asks_time k b -> kwargs_to_metadata k = Ok md ->
  md_schema md = mkSch (chans s) (final s) (time s || b) /\ md_default md = t /\ md_time md = b /\ md_ctx md = k_ctx k.
Proof.
  intros Hp Ht. rewrite (meta k s t b) by auto. destruct (b && final s); [discriminate|]. destruct (final s && _); [discriminate|]. intros [= <-]. cbn. auto.
Qed.
Theorem meta_accepts k s t b : picks k s t -> asks_time k b ->
  (exists md, kwargs_to_metadata k = Ok md) <-> (final s = true -> b = false /\ forall w, k_width k = Some w -> w = Z.of_nat (width s)).
Proof.
  intros Hp Ht. rewrite (meta k s t b) by auto. destruct (final s); [|rewrite andb_false_r; cbn [andb]; split; [intros _ [=]|eauto]].
  rewrite andb_true_r. destruct b; [split; [intros [md [=]]|intros H; destruct (H eq_refl); discriminate]|]. cbn [andb].
  destruct (k_width k) as [w|].
  - destruct (Z.eqb_spec (Z.of_nat (width s)) w) as [<-|N]; cbn [negb]; split; eauto.
    + intros _ _. split; auto. congruence.
    + intros [md [=]].
    + intros H. destruct (H eq_refl) as [_ H']. specialize (H' w eq_refl). congruence.
  - split; eauto. intros _ _. split; auto. discriminate.
Qed.
Theorem meta_refuses k s t b : picks k s t -> asks_time k b -> (exists md, kwargs_to_metadata k = Ok md) \/ kwargs_to_metadata k = Throw.
Proof. intros Hp Ht. rewrite (meta k s t b) by auto. destruct (b && final s); auto. destruct (final s && _); eauto. Qed.
(** Whatever the arguments *)
Lemma meta_any k md : kwargs_to_metadata k = Ok md ->
  md_ctx md = k_ctx k /\ md_depth md = base_depth k /\ md_type md = base_type k /\
  (final (md_schema md) = false -> md_width md = base_width k) /\
  (final (md_schema md) = true -> k_width k = None -> md_width md = Z.of_nat (width (md_schema md))) /\
  (final (md_schema md) = true -> forall w, k_width k = Some w -> w = Z.of_nat (width (md_schema md)) /\ md_width md = base_width k).
Proof.
  unfold kwargs_to_metadata. destruct read_schema as [r| | |]; cbn [bind]; try discriminate. destruct read_channels as [[q t]| | |]; cbn [bind]; try discriminate.
  destruct read_time as [[s b]| | |]; cbn [bind]; try discriminate. unfold base_width, base_depth, base_type.
  destruct (k_ctx k) as [[[w d] ct]|], (final s) eqn:F, (k_width k) as [w'|]; try destruct (Z.eqb_spec (Z.of_nat (width s)) w') as [<-|]; try discriminate; intros [= <-];
    cbn [md_ctx md_depth md_type md_schema md_width or_else]; rewrite F; repeat split; auto; try discriminate; try congruence; destruct (k_depth k); auto.
Qed.
Lemma time_width l f : width (mkSch l f true) = S (width (mkSch l f false)).
Proof. unfold width, width_without_param, width_to, size. cbn [chans time]. lia. Qed.
Theorem meta_time k md : kwargs_to_metadata k = Ok md -> md_time md = true ->
  final (md_schema md) = false /\ width (md_schema md) = S (width (mkSch (chans (md_schema md)) false false)) /\ time_channel_to_lie_key (md_schema md) = width (md_schema md).
Proof.
  unfold kwargs_to_metadata. destruct read_schema as [r| | |]; cbn [bind]; try discriminate. destruct read_channels as [[q t]| | |]; cbn [bind]; try discriminate.
  destruct (read_time (k_time k) (or_else q empty_schema)) as [[s b]| | |] eqn:E; cbn [bind]; try discriminate. intros H Hb.
  assert (S : md_schema md = s /\ md_time md = b).
  { destruct (k_ctx k) as [[[w d] ct]|], (final s), (k_width k) as [w'|]; try destruct (Z.eqb _ _) in H; try discriminate; inversion H; subst md; split; reflexivity. }
  destruct S as [S1 S2]. rewrite S1. rewrite Hb in S2. subst b. clear H S1.
  unfold read_time in E. destruct (k_time k) as [o|]; [|discriminate]. destruct (cast_bool o) as [[]| | |]; cbn [bind] in E; try discriminate.
  destruct (final (or_else q empty_schema)) eqn:F; [discriminate|]. injection E as <-. cbn [final chans]. split; auto. split; [apply time_width|].
  unfold time_channel_to_lie_key, width. reflexivity.
Qed.
(** A context of another width is accepted *)
Theorem meta_ctx_clash k s t w d ct : picks k s t -> final s = true -> asks_time k false -> k_width k = None -> k_ctx k = Some (w, d, ct) ->
  exists md, kwargs_to_metadata k = Ok md /\ md_ctx md = Some (w, d, ct) /\ md_width md = Z.of_nat (width s).
Proof. intros Hp Hf Ht Hw Hc. rewrite (meta k s t false) by auto. rewrite Hf, Hw. cbn [andb]. eexists. split; [reflexivity|]. cbn [md_ctx md_width]. auto. Qed.

(** ** Refusals and labels that are taken *)
Lemma refused data : (forall l, ~ says_schema data l) -> parse_schema data = Throw.
Proof.
  intros H. pose proof (parse_plain data) as P. destruct (parse_schema data) as [s| | |] eqn:E; cbn in P; try contradiction; auto. apply parse_inv in E as [l E]. now apply H in E.
Qed.
Lemma in_forall2 {A B} (R : A -> B -> Prop) l m a : Forall2 R l m -> In a l -> exists b, R a b.
Proof. induction 1; intros []; subst; eauto. Qed.
Theorem type_alone_dict d label o : In (label, PSeq [o]) d -> parse_schema (PDict d) = Throw.
Proof. intros H. apply refused. intros l Hl. inversion Hl as [d' l' Hd| |]; subst. destruct (in_forall2 _ _ _ _ Hd H) as [p Hp]. inversion Hp. Qed.
Theorem type_name_dict d label s : In (label, PStr s) d -> parse_schema (PDict d) = Throw.
Proof. intros H. apply refused. intros l Hl. inversion Hl as [d' l' Hd| |]; subst. destruct (in_forall2 _ _ _ _ Hd H) as [p Hp]. inversion Hp. Qed.
Theorem type_alone_seq items label o : In (PSeq [label; o]) items -> parse_schema (PSeq items) = Throw.
Proof. intros H. apply refused. intros l Hl. inversion Hl as [|d' l' Hd|]; subst. destruct (in_forall2 _ _ _ _ Hd H) as [p Hp]. inversion Hp. Qed.

Definition triple (label : string) (t : ctype) (opts : list (pobj * pobj)) : pobj := PSeq [PStr label; PType t; PDict opts].
Lemma insert_taken s a c b c' : final s = false -> chans s = [(a, c)] -> a <> ""%string -> takes a b -> insert s b c' = Ok (s, 0).
Proof.
  intros Hf Hc Ha Ht. assert (Hb : b <> ""%string) by (destruct a; [contradiction|]; destruct Ht as [->|(r & [->| ->])]; discriminate).
  unfold insert, find_mut, find. rewrite Hf, Hc. destruct (String.eqb_spec b ""); [contradiction|]. cbn [find_go fst bind].
  rewrite (proj2 (labels_takes a b Ha) Ht). reflexivity.
Qed.
Lemma first_item a t : a <> ""%string -> insert_item empty_schema a t [] = Ok (mkSch [(a, plain t)] false false).
Proof.
  intros Ha. apply (item_ok empty_schema a t [] (plain t)); [repeat split; auto; destruct H|]. destruct t; cbn [plain]; [apply sc_increment|now apply sc_value|now apply sc_no_categories|apply sc_lie].
Qed.
Theorem taken a b t t' : a <> ""%string -> takes a b -> parse_schema (PSeq [triple a t []; triple b t' []]) = Ok (mkSch [(a, plain t)] false false).
Proof.
  intros Ha Ht. cbn [parse_schema as_seq handle_seq_schema triple handle_seq_item_no_label List.length Nat.ltb Nat.leb negb cast_string bind handle_seq_item py_to_channel_type].
  rewrite first_item by auto. cbn [bind]. unfold insert_item. rewrite (insert_taken _ a (plain t) b) by auto. cbn [bind]. destruct t'; reflexivity.
Qed.
Theorem taken_lead_lag a b v : a <> ""%string -> takes a b ->
  parse_schema (PSeq [triple a TIncrement []; triple b TValue [(PStr "lead_lag", PTruth v)]]) = Ok (mkSch [(a, Increment v)] false false).
Proof.
  intros Ha Ht. cbn [parse_schema as_seq handle_seq_schema triple handle_seq_item_no_label List.length Nat.ltb Nat.leb negb cast_string bind handle_seq_item py_to_channel_type].
  rewrite first_item by auto. cbn [bind]. unfold insert_item. rewrite (insert_taken _ a (plain TIncrement) b) by auto. reflexivity.
Qed.
(** ** Only such arguments are accepted *)
Lemma unlabelled_inv : forall l s s', unlabelled_channels s l = Ok s' -> exists ts, says_types l ts.
Proof.
  induction l as [|o l IH]; intros s s'; cbn [unlabelled_channels]; [intros _; exists []; constructor|]. destruct (py_to_channel_type o) as [t| | |] eqn:E; cbn [bind]; try discriminate.
  destruct insert as [[s1 i]| | |]; cbn [bind]; try discriminate. intros H. apply IH in H as [ts H]. exists (t :: ts). constructor; auto. now apply type_iff.
Qed.
Lemma labelled_inv : forall d s s', labelled_channels s d = Ok s' -> exists l, Forall2 says_labelled d l.
Proof.
  induction d as [|[a o] d IH]; intros s s'; cbn [labelled_channels]; [intros _; exists []; constructor|]. destruct (py_to_channel_type o) as [t| | |] eqn:E; cbn [bind]; try discriminate.
  destruct a; cbn [cast_string bind]; try discriminate. destruct insert as [[s1 i]| | |]; cbn [bind]; try discriminate. intros H. apply IH in H as [l H].
  exists ((s0, plain t) :: l). constructor; auto. constructor. now apply type_iff.
Qed.
Theorem meta_inv k md : kwargs_to_metadata k = Ok md ->
  (forall o, k_schema k = Some (SData o) -> exists l, says_schema o l) /\
  (forall n, k_channels k = Some (PStr n) -> exists t, says_type (PStr n) t) /\
  (forall l, k_channels k = Some (PSeq l) -> exists ts, says_types l ts) /\
  (forall d, k_channels k = Some (PDict d) -> exists l, Forall2 says_labelled d l) /\
  exists b, asks_time k b.
Proof.
  unfold kwargs_to_metadata. destruct (read_schema (k_schema k)) as [r| | |] eqn:E1; cbn [bind]; try discriminate.
  destruct (read_channels (k_channels k) r) as [[q t]| | |] eqn:E2; cbn [bind]; try discriminate.
  destruct (read_time (k_time k) (or_else q empty_schema)) as [[s b]| | |] eqn:E3; cbn [bind]; try discriminate. intros _. repeat split.
  - intros o Ho. rewrite Ho in E1. cbn [read_schema] in E1. destruct (parse_schema o) eqn:P; try discriminate. eapply parse_inv; eauto.
  - intros n Hn. rewrite Hn in E2. cbn [read_channels] in E2. destruct (string_to_channel_type n) as [t'| | |] eqn:P; try discriminate. exists t'. now apply type_iff.
  - intros l Hl. rewrite Hl in E2. cbn [read_channels] in E2. destruct (unlabelled_channels empty_schema l) eqn:P; try discriminate. eapply unlabelled_inv; eauto.
  - intros d Hd. rewrite Hd in E2. cbn [read_channels] in E2. destruct (labelled_channels empty_schema d) eqn:P; try discriminate. eapply labelled_inv; eauto.
  - unfold asks_time. destruct (k_time k) as [o|]; [|exists false; now left]. destruct o; try discriminate. eexists. now right.
Qed.
