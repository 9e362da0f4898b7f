(** Proofs about streams of sound files with a schema given. *)
From Coq Require Import ZArith QArith Qround List Bool String Lia.
Import ListNotations.
From Verif Require Import Outcome Alg SchemaModel SchemaSpec SchemaProofs SchemaProofs2 PsModel PtPad SfModel SfSpec SfProofs SfWhole SfEx.
Open Scope nat_scope.
Open Scope list_scope.

(** specification: a final schema is given, and no width *)
Definition schema_given (k : kwargs) (s : schema) : Prop := k_schema k = Some (SObject s) /\ k_channels k = None /\ k_width k = None /\ final s = true.
Lemma size_width s : (forall x, In x (chans s) -> 0 < num_variants (snd x)) -> forall c, c <= size s -> c <= width_to s c.
Proof.
  intros Hn. induction c as [|c IH]; intros H; [lia|]. destruct (channel_at s c) as (n & ch & E); [lia|]. rewrite (width_step s c n ch E). pose proof (Hn _ (nth_error_In _ _ E)). cbn [snd] in *. specialize (IH ltac:(lia)). lia.
Qed.
Section Sound.
  Variable R : cring.
  Notation sound := (sound R).
  Lemma given_md k s md : schema_given k s -> kwargs_to_metadata k = Ok md -> md_schema md = s /\ md_width md = Z.of_nat (width s).
  Proof.
    intros (H1 & H2 & H3 & F). unfold kwargs_to_metadata. rewrite H1, H2, H3. unfold read_schema. cbn [bind]. rewrite F. cbn [read_channels bind or_else]. unfold read_time.
    destruct (k_time k) as [o|]; [destruct (cast_bool o) as [b| | |]; cbn [bind]; try discriminate; destruct b; [rewrite F; discriminate|]|]; cbn [bind];
    destruct (k_ctx k) as [[[w d] ty]|]; rewrite F; intros E; injection E as <-; auto.
  Qed.
  (** a stream is made only if the schema has the width of the file, and its schema is the one given *)
  Theorem given_width f k s st : schema_given k s -> 0 < width s -> from_uri R f k = Ok st -> ss_schema st = s /\ width s = sd_channels R f /\ ss_width st = Z.of_nat (width s).
  Proof.
    intros Hk Hw. unfold from_uri. destruct (kwargs_to_metadata k) as [md| | |] eqn:M; cbn [bind]; try discriminate. destruct (given_md k s md Hk M) as [Es Ew]. rewrite Es, Ew. destruct Hk as (_ & _ & _ & F).
    destruct (Z.eqb_spec (Z.of_nat (width s)) 0); [lia|]. destruct (Z.eqb_spec (Z.of_nat (width s)) (Z.of_nat (sd_channels R f))) as [E|]; cbn [bind]; [|discriminate].
    match goal with |- bind ?e _ = _ -> _ => destruct e as [c| | |] end; cbn [bind]; try discriminate. rewrite F. cbn [bind]. intros X. injection X as <-. cbn [ss_schema ss_width]. split; [reflexivity|]. split; lia.
  Qed.
  (** then it gives the rows of the query, which are defined *)
  Theorem given_rows f k s st p q : schema_given k s -> 0 < width s -> (forall x, In x (chans s) -> 0 < num_variants (snd x)) -> from_uri R f k = Ok st ->
    fits R f s /\ increments R f st (snd (ss_ctx st)) p q = query R f s p q.
  Proof.
    intros Hk Hw Hn H. destruct (given_width f k s st Hk Hw H) as (Es & Ec & Ew). destruct (uri_has R f k st H) as (_ & _ & Et & _). split.
    - split; [|exact Hn]. rewrite <- Ec. pose proof (size_width s Hn (size s) (le_n _)) as L. unfold width, width_without_param. lia.
    - rewrite <- Et, increments_are; [now rewrite Es|]. rewrite Ew, Es. apply Nat2Z.id.
  Qed.
  Theorem given_safe f k s st p q : whole R f -> schema_given k s -> 0 < width s -> (forall x, In x (chans s) -> 0 < num_variants (snd x)) -> from_uri R f k = Ok st -> (p <= q)%Q ->
    match increments R f st (snd (ss_ctx st)) p q with Ok rows => Forall (fun r => List.length r = sd_channels R f) rows | Throw => True | _ => False end.
  Proof.
    intros W Hk Hw Hn H Hpq. destruct (given_rows f k s st p q Hk Hw Hn H) as [Fi ->]. destruct (given_width f k s st Hk Hw H) as (_ & Ec & _). rewrite <- Ec.
    destruct (query R f s p q) as [rows| | |] eqn:E; [now apply query_lengths in E|exact I| |];
    (destruct (query_is R f s p q _ _ W Fi Hpq (frame_first R f p) (frame_first R f q)) as (A & B & C); destruct (Z.eq_dec (param_to_frame R f p) (param_to_frame R f q)) as [D|D]; [rewrite (A D) in E; discriminate|];
     destruct (Z.lt_ge_cases (param_to_frame R f p) 0) as [X|X]; [rewrite C in E by auto; discriminate|]; destruct (Z.lt_ge_cases (num_frames R f) (param_to_frame R f q)) as [Y|Y]; [rewrite C in E by auto; discriminate|];
     destruct (B D X Y) as (r & E' & _); congruence).
  Qed.
End Sound.
(** a case *)
Definition vv_uri : kwargs := mkKw (Some (SObject vv)) None None None None (Some 2%Z) None.
Example vv_given : schema_given vv_uri vv /\ 0 < width vv /\ (exists st, from_uri Zcr stereo vv_uri = Ok st) /\ shown_rows stereo vv_uri (2 # 5) 2 = Ok [[1; 20]; [2; 40]; [3; 70]]%Z /\ from_uri Zcr triple vv_uri = Throw.
Proof. split; [repeat split|]. split; [cbn; lia|]. split; [eexists; vm_compute; reflexivity|]. split; vm_compute; reflexivity. Qed.
(** without a dimension for each channel there are reads out of range: channels without categories *)
Definition cats : schema := mkSch [("a", Categorical []); ("b", Categorical []); ("c", Increment false); ("d", Increment false)]%string true false.
Definition cats_uri : kwargs := mkKw (Some (SObject cats)) None None None None (Some 2%Z) None.
Lemma cats_given : schema_given cats_uri cats.
Proof. repeat split. Qed.
Theorem given_all_safe_refuted : ~ (forall (f : sound Zcr) k s st p q, whole Zcr f -> schema_given k s -> 0 < width s -> from_uri Zcr f k = Ok st -> (p <= q)%Q -> increments Zcr f st (snd (ss_ctx st)) p q <> UB).
Proof.
  intros H. destruct (from_uri Zcr stereo cats_uri) as [st| | |] eqn:E; try (vm_compute in E; discriminate).
  specialize (H stereo cats_uri cats st 0%Q 1%Q (proj1 stereo_whole) cats_given ltac:(cbn; lia) E ltac:(discriminate)). vm_compute in E. injection E as <-. apply H. vm_compute. reflexivity.
Qed.
