(** Common forms of tick data, and examples. *)
From Coq Require Import ZArith QArith List Bool Ascii String Lia.
Import ListNotations.
From Verif Require Import Outcome Alg SchemaModel PsModel PsProofs PtModel PtSpec PtRows PtWhole PtEx TpModel TpSpec TpProofs.
Open Scope nat_scope.
Open Scope list_scope.

Lemma each_of {A} (f : A -> tdata) (g : A -> list (list tdata)) b : forall l, (forall a, In a l -> says b (f a) (g a)) -> says_each b (map f l) (flat_map g l).
Proof. induction l as [|a l IH]; intros H; cbn [map flat_map]; [constructor|]. constructor; [apply H; now left|apply IH; intros; apply H; now right]. Qed.
Lemma values_of {A} (k f : A -> tdata) (g : A -> list (list tdata)) b : forall l, (forall a, In a l -> says (b ++ [k a]) (f a) (g a)) -> says_values b (map (fun a => (k a, f a)) l) (flat_map g l).
Proof. induction l as [|a l IH]; intros H; cbn [map flat_map]; [constructor|]. constructor; [apply H; now left|apply IH; intros; apply H; now right]. Qed.
(** a list of tuples of four *)
Theorem tuples rows : Forall (fun r => List.length r = 4) rows -> says [] (DList (map DTuple rows)) rows.
Proof.
  intros H. apply sy_list; [cbn; lia|]. replace rows with (flat_map (fun r : list tdata => [r]) rows) at 2 by (clear H; induction rows; cbn; congruence).
  apply each_of. intros r Hr. rewrite Forall_forall in H. apply (sy_tuple [] r). cbn. auto.
Qed.
(** a list of dictionaries with the four fields, in any order and with others *)
Theorem records ds rows : Forall2 (fun d r => Forall2 (fun k v => has k v d) field_names r) ds rows -> says [] (DList (map DDict ds)) rows.
Proof.
  intros H. apply sy_list; [cbn; lia|]. induction H as [|d r ds rows H _ IH]; [constructor|]. cbn [map]. change (r :: rows) with ([r] ++ rows). constructor; auto. apply (sy_fields [] d r). exact H.
Qed.
Lemma not_named ns d k : In k ns -> lacks d k -> ~ all_named ns d.
Proof. intros H1 H2 H3. exact (H3 k H1 H2). Qed.
(** {time: {label: (type, data)}} *)
Definition by_label (groups : list (tdata * list (tdata * (tdata * tdata)))) : tdata :=
  DDict (map (fun g => (fst g, DDict (map (fun e => (fst e, DTuple [fst (snd e); snd (snd e)])) (snd g)))) groups).
Definition items_by_label (groups : list (tdata * list (tdata * (tdata * tdata)))) : list (list tdata) :=
  flat_map (fun g => flat_map (fun e => [[fst g; fst e; fst (snd e); snd (snd e)]]) (snd g)) groups.
Theorem nested groups : ~ In (DStr "timestamp") (map fst groups) -> (forall g, In g groups -> exists k, In k ["label"; "type"; "data"]%string /\ ~ In (DStr k) (map fst (snd g))) ->
  says [] (by_label groups) (items_by_label groups).
Proof.
  intros H1 H2. apply sy_keys; [cbn; lia| |].
  - apply (not_named _ _ "timestamp"); [now left|]. unfold lacks. rewrite map_map. exact H1.
  - apply (values_of fst). intros [t es] Hg. apply sy_keys; [cbn; lia| |].
    + destruct (H2 _ Hg) as (k & Hk & Hl). apply (not_named _ _ k); [exact Hk|]. unfold lacks. rewrite map_map. exact Hl.
    + apply (values_of fst). intros [la [ty x]] _. apply (sy_tuple [t; la] [ty; x]). reflexivity.
Qed.
(** {time: [(label, type, data)]} *)
Definition by_time (groups : list (tdata * list (tdata * (tdata * tdata)))) : tdata :=
  DDict (map (fun g => (fst g, DList (map (fun e => DTuple [fst e; fst (snd e); snd (snd e)]) (snd g)))) groups).
Theorem listed groups : ~ In (DStr "timestamp") (map fst groups) -> says [] (by_time groups) (items_by_label groups).
Proof.
  intros H1. apply sy_keys; [cbn; lia| |].
  - apply (not_named _ _ "timestamp"); [now left|]. unfold lacks. rewrite map_map. exact H1.
  - apply (values_of fst). intros [t es] Hg. apply sy_list; [cbn; lia|]. apply each_of. intros [la [ty x]] _. apply (sy_tuple [t] [la; ty; x]). reflexivity.
Qed.
(** {time: {label: number}}: increments *)
Definition of_numbers (groups : list (tdata * list (tdata * tdata))) : tdata := DDict (map (fun g => (fst g, DDict (snd g))) groups).
Theorem numbers groups : ~ In (DStr "timestamp") (map fst groups) ->
  (forall g, In g groups -> (exists k, In k ["label"; "type"; "data"]%string /\ ~ In (DStr k) (map fst (snd g))) /\ forall e, In e (snd g) -> number (snd e)) ->
  says [] (of_numbers groups) (flat_map (fun g => flat_map (fun e => [[fst g; fst e; DStr "increment"; snd e]]) (snd g)) groups).
Proof.
  intros H1 H2. apply sy_keys; [cbn; lia| |].
  - apply (not_named _ _ "timestamp"); [now left|]. unfold lacks. rewrite map_map. exact H1.
  - apply (values_of fst). intros [t es] Hg. destruct (H2 _ Hg) as [(k & Hk & Hl) Hn]. apply sy_keys; [cbn; lia| |].
    + apply (not_named _ _ k); [exact Hk|exact Hl].
    + cbn [fst snd] in *. assert (M : map (fun e : tdata * tdata => (fst e, snd e)) es = es) by (clear; induction es as [|[] es IH]; cbn; congruence).
      rewrite <- M at 1. apply (values_of fst snd). intros [la x] He. apply (sy_number [t; la] x); [reflexivity|]. exact (Hn _ He).
Qed.
(** a list of parts says what its parts say, in order *)
Theorem parts a b r : says [] (DList (a ++ b)) r <-> exists ra rb, says [] (DList a) ra /\ says [] (DList b) rb /\ r = ra ++ rb.
Proof.
  assert (E : forall a b r, says_each [] (a ++ b) r <-> exists ra rb, says_each [] a ra /\ says_each [] b rb /\ r = ra ++ rb).
  { clear. induction a as [|x a IH]; intros b r; cbn [app].
    - split; [intros H; exists [], r; repeat split; auto; constructor|]. intros (ra & rb & H1 & H2 & ->). inversion H1. exact H2.
    - split.
      + intros H. inversion H as [|b' x' l r1 rs H1 H2]; subst. apply IH in H2 as (ra & rb & H2 & H3 & ->). exists (r1 ++ ra), rb. rewrite app_assoc. repeat split; auto. constructor; auto.
      + intros (ra & rb & H1 & H2 & ->). inversion H1 as [|b' x' l r1 rs H3 H4]; subst. rewrite <- app_assoc. constructor; auto. apply IH. eauto. }
  assert (L : forall l r, says [] (DList l) r <-> says_each [] l r).
  { clear. intros l r. split; [|intros H; apply sy_list; [cbn; lia|exact H]]. intros H. inversion H; subst; auto; cbn in *; try discriminate; try contradiction; try lia. }
  rewrite L, E. split; intros (ra & rb & H1 & H2 & H3); exists ra, rb; rewrite !L in *; auto.
Qed.

(** ** Streams *)
Section Streams.
  Variable R : cring.
  Variable to_scalar : tdata -> outcome R.
  Variable lie : Type.
  Variable co : coordinates_of R lie.
  Notation stream := (from_data R to_scalar lie (co_zero R lie co) (co_letter R lie co) r1 (co_sub R lie co) (co_cbh R lie co) (co_set R lie co)).
  Theorem data_to_rows k x s w d rows : stream k x = Ok (s, w, d, rows) ->
    exists items cs ts out, says [] x items /\ Forall2 item_calls items cs /\ Forall2 (made_by tdata (first_stamp tdata (List.concat cs))) (List.concat cs) ts /\
      in_order tdata ts out /\ rows_mean tdata R to_scalar co s [] out rows.
  Proof.
    unfold from_data. destruct (parse_data x) as [calls| | |] eqn:P; cbn [bind]; try discriminate. intros H. apply parse_iff in P as (items & cs & H1 & H2 & ->).
    apply streams_are in H as (_ & _ & ts & out & H3 & H4 & H5). exists items, cs, ts, out. auto.
  Qed.
  Theorem data_accepted k x calls : parse_data x = Ok calls -> no_schema k -> (exists md, kwargs_to_metadata k = Ok md) -> calls <> [] -> Forall usable (map (c_label tdata) calls) ->
    Forall (readable tdata R to_scalar tdata_label (first_stamp tdata calls)) calls -> exists r, stream k x = Ok r.
  Proof. intros P. unfold from_data. rewrite P. cbn [bind]. apply stream_accepts. Qed.
  Theorem data_defined k x : no_schema k -> (forall calls, parse_data x = Ok calls -> Forall usable (map (c_label tdata) calls)) -> (forall y, defined_outcome (to_scalar y)) -> defined_outcome (stream k x).
  Proof.
    intros Hk Hu Hs. unfold from_data. pose proof (parse_plain_out x) as P. destruct (parse_data x) as [calls| | |]; cbn [bind]; auto. apply stream_plain; auto. intros []; exact I.
  Qed.
End Streams.

(** ** Examples *)
Definition t1 : tdata := DFloat (1 # 1). Definition t2 : tdata := DFloat (2 # 1).
Definition groups_ex : list (tdata * list (tdata * (tdata * tdata))) :=
  [(t1, [(DStr "price", (DStr "value", DFloat (5 # 1))); (DStr "mood", (DType TCategorical, DStr "up"))]); (t2, [(DStr "price", (DStr "value", DInt 9))])].
Example groups_ok : ~ In (DStr "timestamp") (map fst groups_ex) /\ forall g, In g groups_ex -> exists k, In k ["label"; "type"; "data"]%string /\ ~ In (DStr k) (map fst (snd g)).
Proof. split; [cbn; intuition discriminate|]. intros g Hg. exists "label"%string. split; [now left|]. destruct Hg as [<-|[<-|[]]]; cbn; intuition discriminate. Qed.
Example groups_parse : parse_data (by_label groups_ex) = parse_data (by_time groups_ex) /\
  parse_data (by_label groups_ex) = Ok [mkCall tdata TValue "price" (SFloat (1 # 1)) (Some (DFloat (5 # 1))); mkCall tdata TCategorical "mood" (SFloat (1 # 1)) (Some (DStr "up")); mkCall tdata TValue "price" (SFloat (2 # 1)) (Some (DInt 9))].
Proof. split; reflexivity. Qed.
Example mixed_parse : parse_data (DList [DTuple [t1; DDict [(DStr "a", DInt 3); (DStr "b", DStr "x")]]; DTuple [t2; DStr "a"; DInt 4]; DDict [(DStr "data", DInt 1); (DStr "label", DStr "a"); (DStr "type", DStr "value"); (DStr "timestamp", t1)]]) =
  Ok [mkCall tdata TIncrement "a" (SFloat (1 # 1)) (Some (DInt 3)); mkCall tdata TCategorical "b" (SFloat (1 # 1)) (Some (DStr "x")); mkCall tdata TIncrement "a" (SFloat (2 # 1)) (Some (DInt 4)); mkCall tdata TValue "a" (SFloat (1 # 1)) (Some (DInt 1))].
Proof. reflexivity. Qed.

Definition tds (x : tdata) : outcome Z := match x with DInt z => Ok z | DFloat q => Ok (Qnum q) | _ => Throw end.
Example groups_stream : exists r, from_data Z tds (nat -> Z) (fun _ => 0%Z) zlet 1%Z zsub zadd zset plain_args (by_label groups_ex) = Ok r.
Proof.
  apply (data_accepted Zcr tds _ zco plain_args (by_label groups_ex) _ (proj2 groups_parse)); [apply args_ok|eexists; reflexivity|discriminate| |].
  - repeat constructor; cbn; try discriminate; intuition discriminate.
  - repeat (apply Forall_cons; [split; [exact I|eexists; split; [reflexivity|]; cbn; eauto]|]). apply Forall_nil.
Qed.

(** ** What does not hold *)
(** channels with the names of the fields *)
Definition named_groups : list (tdata * list (tdata * (tdata * tdata))) :=
  [(t1, [(DStr "label", (DStr "value", DInt 1)); (DStr "type", (DStr "value", DInt 2)); (DStr "data", (DStr "value", DInt 3))])].
Theorem any_labels_refuted : ~ (forall groups, ~ In (DStr "timestamp") (map fst groups) -> says [] (by_label groups) (items_by_label groups)).
Proof. intros H. specialize (H named_groups). assert (N : ~ In (DStr "timestamp") (map fst named_groups)) by (cbn; intuition discriminate). apply H in N. apply visit_iff in N. discriminate N. Qed.
(** names of types in another case, which schemas accept *)
Definition upper_groups : list (tdata * list (tdata * (tdata * tdata))) := [(t1, [(DStr "a", (DStr "value", DInt 1)); (DStr "b", (DStr "Value", DInt 2))])].
Theorem each_item_counts_refuted : ~ (forall x items calls, says [] x items -> parse_data x = Ok calls -> List.length calls = List.length items).
Proof.
  intros H. assert (S : says [] (by_label upper_groups) (items_by_label upper_groups)) by (apply visit_iff; reflexivity).
  specialize (H _ _ [mkCall tdata TValue "a" (SFloat (1 # 1)) (Some (DInt 1))] S eq_refl). discriminate H.
Qed.
Theorem types_as_in_schemas_refuted : ~ (forall s t, py_to_channel_type (PStr s) = Ok t -> convert_channel_type (DStr s) = Ok (Some t)).
Proof. intros H. specialize (H "Value"%string TValue eq_refl). discriminate H. Qed.
(** data that are tuples *)
Theorem tuple_data_refuted : ~ (forall t s ty x, says [t; s; ty] x [[t; s; ty; x]]).
Proof. intros H. specialize (H t1 (DStr "a") (DStr "value") (DTuple [DInt 1; DTuple []])). apply says_visit_all in H. discriminate H. Qed.
