(** Proofs about ticks given from Python: streams with a width asked for. *)
From Coq Require Import ZArith QArith List Bool Ascii String Lia.
Import ListNotations.
From Verif Require Import Outcome Alg SchemaModel SchemaProofs PsModel PsSpec PsProofs PtModel PtSpec PtProofs PtRows PtSchema PtWhole PtPad PtEx.
Open Scope nat_scope.
Open Scope list_scope.

(** specification: no schema is given; the channels argument is missing or names the type of the channels added *)
Definition only_type (k : kwargs) (t : ctype) : Prop := k_schema k = None /\ ((k_channels k = None /\ t = TIncrement) \/ k_channels k = Some (PType t)).
(** the width asked for, by a context or by itself; 0 for none *)
Definition asked (k : kwargs) : Z := match k_ctx k with Some (w, _, _) => w | None => or_else (k_width k) 0%Z end.
(** whether time is asked for *)
Definition timed (k : kwargs) : bool := match k_time k with Some (PTruth b) => b | _ => false end.

Section Padded.
  Variable data : Type.
  Variable R : cring.
  Variable to_label : data -> outcome string.
  Variable to_scalar : data -> outcome R.
  Variable lie : Type.
  Variable co : coordinates_of R lie.
  Notation channels_of := (channels_of data to_label).
  Notation labels := (map (c_label data)).
  Notation stream := (from_ticks data R to_label to_scalar lie (co_zero R lie co) (co_letter R lie co) r1 (co_sub R lie co) (co_cbh R lie co) (co_set R lie co)).
  (** the width of the channels of the ticks, with time *)
  Definition ticks_width (k : kwargs) (calls : list (call data)) : nat := width (mkSch (channels_of calls) false (timed k)).

  Lemma meta_type k t md : only_type k t -> kwargs_to_metadata k = Ok md ->
    chans (md_schema md) = [] /\ final (md_schema md) = false /\ time (md_schema md) = timed k /\ md_time md = timed k /\ md_width md = asked k /\ md_default md = t.
  Proof.
    intros [H1 H2]. unfold kwargs_to_metadata, asked, timed. rewrite H1. cbn [read_schema bind].
    assert (E : read_channels (k_channels k) None = Ok (None, t)) by (destruct H2 as [[-> ->]| ->]; reflexivity). rewrite E. cbn [bind or_else]. unfold read_time.
    destruct (k_time k) as [o|]; [destruct o as [ | |b| | |]; cbn [cast_bool bind]; try discriminate; destruct b; cbn [final empty_schema bind]|cbn [bind]];
    destruct (k_ctx k) as [[[w d] ty]|]; cbn [final empty_schema]; intros [= <-]; cbn; auto 10.
  Qed.
  Lemma meta_plain k t : only_type k t -> defined_outcome (kwargs_to_metadata k).
  Proof.
    intros [H1 H2]. unfold kwargs_to_metadata. rewrite H1. cbn [read_schema bind].
    assert (E : read_channels (k_channels k) None = Ok (None, t)) by (destruct H2 as [[-> ->]| ->]; reflexivity). rewrite E. cbn [bind or_else]. unfold read_time.
    destruct (k_time k) as [o|]; [destruct o as [ | |b| | |]; cbn [cast_bool bind]; try exact I; destruct b; cbn [final empty_schema bind]|cbn [bind]];
    destruct (k_ctx k) as [[[w d] ty]|]; cbn [final empty_schema]; exact I.
  Qed.
  Lemma same_width c f f' t : width (mkSch c f t) = width (mkSch c f' t).
  Proof. reflexivity. Qed.
  Lemma names_calls calls : names (channels_of calls) = first_of_each (labels calls).
  Proof. unfold PtSpec.channels_of, names. rewrite map_map. cbn [fst]. apply map_id. Qed.
  (** the channels: those of the ticks, then numbered ones until the width is reached or a number is the label of a tick *)
  Theorem stream_padded k t calls s w d rows : only_type k t -> Forall usable (labels calls) -> stream k calls = Ok (s, w, d, rows) ->
    exists m, chans s = channels_of calls ++ numbered t (List.length (channels_of calls)) m /\ final s = true /\ time s = timed k /\
      m <= Z.to_nat (asked k - Z.of_nat (ticks_width k calls)) /\
      (forall j, j < m -> ~ In (to_string (List.length (channels_of calls) + j)) (labels calls)) /\
      (m = Z.to_nat (asked k - Z.of_nat (ticks_width k calls)) \/ In (to_string (List.length (channels_of calls) + m)) (labels calls)).
  Proof.
    intros Hk Hu. unfold from_ticks. destruct (kwargs_to_metadata k) as [md| | |] eqn:M; cbn [bind]; try discriminate. destruct (meta_type k t md Hk M) as (C & F & T0 & Tm & W & D).
    destruct (add_calls data to_label _ calls) as [h| | |] eqn:A; cbn [bind]; try discriminate. apply schema_of_calls in A as (C1 & F1 & T1); auto.
    destruct (sort_ticks data (hp_ticks data h)) as [|u l]; [discriminate|]. destruct (finalize_schema _ md) as [[[s1 w1] d1]| | |] eqn:Z1; cbn [bind]; try discriminate.
    match goal with |- bind ?e _ = _ -> _ => destruct e end; cbn [bind]; try discriminate. intros [= <- <- <- <-].
    destruct (finalize_pads _ md s1 w1 d1 F1 Z1) as (m & L & Cs & Fs & Ts & Fr & En). exists m.
    assert (Mi : missing (hp_schema data h) md = Z.to_nat (asked k - Z.of_nat (ticks_width k calls))).
    { unfold missing, ticks_width. rewrite W. f_equal. f_equal. f_equal. destruct (hp_schema data h) as [c f b]. cbn [chans final time] in *. subst c b. rewrite T0. reflexivity. }
    assert (Sz : size (hp_schema data h) = List.length (channels_of calls)) by (unfold size; now rewrite C1).
    rewrite Mi in L, En. rewrite C1, Sz in Cs. rewrite D in Cs. rewrite C1, Sz, names_calls in En. rewrite C1, Sz in Fr. rewrite T1, T0, Tm, orb_diag in Ts.
    split; [exact Cs|]. split; [exact Fs|]. split; [exact Ts|]. split; [exact L|]. split; [intros j Hj Hin; apply (Fr j Hj); rewrite names_calls; apply first_in; exact Hin|].
    destruct En as [->|En]; [now left|right; exact (proj1 (first_in _ _) En)].
  Qed.
  Definition numbers_free (calls : list (call data)) : Prop :=
    forall i, List.length (channels_of calls) <= i -> ~ In (to_string i) (labels calls).
  (** when no label is such a number and the type added has a dimension: the widths *)
  Theorem stream_width k t calls s w d rows : only_type k t -> t <> TCategorical -> (0 <= asked k)%Z -> Forall usable (labels calls) -> numbers_free calls -> stream k calls = Ok (s, w, d, rows) ->
    chans s = channels_of calls ++ numbered t (List.length (channels_of calls)) (Z.to_nat (asked k - Z.of_nat (ticks_width k calls))) /\
    w = Z.of_nat (width s) /\ w = Z.max (asked k) (Z.of_nat (ticks_width k calls)).
  Proof.
    intros Hk Ht Ha Hu Hn H. pose proof H as H0. apply (stream_padded k t) in H as (m & C & F & T & L & _ & En); auto.
    assert (m = Z.to_nat (asked k - Z.of_nat (ticks_width k calls))) as -> by (destruct En as [->|En]; [reflexivity|exfalso; eapply Hn; [|exact En]; lia]).
    split; [exact C|]. assert (Ws : Z.of_nat (width s) = Z.max (asked k) (Z.of_nat (ticks_width k calls))).
    { assert (Wt : ticks_width k calls = wsum (channels_of calls) + (if timed k then 1 else 0)) by apply width_sum.
      rewrite width_sum, C, T, wsum_app, numbered_w, Wt. destruct t; try contradiction; destruct (timed k); lia. }
    split; [|rewrite <- Ws]; revert H0; unfold from_ticks; (destruct (kwargs_to_metadata k) as [md| | |] eqn:M; cbn [bind]; try discriminate; destruct (meta_type k t md Hk M) as (Cm & Fm & T0 & Tm & W & D);
      destruct (add_calls data to_label _ calls) as [h| | |] eqn:A; cbn [bind]; try discriminate;
      destruct (sort_ticks data (hp_ticks data h)) as [|u l]; [discriminate|]; destruct (finalize_schema _ md) as [[[s1 w1] d1]| | |] eqn:Z1; cbn [bind]; try discriminate;
      match goal with |- bind ?e _ = _ -> _ => destruct e end; cbn [bind]; try discriminate; intros [= <- <- <- <-];
      destruct (finalize_schema_are _ md s1 w1 d1 ltac:(lia) Z1) as (_ & _ & L1 & L2 & [E|E] & _); lia).
  Qed.
  Lemma numbered_names t k m : names (numbered t k m) = map to_string (seq k m).
  Proof. unfold names, numbered. now rewrite map_map. Qed.
  (** no execution without a defined outcome *)
  Theorem padded_defined k t calls : only_type k t -> t <> TCategorical -> (0 <= asked k)%Z -> Forall usable (labels calls) ->
    (forall x, defined_outcome (to_label x)) -> (forall x, defined_outcome (to_scalar x)) -> defined_outcome (stream k calls).
  Proof.
    intros Hk Ht Ha Hu Hl Hs. unfold from_ticks. pose proof (meta_plain k t Hk) as Mp. destruct (kwargs_to_metadata k) as [md| | |] eqn:M; try exact Mp. clear Mp. cbn [bind].
    destruct (meta_type k t md Hk M) as (C & F & T0 & Tm & W & D). pose proof (calls_plain data to_label Hl calls (mkHp data [] (md_schema md) false None [])) as P.
    destruct (add_calls data to_label _ calls) as [h| | |] eqn:A; cbn [bind]; auto.
    pose proof (categories_given data to_label calls (mkHp data [] (md_schema md) false None []) _ F A eq_refl) as Cg.
    destruct (calls_in_order _ _ _ _ _ A) as (ts & Hts & Et & (Pm & _) & _). apply schema_of_calls in A as (C1 & F1 & T1); auto. rewrite Et.
    destruct (sort_ticks data ts) as [|u l] eqn:S; [exact I|].
    destruct (finalize_schema _ md) as [[[s1 w1] d1]| | |] eqn:Z1; cbn [bind]; try exact I.
    - destruct (finalize_pads _ md s1 w1 d1 F1 Z1) as (m & L & Cs & Fs & Ts & Fr & En). destruct (finalize_schema_are _ md s1 w1 d1 ltac:(lia) Z1) as (_ & _ & L1 & _).
      apply plain_bind; [|intros; exact I]. apply rows_safe.
      + destruct s1 as [c1 f1 b1]. cbn [chans] in Cs. subst c1. apply good_app.
        * destruct (hp_schema data h) as [c f b]. cbn [chans] in *. subst c. now apply channels_good.
        * rewrite numbered_names. intros x Hx. apply in_map_iff in Hx as (y & <- & _). split; [apply to_string_clean|apply to_string_ne].
        * rewrite numbered_names. apply FinFun.Injective_map_NoDup; [intros a b; apply to_string_inj|apply seq_NoDup].
        * rewrite numbered_names. intros x Hx. apply in_map_iff in Hx as (y & <- & Hy). apply in_seq in Hy. replace y with (size (hp_schema data h) + (y - size (hp_schema data h))) by lia. apply Fr. lia.
        * intros n vs Hx. apply in_map_iff in Hx as (y & E & _). rewrite D in E. destruct t; cbn in E; congruence.
      + intros x Hx. rewrite Cs in Hx. apply in_app_or in Hx as [Hx|Hx].
        * rewrite C1 in Hx. exact (channels_some data to_label calls false false Cg x Hx).
        * apply in_map_iff in Hx as (y & <- & _). rewrite D. destruct t; cbn; try lia. contradiction.
      + rewrite repeat_length. lia.
      + intros v Hin. split; [|apply Hs]. apply (Permutation.Permutation_in v Pm) in Hin. clear - Hts Hin Hu.
        revert Hts. generalize (first_stamp data calls). intros st Hts. induction Hts as [|c t' l1 l2 H _ IH]; [destruct Hin|]. inversion Hu as [|x y Hx Hy]; subst. destruct Hin as [->|Hin]; auto. destruct H as (-> & _). apply Hx.
    - clear - Z1 F1. unfold finalize_schema in Z1. destruct (setup_is _ md F1) as (m & _ & E & _). rewrite E in Z1. cbn [bind] in Z1.
      repeat match type of Z1 with (if ?b then _ else _) = _ => destruct b; try discriminate | bind (if ?b then _ else _) _ = _ => destruct b; cbn [bind] in Z1; try discriminate end.
    - clear - Z1 F1. unfold finalize_schema in Z1. destruct (setup_is _ md F1) as (m & _ & E & _). rewrite E in Z1. cbn [bind] in Z1.
      repeat match type of Z1 with (if ?b then _ else _) = _ => destruct b; try discriminate | bind (if ?b then _ else _) _ = _ => destruct b; cbn [bind] in Z1; try discriminate end.
  Qed.
End Padded.

(** Cases *)
Definition wide_args (w : Z) : kwargs := mkKw None (Some (PType TValue)) None None (Some w) None None.
Definition wide_timed (w : Z) : kwargs := mkKw None None (Some (PTruth true)) None (Some w) None None.
Definition few : list (call dat) := [mkCall dat TValue "price" (fl 10) (Some (inl 5%Z)); mkCall dat TIncrement "vol" (fl 13) (Some (inl 7%Z))].
Definition clash : list (call dat) := [mkCall dat TValue "price" (fl 10) (Some (inl 5%Z)); mkCall dat TIncrement "3" (fl 13) (Some (inl 7%Z))].
Example few_ok : only_type (wide_args 4) TValue /\ only_type (wide_timed 4) TIncrement /\ (0 <= asked (wide_args 4))%Z /\ Forall usable (map (c_label dat) few) /\ numbers_free dat dl few.
Proof.
  split; [split; [reflexivity|right; reflexivity]|]. split; [split; [reflexivity|left; split; reflexivity]|]. split; [discriminate|]. split; [repeat constructor; cbn; try discriminate; intuition discriminate|].
  intros i _ Hin. cbn in Hin. assert (D : forall a s, to_string i = String a s -> In a (list_ascii_of_string "0123456789")).
  { intros a s E. unfold to_string in E. pose proof (to_uint_ne i) as N. destruct (Nat.to_uint i); try contradiction; cbn in E; injection E as <- _; cbn; tauto. }
  destruct Hin as [E|[E|[]]]; symmetry in E; specialize (D _ _ E); cbn in D; intuition discriminate.
Qed.
Example few_run : shown 5 (stream_of (wide_args 4) few) = Ok ([("price", Value false); ("vol", Increment false); ("2", Value false); ("3", Value false)]%string, 4%Z, 2%Z,
  [(0%Q, [5; 0; 0; 0; 0]%Z); (inject_Z 3, [0; 7; 0; 0; 0]%Z)]).
Proof. vm_compute. reflexivity. Qed.
Example few_timed : shown 5 (stream_of (wide_timed 4) few) = Ok ([("price", Value false); ("vol", Increment false); ("2", Increment false)]%string, 4%Z, 2%Z,
  [(0%Q, [5; 0; 0; 0; 0]%Z); (inject_Z 3, [0; 7; 0; 3; 0]%Z)]).
Proof. vm_compute. reflexivity. Qed.
(** a label that is the number of a channel to add stops the adding: the schema is narrower than the stream *)
Example clash_run : shown 5 (stream_of (wide_args 5) clash) = Ok ([("price", Value false); ("3", Increment false); ("2", Value false)]%string, 5%Z, 2%Z,
  [(0%Q, [5; 0; 0; 0; 0]%Z); (inject_Z 3, [0; 7; 0; 0; 0]%Z)]).
Proof. vm_compute. reflexivity. Qed.
Theorem width_reached_refuted : ~ (forall k t calls s w d rows, only_type k t -> t <> TCategorical -> (0 <= asked k)%Z -> Forall usable (map (c_label dat) calls) -> stream_of k calls = Ok (s, w, d, rows) -> w = Z.of_nat (width s)).
Proof.
  intros H. destruct (stream_of (wide_args 5) clash) as [[[[s w] d] rows]| | |] eqn:E.
  - assert (U : Forall usable (map (c_label dat) clash)) by (repeat constructor; cbn; try discriminate; intuition discriminate).
    assert (O : only_type (wide_args 5) TValue) by (split; [reflexivity|right; reflexivity]).
    specialize (H (wide_args 5) TValue clash s w d rows O ltac:(discriminate) ltac:(discriminate) U E). pose proof clash_run as X. rewrite E in X. cbn [shown] in X. injection X as X1 X2 X3 _.
    assert (T : time s = false). { apply (stream_padded dat Zcr dl ds _ zco _ TValue) in E as (m & _ & _ & T & _); auto. }
    rewrite width_sum, X1, T, X2 in H. vm_compute in H. discriminate.
  - vm_compute in E. discriminate.
  - vm_compute in E. discriminate.
  - vm_compute in E. discriminate.
Qed.
