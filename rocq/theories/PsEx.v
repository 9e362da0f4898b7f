(** Descriptions that meet the hypotheses. *)
From Coq Require Import ZArith List Bool Ascii String Lia.
Import ListNotations.
From Verif Require Import Outcome SchemaModel SchemaProofs PsModel PsSpec PsProofs PsMeta.
Open Scope nat_scope.
Open Scope list_scope.

Definition price_item : pobj := PSeq [PStr "price"; PStr "VALUE"; PDict [(PStr "lead_lag", PTruth true)]].
Definition mood_item : pobj := PDict [(PStr "type", PType TCategorical); (PStr "categories", PSeq [PStr "up"; PStr "down"; PStr "up"]); (PStr "label", PStr "mood")].
Definition items : pobj := PSeq [price_item; mood_item].
Definition channels : list (string * channel) := [("price"%string, Value true); ("mood"%string, Categorical ["up"; "down"]%string)].
Definition by_label : pobj := PDict [(PStr "price", PSeq [PStr "Value"; PDict [(PStr "lead_lag", PTruth true)]]); (PStr "mood", PDict [(PStr "type", PStr "categorical"); (PStr "categories", PSeq [PStr "up"; PStr "down"; PStr "up"])])].
Lemma named_ex : named [] ["up"; "down"; "up"]%string = ["up"; "down"]%string.
Proof. reflexivity. Qed.
Example items_say : says_schema items channels.
Proof.
  apply ss_seq. apply Forall2_cons; [|apply Forall2_cons; [|apply Forall2_nil]].
  - apply si_triple with (t := TValue); [apply type_iff; reflexivity|]. now apply sc_lead_lag.
  - apply si_dict with (o := PType TCategorical) (t := TCategorical); try reflexivity; [constructor|]. rewrite <- named_ex.
    apply sc_categories with (o := PSeq [PStr "up"; PStr "down"; PStr "up"]); [reflexivity|]. apply (sn_seq ["up"; "down"; "up"]%string).
Qed.
Example by_label_says : says_schema by_label channels.
Proof.
  apply ss_dict. apply Forall2_cons; [|apply Forall2_cons; [|apply Forall2_nil]].
  - apply se_pair with (t := TValue); [apply type_iff; reflexivity|]. now apply sc_lead_lag.
  - apply se_dict with (o := PStr "categorical") (t := TCategorical); [reflexivity|apply type_iff; reflexivity|]. rewrite <- named_ex.
    apply sc_categories with (o := PSeq [PStr "up"; PStr "down"; PStr "up"]); [reflexivity|]. apply (sn_seq ["up"; "down"; "up"]%string).
Qed.
Lemma not_takes a b : a <> ""%string -> compare_labels a b = false -> ~ takes a b.
Proof. intros Ha H Q. apply labels_takes in Q; auto. congruence. Qed.
Example channels_free : free_labels (map fst channels).
Proof.
  cbn [map fst channels free_labels]. repeat split; try discriminate.
  - intros y [<-|[]]. apply not_takes; [discriminate|reflexivity].
  - intros y [].
Qed.
Example items_parse : parse_schema items = Ok (mkSch channels false false) /\ parse_schema by_label = Ok (mkSch channels false false).
Proof. split; reflexivity. Qed.
Example empty_names : named [] [""; "a"; ""; "a"]%string = ["0"; "a"; "2"]%string.
Proof. reflexivity. Qed.
Example taken_ex : takes "price" "price:lead" /\ takes "price" "price" /\ ~ takes "price" "prices".
Proof. split; [right; exists "lead"%string; now left|]. split; [now left|]. apply not_takes; [discriminate|reflexivity]. Qed.

(** schema, width and no context *)
Definition kw_schema : kwargs := mkKw (Some (SData items)) None None None (Some 4%Z) (Some 3%Z) (Some 1).
Example kw_schema_given : given kw_schema (mkSch channels false false).
Proof. eapply gv_data; [reflexivity|exact items_say|exact channels_free]. Qed.
Example kw_schema_picks : picks kw_schema (mkSch channels true false) TIncrement.
Proof. apply (pk_given kw_schema (mkSch channels false false)); [now apply ot_none|exact kw_schema_given]. Qed.
Example kw_schema_run : kwargs_to_metadata kw_schema = Ok (mkMd 4 3 None (Some 1) (mkSch channels true false) TIncrement false).
Proof. reflexivity. Qed.
(** types, the time and a context *)
Definition kw_types : kwargs := mkKw None (Some (PSeq [PStr "value"; PType TLie])) (Some (PTruth true)) (Some (3%Z, 2%Z, 0)) None None None.
Example kw_types_picks : picks kw_types (mkSch [("0"%string, Value false); ("1"%string, LieCh)] false false) TIncrement.
Proof. apply (pk_list kw_types [PStr "value"; PType TLie] [TValue; TLie]); [reflexivity| |now left]. repeat constructor; apply type_iff; reflexivity. Qed.
Example kw_types_run : kwargs_to_metadata kw_types = Ok (mkMd 3 2 (Some (3%Z, 2%Z, 0)) (Some 0) (mkSch [("0"%string, Value false); ("1"%string, LieCh)] false true) TIncrement true).
Proof. reflexivity. Qed.
Definition kw_named : kwargs := mkKw (Some (SData items)) (Some (PDict [(PStr "x", PStr "Increment"); (PStr "y", PType TValue)])) (Some (PTruth true)) None (Some 9%Z) None None.
Example kw_named_picks : picks kw_named (mkSch [("x"%string, Increment false); ("y"%string, Value false)] false false) TIncrement.
Proof.
  apply (pk_dict kw_named [(PStr "x", PStr "Increment"); (PStr "y", PType TValue)]); [reflexivity| | |].
  - repeat constructor. + apply (sl "x" (PStr "Increment") TIncrement). apply type_iff; reflexivity. + apply (sl "y" (PType TValue) TValue). constructor.
  - cbn. repeat split; try discriminate. + intros y [<-|[]]. apply not_takes; [discriminate|reflexivity]. + intros y [].
  - right. exists (mkSch channels false false). eapply gv_data; [reflexivity|exact items_say|exact channels_free].
Qed.
(** The schema given and the width 9 do not agree, but the types given replace the schema. *)
Example kw_named_run : kwargs_to_metadata kw_named = Ok (mkMd 9 0 None None (mkSch [("x"%string, Increment false); ("y"%string, Value false)] false true) TIncrement true).
Proof. reflexivity. Qed.
(** a context of width 7 with a schema of width 4 *)
Definition kw_clash : kwargs := mkKw (Some (SData items)) None None (Some (7%Z, 2%Z, 0)) None None None.
Example kw_clash_picks : picks kw_clash (mkSch channels true false) TIncrement.
Proof. apply (pk_given kw_clash (mkSch channels false false)); [now apply ot_none|]. eapply gv_data; [reflexivity|exact items_say|exact channels_free]. Qed.
Example kw_clash_run : kwargs_to_metadata kw_clash = Ok (mkMd 4 2 (Some (7%Z, 2%Z, 0)) (Some 0) (mkSch channels true false) TIncrement false).
Proof. reflexivity. Qed.
