(** What a description of a schema in Python says. *)
From Coq Require Import ZArith List Bool Ascii String.
Import ListNotations.
From Verif Require Import Outcome SchemaModel PsModel.
Open Scope nat_scope.
Open Scope list_scope.

(** The names of the channel types may be written in any case. *)
Definition type_name (t : ctype) : string := match t with TIncrement => "increment" | TValue => "value" | TCategorical => "categorical" | TLie => "lie" end%string.
Definition same_letter (a b : ascii) : Prop := a = b \/ exists k, k < 26 /\ nat_of_ascii a = 65 + k /\ nat_of_ascii b = 97 + k.
Inductive any_case : string -> string -> Prop :=
| ac_nil : any_case EmptyString EmptyString
| ac_cons a b s t : same_letter a b -> any_case s t -> any_case (String a s) (String b t).
Inductive says_type : pobj -> ctype -> Prop :=
| st_object t : says_type (PType t) t
| st_name s t : any_case s (type_name t) -> says_type (PStr s) t.

(** A collection of names: a list or tuple of strings, the keys of a dictionary, or the letters of a string *)
Inductive says_names : pobj -> list string -> Prop :=
| sn_seq l : says_names (PSeq (map PStr l)) l
| sn_keys d l : map fst d = map PStr l -> says_names (PDict d) l
| sn_letters s : says_names (PStr s) (map (fun a => String a EmptyString) (list_ascii_of_string s)).
(** The names of the categories: an empty one becomes the number of categories before it; a name already there adds nothing. *)
Fixpoint named (before l : list string) : list string :=
  match l with
  | [] => before
  | x :: l => let y := if string_dec x "" then to_string (List.length before) else x in
      if in_dec string_dec y before then named before l else named (before ++ [y]) l
  end.
(** When none is empty: the names in the order in which each appears first *)
Fixpoint first_of_each (l : list string) : list string := match l with [] => [] | x :: l => x :: remove string_dec x (first_of_each l) end.

(** The channel that a type and a dictionary of options ask for.  *)
Inductive says_channel : ctype -> list (pobj * pobj) -> channel -> Prop :=
| sc_increment d : says_channel TIncrement d (Increment false)
| sc_lie d : says_channel TLie d LieCh
| sc_value d : get d "lead_lag" = None -> says_channel TValue d (Value false)
| sc_lead_lag d b : get d "lead_lag" = Some (PTruth b) -> says_channel TValue d (Value b)
| sc_no_categories d : get d "categories" = None -> says_channel TCategorical d (Categorical [])
| sc_categories d o l : get d "categories" = Some o -> says_names o l -> says_channel TCategorical d (Categorical (named [] l)).

(** An entry of a dictionary: a label and either a dictionary with the type and the options, or the pair of the type and the options *)
Inductive says_entry : pobj * pobj -> string * channel -> Prop :=
| se_dict label d o t c : get d "type" = Some o -> says_type o t -> says_channel t d c -> says_entry (PStr label, PDict d) (label, c)
| se_pair label o t d c : says_type o t -> says_channel t d c -> says_entry (PStr label, PSeq [o; PDict d]) (label, c).
(** An item of a sequence: a dictionary that has the label too, or the triple of label, type and options *)
Inductive says_item : pobj -> string * channel -> Prop :=
| si_dict label d o t c : get d "label" = Some (PStr label) -> get d "type" = Some o -> says_type o t -> says_channel t d c -> says_item (PDict d) (label, c)
| si_triple label o t d c : says_type o t -> says_channel t d c -> says_item (PSeq [PStr label; o; PDict d]) (label, c).
Inductive says_schema : pobj -> list (string * channel) -> Prop :=
| ss_dict d l : Forall2 says_entry d l -> says_schema (PDict d) l
| ss_seq items l : Forall2 says_item items l -> says_schema (PSeq items) l
| ss_empty : says_schema (PStr EmptyString) [].

(** A label is taken if an earlier one is the same, or is the part of it before a colon (or a NUL). *)
Definition takes (a b : string) : Prop := b = a \/ exists r, b = (a ++ String ":"%char r)%string \/ b = (a ++ String Ascii.zero r)%string.
(** labels that are not empty, and none taken by an earlier one *)
Fixpoint free_labels (l : list string) : Prop := match l with [] => True | x :: l => x <> ""%string /\ (forall y, In y l -> ~ takes x y) /\ free_labels l end.

(** ** Metadata: the schema that the arguments ask for *)
Inductive says_types : list pobj -> list ctype -> Prop :=
| sy_nil : says_types [] []
| sy_cons o t l ts : says_type o t -> says_types l ts -> says_types (o :: l) (t :: ts).
Definition plain (t : ctype) : channel := match t with TIncrement => Increment false | TValue => Value false | TCategorical => Categorical [] | TLie => LieCh end.
(** unlabelled channels are numbered from 0 *)
Fixpoint numbered (i : nat) (ts : list ctype) : list (string * channel) := match ts with [] => [] | t :: ts => (to_string i, plain t) :: numbered (S i) ts end.
Inductive says_labelled : pobj * pobj -> string * channel -> Prop := sl label o t : says_type o t -> says_labelled (PStr label, o) (label, plain t).
(** the schema argument: a schema, or data that describe one *)
Inductive given (k : kwargs) : schema -> Prop :=
| gv_schema s : k_schema k = Some (SObject s) -> given k s
| gv_data o l : k_schema k = Some (SData o) -> says_schema o l -> free_labels (map fst l) -> given k (mkSch l false false).
(** one type for all channels: increments unless another is given; objects that are no types at all count as nothing *)
Inductive one_type (k : kwargs) : ctype -> Prop :=
| ot_none : k_channels k = None -> one_type k TIncrement
| ot_type o t : k_channels k = Some o -> says_type o t -> one_type k t
| ot_ignored o : k_channels k = Some o -> (exists b, o = PTruth b) \/ o = POther -> one_type k TIncrement.
(** The schema and the type that the arguments pick.  A given schema becomes final. *)
Inductive picks (k : kwargs) : schema -> ctype -> Prop :=
| pk_list l ts : k_channels k = Some (PSeq l) -> says_types l ts -> k_schema k = None \/ (exists s, given k s) -> picks k (mkSch (numbered 0 ts) false false) TIncrement
| pk_dict d l : k_channels k = Some (PDict d) -> Forall2 says_labelled d l -> free_labels (map fst l) -> k_schema k = None \/ (exists s, given k s) -> picks k (mkSch l false false) TIncrement
| pk_given s t : one_type k t -> given k s -> picks k (mkSch (chans s) true (time s)) t
| pk_nothing t : one_type k t -> k_schema k = None -> picks k (mkSch [] false false) t.
Definition asks_time (k : kwargs) (b : bool) : Prop := (k_time k = None /\ b = false) \/ k_time k = Some (PTruth b).
(** The width, depth and scalar type that the arguments name: those of the context if there is one *)
Definition base_width (k : kwargs) : Z := match k_ctx k with Some (w, _, _) => w | None => match k_width k with Some w => w | None => 0%Z end end.
Definition base_depth (k : kwargs) : Z := match k_ctx k with Some (_, d, _) => d | None => match k_depth k with Some d => d | None => 0%Z end end.
Definition base_type (k : kwargs) : option nat := match k_ctx k with Some (_, _, t) => Some t | None => k_type k end.
