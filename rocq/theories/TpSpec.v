(** What tick data say. *)
From Coq Require Import ZArith QArith List Bool Ascii String.
Import ListNotations.
From Verif Require Import Outcome SchemaModel PsModel PtModel TpModel.
Open Scope nat_scope.
Open Scope list_scope.

Definition field_names : list string := ["timestamp"; "label"; "type"; "data"]%string.
(** the value of a key in a dictionary: that of its first item with this key *)
Inductive has (k : string) (v : tdata) : list (tdata * tdata) -> Prop :=
| has_here d : has k v ((DStr k, v) :: d)
| has_there x w d : x <> DStr k -> has k v d -> has k v ((x, w) :: d).
Definition lacks (d : list (tdata * tdata)) (k : string) : Prop := ~ In (DStr k) (map fst d).
(** [b] are the fields that are known, [ns] the names of those that are not *)
Definition all_named (ns : list string) (d : list (tdata * tdata)) : Prop := forall k, In k ns -> ~ lacks d k.
Definition single (x : tdata) : Prop := match x with DDict _ | DList _ | DTuple _ => False | _ => True end.
Definition number (x : tdata) : Prop := match x with DFloat _ | DInt _ => True | _ => False end.

(** [says b x items]: after the known fields b, the data x say these items, each with four fields *)
Inductive says : list tdata -> tdata -> list (list tdata) -> Prop :=
| sy_fields b d vs : Forall2 (fun k v => has k v d) (skipn (List.length b) field_names) vs -> says b (DDict d) [b ++ vs]
| sy_keys b d r : List.length b < 3 -> ~ all_named (skipn (List.length b) field_names) d -> says_values b d r -> says b (DDict d) r
| sy_dict_data b d : List.length b = 3 -> lacks d "data" -> says b (DDict d) [b ++ [DDict d]]
| sy_list b l r : List.length b < 3 -> says_each b l r -> says b (DList l) r
| sy_list_data b l : List.length b = 3 -> says b (DList l) [b ++ [DList l]]
| sy_tuple b l : List.length b + List.length l = 4 -> says b (DTuple l) [b ++ l]
| sy_pair b y z r : List.length b < 4 -> List.length b <> 2 -> says (b ++ [y]) z r -> says b (DTuple [y; z]) r
| sy_tail b y l r : List.length b < 4 -> List.length l <> 1 -> List.length b + List.length l <> 3 -> says (b ++ [y]) (DTuple l) r -> says b (DTuple (y :: l)) r
| sy_data b x : List.length b = 3 -> single x -> says b x [b ++ [x]]
| sy_number b x : List.length b = 2 -> number x -> says b x [b ++ [DStr "increment"; x]]
| sy_string b s : List.length b = 2 -> says b (DStr s) [b ++ [DStr "categorical"; DStr s]]
with says_each : list tdata -> list tdata -> list (list tdata) -> Prop :=
| se_nil b : says_each b [] []
| se_cons b x l r rs : says b x r -> says_each b l rs -> says_each b (x :: l) (r ++ rs)
with says_values : list tdata -> list (tdata * tdata) -> list (list tdata) -> Prop :=
| sv_nil b : says_values b [] []
| sv_cons b k v d r rs : says (b ++ [k]) v r -> says_values b d rs -> says_values b ((k, v) :: d) (r ++ rs).

(** [item_calls item calls]: the calls that an item makes; none for other strings and for Lie channels *)
Definition type_says (x : tdata) (t : ctype) : Prop :=
  x = DType t \/ (x = DStr "increment" /\ t = TIncrement) \/ (x = DStr "value" /\ t = TValue) \/ (x = DStr "categorical" /\ t = TCategorical).
Definition no_type (x : tdata) : Prop := x = DType TLie \/ exists s, x = DStr s /\ s <> "increment"%string /\ s <> "value"%string /\ s <> "categorical"%string.
Inductive item_calls : list tdata -> list (call tdata) -> Prop :=
| ic_call ts s ty t x : type_says ty t -> t <> TLie -> item_calls [ts; DStr s; ty; x] [mkCall tdata t s (to_stamp ts) (to_data x)]
| ic_dropped ts l ty x : no_type ty -> item_calls [ts; l; ty; x] [].
