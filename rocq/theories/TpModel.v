(** The standard parser of tick data (roughpy/streams/tick_stream.py), whose calls make tick streams (PtModel). *)
From Coq Require Import ZArith QArith List Bool Ascii String.
Import ListNotations.
From Verif Require Import Outcome SchemaModel PsModel PtModel.
Open Scope nat_scope.
Open Scope list_scope.

(** Python data: None, floats, ints (and booleans), strings, channel types, datetimes, other objects, dictionaries in
    the order of their items, lists and tuples (of these very types, as the parser goes by the name of the type) *)
Inductive tdata :=
| DNone | DFloat (q : Q) | DInt (z : Z) | DStr (s : string) | DType (t : ctype) | DTime (us : Z) | DOther
| DDict (d : list (tdata * tdata)) | DList (l : list tdata) | DTuple (l : list tdata).
Definition key_is (k : string) (x : tdata) : bool := match x with DStr s => String.eqb s k | _ => false end.
(** [k in d] and [d[k]] *)
Fixpoint lookup (d : list (tdata * tdata)) (k : string) : option tdata :=
  match d with [] => None | (x, v) :: d => if key_is k x then Some v else lookup d k end.
(** tick_stream.py:85 *)
Definition labels : list string := ["timestamp"; "label"; "type"; "data"]%string.
Definition remaining (b : list tdata) : list string := skipn (List.length b) labels.
Fixpoint lookups (d : list (tdata * tdata)) (ks : list string) : option (list tdata) :=
  match ks with
  | [] => Some []
  | k :: ks => match lookup d k, lookups d ks with Some v, Some vs => Some (v :: vs) | _, _ => None end
  end.
(** tick_stream.py:88-158: the items are the lists of their four fields.  [b] has the fields known so far ([current]; the
    labels remaining are always the names of the others).  Errors end the generator and the construction with it, so
    that the items before them do not count. *)
Definition handle_any (b : list tdata) (x : tdata) : outcome (list (list tdata)) :=
  match List.length b with
  | 3 => Ok [b ++ [x]]
  | 2 => match x with DFloat _ | DInt _ => Ok [b ++ [DStr "increment"; x]] | DStr _ => Ok [b ++ [DStr "categorical"; x]] | _ => Throw end
  | _ => Throw
  end.
Definition concat_map {A} (f : A -> outcome (list (list tdata))) : list A -> outcome (list (list tdata)) :=
  fix go (l : list A) := match l with [] => Ok [] | x :: l => let! r := f x in let! rs := go l in Ok (r ++ rs) end.
Fixpoint visit (b : list tdata) (x : tdata) {struct x} : outcome (list (list tdata)) :=
  match x with
  | DDict d =>
      match lookups d (remaining b) with
      | Some vs => Ok [b ++ vs]
      | None => if List.length b =? 3 then Ok [b ++ [x]] else concat_map (fun e : tdata * tdata => let (k, v) := e in visit (b ++ [k]) v) d
      end
  | DList l =>
      if List.length b =? 4 then Throw else if List.length b =? 3 then Ok [b ++ [x]] else concat_map (fun y => visit b y) l
  | DTuple l =>
      (fix go (b : list tdata) (l : list tdata) {struct l} : outcome (list (list tdata)) :=
        if List.length b + List.length l =? 4 then Ok [b ++ l]
        else if List.length b =? 4 then Throw
        else match l with
          | [] => Throw
          | [y; z] => visit (b ++ [y]) z
          | y :: l => go (b ++ [y]) l
          end) b l
  | _ => handle_any b x
  end.
(** tick_stream.py:54-69; None where the method falls off its end *)
Definition convert_channel_type (x : tdata) : outcome (option ctype) :=
  match x with
  | DType t => Ok (Some t)
  | DStr s => Ok (if String.eqb s "increment" then Some TIncrement else if String.eqb s "value" then Some TValue else if String.eqb s "categorical" then Some TCategorical else None)
  | _ => Throw
  end.
Definition to_stamp (x : tdata) : stamp := match x with DNone => SNone | DFloat q => SFloat q | DTime u => STime u | _ => SOther end.
Definition to_data (x : tdata) : option tdata := match x with DNone => None | x => Some x end.
(** tick_stream.py:71-79: the call made, if any; labels are cast to strings by the helper *)
Definition insert_item (item : list tdata) : outcome (list (call tdata)) :=
  match item with
  | [ts; label; ty; x] =>
      let! t := convert_channel_type ty in
      match t with
      | Some TIncrement | Some TValue | Some TCategorical =>
          match label with DStr s => Ok [mkCall tdata (or_else t TIncrement) s (to_stamp ts) (to_data x)] | _ => Throw end
      | _ => Ok []
      end
  | _ => Throw
  end.
Fixpoint insert_items (l : list (list tdata)) : outcome (list (call tdata)) :=
  match l with [] => Ok [] | x :: l => let! c := insert_item x in let! r := insert_items l in Ok (c ++ r) end.
(** tick_stream.py:84-86 *)
Definition parse_data (x : tdata) : outcome (list (call tdata)) := let! items := visit [] x in insert_items items.
(** tick_stream.cpp:63-87 with this parser: a string is cast for the categories *)
Definition tdata_label (x : tdata) : outcome string := match x with DStr s => Ok s | _ => Throw end.
Definition from_data (R : Type) (to_scalar : tdata -> outcome R) (lie : Type) (zero : lie) (letter : nat -> R -> lie) (one : R) (sub cbh : lie -> lie -> lie) (set_time : lie -> nat -> Q -> lie)
  (k : kwargs) (x : tdata) : outcome (schema * Z * Z * list (Q * lie)) :=
  let! calls := parse_data x in from_ticks tdata R tdata_label to_scalar lie zero letter one sub cbh set_time k calls.
