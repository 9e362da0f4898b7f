(** Schemas and metadata given to stream constructors from Python
    (roughpy/src/args/parse_schema.cpp, kwargs_to_path_metadata.cpp:46-196, parse_algebra_configuration.cpp). *)
From Coq Require Import ZArith List Bool Ascii String.
Import ListNotations.
From Verif Require Import Outcome SchemaModel.
Open Scope nat_scope.
Open Scope string_scope.

(** The four channel types (streams/channels/stream_channel.h, ChannelType) *)
Inductive ctype := TIncrement | TValue | TCategorical | TLie.

(** The Python objects that can appear in a description.  Strings are sequences of bytes here: a string with
    characters outside ASCII would be split in Python by characters.  [PTruth b] stands for the objects that
    pybind11 casts to bool: True, False, None and numbers.  [PDict] lists the entries in the order of Python's
    iteration.  [PSeq] is a list or a tuple.  Every other object is [POther]. *)
Inductive pobj :=
| PStr (s : string) | PType (t : ctype) | PTruth (b : bool) | PDict (d : list (pobj * pobj)) | PSeq (l : list pobj) | POther.

(** The characters of a string as strings of length one: what Python's iteration and indexing give *)
Fixpoint letters (s : string) : list pobj := match s with EmptyString => [] | String a s => PStr (String a EmptyString) :: letters s end.
(** py::isinstance<py::sequence> (PySequence_Check) with the elements of the sequence *)
Definition as_seq (o : pobj) : option (list pobj) := match o with PSeq l => Some l | PStr s => Some (letters s) | _ => None end.
(** iteration of an object: dictionaries give their keys *)
Definition iterate (o : pobj) : outcome (list pobj) :=
  match o with PDict d => Ok (map fst d) | _ => match as_seq o with Some l => Ok l | None => Throw end end.
(** d[k] for a string k; None when the key is missing (py::dict::contains) *)
Definition is_key (k : string) (o : pobj) : bool := match o with PStr s => String.eqb s k | _ => false end.
Fixpoint get (d : list (pobj * pobj)) (k : string) : option pobj :=
  match d with [] => None | (a, v) :: d => if is_key k a then Some v else get d k end.
(** PyDict_Copy and PyDict_DelItemString *)
Definition del (d : list (pobj * pobj)) (k : string) : list (pobj * pobj) := filter (fun e => negb (is_key k (fst e))) d.
(** obj.cast<string>(), obj.cast<bool>() *)
Definition cast_string (o : pobj) : outcome string := match o with PStr s => Ok s | _ => Throw end.
Definition cast_bool (o : pobj) : outcome bool := match o with PTruth b => Ok b | _ => Throw end.

(** std::tolower in the C locale *)
Definition to_lower (a : ascii) : ascii := let n := nat_of_ascii a in if ((65 <=? n) && (n <=? 90))%nat then ascii_of_nat (n + 32) else a.
Fixpoint lower (s : string) : string := match s with EmptyString => EmptyString | String a s => String (to_lower a) (lower s) end.
(** parse_schema.cpp:18-37 *)
Definition string_to_channel_type (s : string) : outcome ctype :=
  let s := lower s in
  if String.eqb s "increment" then Ok TIncrement else if String.eqb s "value" then Ok TValue
  else if String.eqb s "categorical" then Ok TCategorical else if String.eqb s "lie" then Ok TLie else Throw.
(** parse_schema.cpp:39-54 *)
Definition py_to_channel_type (o : pobj) : outcome ctype :=
  match o with PType t => Ok t | PStr s => string_to_channel_type s | _ => Throw end.

(** parse_schema.cpp:80-84: the names are read and inserted one after the other *)
Fixpoint insert_categories (s : schema) (c : nat) (l : list pobj) : outcome schema :=
  match l with
  | [] => Ok s
  | o :: l => let! name := cast_string o in let! s := on_channel s c (fun x => Ok (insert_variant x name)) in insert_categories s c l
  end.
(** the channels made by insert_increment, insert_value, insert_categorical and insert_lie (schema.cpp:262-277) *)
Definition new_channel (t : ctype) : channel := match t with TIncrement => Increment false | TValue => Value false | TCategorical => Categorical [] | TLie => LieCh end.
(** parse_schema.cpp:58-117 *)
Definition insert_item (s : schema) (label : string) (t : ctype) (opts : list (pobj * pobj)) : outcome schema :=
  let! (s, c) := insert s label (new_channel t) in
  match t with
  | TIncrement | TLie => Ok s
  | TValue => match get opts "lead_lag" with
      | None => Ok s
      | Some o => let! b := cast_bool o in on_channel s c (fun x => Ok (set_lead_lag x b))
      end
  | TCategorical => match get opts "categories" with
      | None => Ok s
      | Some o => let! l := iterate o in insert_categories s c l
      end
  end.
(** parse_schema.cpp:119-140; the check at 124 makes the branch at 127 unreachable *)
Definition handle_seq_item (s : schema) (label : string) (data : list pobj) : outcome schema :=
  if negb (1 <? List.length data)%nat then Throw else
  match data with
  | [] => Throw
  | o :: rest =>
      let! t := py_to_channel_type o in
      match rest with
      | [] => insert_item s label t []
      | [PDict opts] => insert_item s label t opts
      | _ => Throw
      end
  end.
(** parse_schema.cpp:142-158 *)
Definition handle_dict_item (s : schema) (label : string) (data : list (pobj * pobj)) : outcome schema :=
  match get data "type" with
  | None => Throw
  | Some o => let! t := py_to_channel_type o in insert_item s label t (del data "type")
  end.
(** parse_schema.cpp:159-170 *)
Definition handle_dict_item_no_label (s : schema) (data : list (pobj * pobj)) : outcome schema :=
  match get data "label" with
  | None => Throw
  | Some o => let! label := cast_string o in handle_dict_item s label (del data "label")
  end.
(** parse_schema.cpp:172-176 *)
Definition handle_seq_item_no_label (s : schema) (data : list pobj) : outcome schema :=
  if negb (1 <? List.length data)%nat then Throw else
  match data with [] => Throw | o :: rest => let! label := cast_string o in handle_seq_item s label rest end.
(** parse_schema.cpp:178-195 *)
Fixpoint handle_dict_schema (s : schema) (d : list (pobj * pobj)) : outcome schema :=
  match d with
  | [] => Ok s
  | (label, item) :: d =>
      let! s := match item with
        | PDict data => let! label := cast_string label in handle_dict_item s label data
        | _ => match as_seq item with
            | Some data => let! label := cast_string label in handle_seq_item s label data
            | None => Throw
            end
        end in
      handle_dict_schema s d
  end.
(** parse_schema.cpp:197-213 *)
Fixpoint handle_seq_schema (s : schema) (l : list pobj) : outcome schema :=
  match l with
  | [] => Ok s
  | item :: l =>
      let! s := match item with
        | PDict data => handle_dict_item_no_label s data
        | _ => match as_seq item with Some data => handle_seq_item_no_label s data | None => Throw end
        end in
      handle_seq_schema s l
  end.
(** parse_schema.cpp:387-403, 422-428 *)
Definition parse_schema (data : pobj) : outcome schema :=
  match data with
  | PDict d => handle_dict_schema empty_schema d
  | _ => match as_seq data with Some l => handle_seq_schema empty_schema l | None => Throw end
  end.

(** ** Metadata *)
(** The schema argument is a StreamSchema or data that describes one. *)
Inductive schema_arg := SObject (s : schema) | SData (o : pobj).
(** The keyword arguments; scalar types are named by numbers.  A context is its width, depth and scalar type
    (the first of "ctx" and "context" counts; the first of "dtype", "ctype" and "coeffs").  The arguments vtype,
    resolution and support are passed on and left out, and so are the warnings. *)
Record kwargs := mkKw {
  k_schema : option schema_arg; k_channels : option pobj; k_time : option pobj;
  k_ctx : option (Z * Z * nat); k_width : option Z; k_depth : option Z; k_type : option nat }.
Record metadata := mkMd {
  md_width : Z; md_depth : Z; md_ctx : option (Z * Z * nat); md_type : option nat; md_schema : schema; md_default : ctype; md_time : bool }.

(** kwargs_to_path_metadata.cpp:64-72 *)
Definition read_schema (k : option schema_arg) : outcome (option schema) :=
  match k with
  | None => Ok None
  | Some a =>
      let! s := match a with SObject s => Ok s | SData o => parse_schema o end in
      if final s then Ok (Some s) else let! s := finalize s 0 in Ok (Some s)
  end.
(** kwargs_to_path_metadata.cpp:98-115, 122-139 *)
Fixpoint labelled_channels (s : schema) (d : list (pobj * pobj)) : outcome schema :=
  match d with
  | [] => Ok s
  | (label, item) :: d =>
      let! t := py_to_channel_type item in let! l := cast_string label in
      let! (s, _) := insert s l (new_channel t) in labelled_channels s d
  end.
Fixpoint unlabelled_channels (s : schema) (l : list pobj) : outcome schema :=
  match l with
  | [] => Ok s
  | item :: l => let! t := py_to_channel_type item in let! (s, _) := insert s "" (new_channel t) in unlabelled_channels s l
  end.
(** kwargs_to_path_metadata.cpp:74-145; an object of any other kind is dropped in silence *)
Definition read_channels (k : option pobj) (s : option schema) : outcome (option schema * ctype) :=
  match k with
  | None => Ok (s, TIncrement)
  | Some (PType t) => Ok (s, t)
  | Some (PStr n) => let! t := string_to_channel_type n in Ok (s, t)
  | Some (PDict d) => let! s := labelled_channels empty_schema d in Ok (Some s, TIncrement)
  | Some (PSeq l) => let! s := unlabelled_channels empty_schema l in Ok (Some s, TIncrement)
  | Some _ => Ok (s, TIncrement)
  end.
(** kwargs_to_path_metadata.cpp:153-166 *)
Definition read_time (k : option pobj) (s : schema) : outcome (schema * bool) :=
  match k with
  | None => Ok (s, false)
  | Some o => let! b := cast_bool o in
      if b then if final s then Throw else Ok (mkSch (chans s) (final s) true, true) else Ok (s, false)
  end.
Definition or_else {A} (o : option A) (a : A) : A := match o with Some x => x | None => a end.
(** kwargs_to_path_metadata.cpp:46-196 *)
Definition kwargs_to_metadata (k : kwargs) : outcome metadata :=
  let! s := read_schema (k_schema k) in
  let! (s, dflt) := read_channels (k_channels k) s in
  let s := or_else s empty_schema in
  let! (s, tm) := read_time (k_time k) s in
  let '(w, d, t) := match k_ctx k with
    | Some (w, d, t) => (w, d, Some t)
    | None => (or_else (k_width k) 0%Z, or_else (k_depth k) 0%Z, k_type k)
    end in
  if final s then
    match k_width k with
    | None => Ok (mkMd (Z.of_nat (width s)) d (k_ctx k) t s dflt tm)
    | Some w' => if Z.eqb (Z.of_nat (width s)) w' then Ok (mkMd w d (k_ctx k) t s dflt tm) else Throw
    end
  else Ok (mkMd w d (k_ctx k) t s dflt tm).
