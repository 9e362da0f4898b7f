(** Stream schemas (streams/src/schema.cpp, streams/src/channels) and the stream construction helper.
    Sizes and dimensions are natural numbers (they are bounded by the lengths of vectors in memory). *)
From Coq Require Import ZArith List Bool Ascii String DecimalString.
Import ListNotations.
From Verif Require Export Outcome.
Open Scope nat_scope.
Open Scope string_scope.

(** std::to_string of an unsigned number *)
Definition to_string (n : nat) : string := NilZero.string_of_uint (Nat.to_uint n).
Definition NUL : ascii := Ascii.zero.
Definition colon : ascii := ":"%char.

(** ** Channels *)
Inductive channel := Increment (lead_lag : bool) | Value (lead_lag : bool) | Categorical (variants : list string) | LieCh.
Fixpoint index_of (x : string) (l : list string) : option nat :=
  match l with [] => None | y :: l => if String.eqb x y then Some 0 else match index_of x l with Some i => Some (S i) | None => None end end.
(** stream_channel.cpp:44-48, lead_laggable_channel.cpp:10-13, categorical_channel.cpp:44-47 *)
Definition num_variants (c : channel) : nat :=
  match c with Increment ll | Value ll => if ll then 2 else 1 | Categorical vs => List.length vs | LieCh => 1 end.
(** stream_channel.cpp:49-53, lead_laggable_channel.cpp:14-25, categorical_channel.cpp:48-52 *)
Definition label_suffix (c : channel) (variant : nat) : outcome string :=
  match c with
  | Increment ll | Value ll => if ll then match variant with 0 => Ok ":lead" | 1 => Ok ":lag" | _ => Throw end else Ok ""
  | Categorical vs => match nth_error vs variant with Some v => Ok (":" ++ v) | None => Throw end
  | LieCh => Ok ""
  end.
(** stream_channel.cpp:54, lead_laggable_channel.cpp:26-36, categorical_channel.cpp:53-63 *)
Definition variant_id_of_label (c : channel) (label : string) : outcome nat :=
  match c with
  | Increment ll | Value ll => if ll && String.eqb label "lead" then Ok 0 else if ll && String.eqb label "lag" then Ok 1 else Ok 0
  | Categorical vs => match index_of label vs with Some i => Ok i | None => Throw end
  | LieCh => Ok 0
  end.
(** stream_channel.cpp:67-71, lead_laggable_channel.cpp:37-41, categorical_channel.cpp:64-67 *)
Definition get_variants (c : channel) : list string :=
  match c with Increment ll | Value ll => if ll then ["lead"; "lag"] else [] | Categorical vs => vs | LieCh => [] end.
(** lead_laggable_channel.cpp:42-45; no effect on the other channels (stream_channel.cpp:73) *)
Definition set_lead_lag (c : channel) (b : bool) : channel := match c with Increment _ => Increment b | Value _ => Value b | c => c end.
(** categorical_channel.cpp:68-87: a variant already present throws *)
Definition add_variant (c : channel) (v : string) : outcome channel :=
  match c with
  | Categorical vs => let label := if String.eqb v "" then to_string (List.length vs) else v in
      match index_of label vs with Some _ => Throw | None => Ok (Categorical (vs ++ [label])) end
  | c => Ok c
  end.
(** categorical_channel.cpp:89-106: a variant already present is left alone *)
Definition insert_variant (c : channel) (v : string) : channel :=
  match c with
  | Categorical vs => let label := if String.eqb v "" then to_string (List.length vs) else v in
      match index_of label vs with Some _ => c | None => Categorical (vs ++ [label]) end
  | c => c
  end.

(** ** Schemas (schema.h:76-85).  [time] is Parameterization::needs_adding: m_is_channel is never set. *)
Record schema := mkSch { chans : list (string * channel); final : bool; time : bool }.
Definition size (s : schema) : nat := List.length (chans s).
Definition empty_schema : schema := mkSch [] false false.

(** schema.cpp:67-77: the loop and the final test; characters of the label first *)
Fixpoint compare_go (item ref : string) : bool :=
  match item, ref with
  | EmptyString, EmptyString => true
  | EmptyString, String c _ => Ascii.eqb c NUL || Ascii.eqb c colon
  | String a item, String b ref => if Ascii.eqb b a then compare_go item ref else false
  | String _ _, EmptyString => false
  end.
(** schema.cpp:53-78 *)
Definition compare_labels (item ref : string) : bool :=
  if (String.length ref <? String.length item)%nat then false
  else if String.eqb ref "" then false else if String.eqb item "" then false else compare_go item ref.
(** schema.cpp:80-92 *)
Definition width_to (s : schema) (n : nat) : nat := fold_left (fun a c => a + num_variants (snd c)) (firstn n (chans s)) 0.
(** schema.cpp:93-102; returns the position of the channel and the reduced dimension *)
Fixpoint stream_dim_go (l : list (string * channel)) (i d : nat) : outcome (nat * nat) :=
  match l with [] => Throw | c :: l => if (d <? num_variants (snd c))%nat then Ok (i, d) else stream_dim_go l (S i) (d - num_variants (snd c)) end.
(** schema.cpp:104-115, 117-128: the position of the first channel whose label matches; the overload for
    non-constant schemas first checks that the schema is not final *)
Fixpoint find_go (l : list (string * channel)) (i : nat) (label : string) : option nat :=
  match l with [] => None | c :: l => if compare_labels (fst c) label then Some i else find_go l (S i) label end.
Definition find (s : schema) (label : string) : option nat := find_go (chans s) 0 label.
Definition find_mut (s : schema) (label : string) : outcome (option nat) := if final s then Throw else Ok (find s label).
(** schema.cpp:130-139 *)
Definition width_without_param (s : schema) : nat := width_to s (size s).
Definition width (s : schema) : nat := width_without_param s + (if time s then 1 else 0).
(** schema.cpp:148-152 *)
Definition channel_to_stream_dim (s : schema) (c : nat) : outcome nat := if (c <? size s)%nat then Ok (width_to s c) else Throw.
(** schema.cpp:153-164 *)
Definition channel_variant_to_stream_dim (s : schema) (c v : nat) : outcome nat :=
  match nth_error (chans s) c with
  | None => Throw
  | Some x => if (v <? num_variants (snd x))%nat then Ok (width_to s c + v) else Throw
  end.
(** schema.cpp:166-173 *)
Definition stream_dim_to_channel (s : schema) (d : nat) : outcome (nat * nat) := stream_dim_go (chans s) 0 d.
(** schema.cpp:175-181, 194-201; 189-193 *)
Definition label_of_channel_variant (s : schema) (c v : nat) : outcome string :=
  match nth_error (chans s) c with None => Throw | Some x => let! t := label_suffix (snd x) v in Ok (fst x ++ t) end.
Definition label_of_channel_id (s : schema) (c : nat) : outcome string := match nth_error (chans s) c with None => Throw | Some x => Ok (fst x) end.
(** schema.cpp:183-188 *)
Definition label_of_stream_dim (s : schema) (d : nat) : outcome string :=
  let! (c, v) := stream_dim_go (chans s) 0 d in label_of_channel_variant s c v.
Fixpoint sdrop (n : nat) (t : string) : string := match n, t with 0, _ => t | S n, String _ t => sdrop n t | S _, EmptyString => EmptyString end.
(** schema.cpp:203-236.  A label that ends in the colon gives an empty view (its address is formed by
    dereferencing the end iterator, which is taken to be harmless here). *)
Definition label_to_stream_dim (s : schema) (label : string) : outcome nat :=
  match find s label with
  | None => Throw
  | Some c =>
      match nth_error (chans s) c with
      | None => Throw
      | Some x =>
          match sdrop (String.length (fst x)) label with
          | EmptyString => Ok (width_to s c)
          | String a rest => if Ascii.eqb a NUL then Ok (width_to s c)
              else if Ascii.eqb a colon then let! v := variant_id_of_label (snd x) rest in Ok (width_to s c + v) else UB
          end
      end
  end.
(** schema.cpp:238-254; the position of the channel returned *)
Definition insert (s : schema) (label : string) (c : channel) : outcome (schema * nat) :=
  if final s then Throw else
  let label := if String.eqb label "" then to_string (size s) else label in
  let! pos := find_mut s label in
  match pos with Some i => Ok (s, i) | None => Ok (mkSch (chans s ++ [(label, c)]) (final s) (time s), size s) end.
(** schema.cpp:46-51 *)
Fixpoint inserts (n : nat) (labels : nat -> string) (i : nat) (s : schema) : outcome schema :=
  match n with O => Ok s | S n => let! (s, _) := insert s (labels i) (Increment false) in inserts n labels (S i) s end.
Definition schema_of_width (w : nat) : outcome schema := inserts w to_string 0 empty_schema.
(** schema.cpp:279-291 *)
Definition label_to_lie_key (s : schema) (label : string) : outcome nat := let! d := label_to_stream_dim s label in Ok (d + 1).
Definition time_channel_to_lie_key (s : schema) : nat := if time s then width_without_param s + 1 else 0.
(** schema.cpp:293-307; the width is taken to fit an int *)
Definition finalize (s : schema) (n : Z) : outcome schema :=
  if (0 <? n)%Z && (n <? Z.of_nat (width s))%Z then Throw else
  let! s := inserts (Z.to_nat n - width s) (fun _ => "") 0 s in
  Ok (mkSch (chans s) true (time s)).

(** ** Histories *)
Inductive sop :=
| OInsert (label : string) (c : channel)
| OLeadLag (c : nat) (b : bool)
| OAddVariant (c : nat) (v : string)
| OInsertVariant (c : nat) (v : string)
| OTime
| OFinalize (n : Z).
Fixpoint upd {A} (l : list A) (n : nat) (x : A) : list A := match l, n with [], _ => [] | _ :: l, 0 => x :: l | y :: l, S n => y :: upd l n x end.
(** Channels are shared and can be changed through references to them. *)
Definition on_channel (s : schema) (c : nat) (f : channel -> outcome channel) : outcome schema :=
  match nth_error (chans s) c with
  | None => Throw
  | Some x => let! y := f (snd x) in Ok (mkSch (upd (chans s) c (fst x, y)) (final s) (time s))
  end.
(** The channel given to an insertion is as the four constructors make it (schema.cpp:262-277). *)
Definition fresh_channel (c : channel) : channel := match c with Increment _ => Increment false | Value _ => Value false | Categorical _ => Categorical [] | LieCh => LieCh end.
Definition s_step (o : sop) (s : schema) : outcome schema :=
  match o with
  | OInsert l c => let! (s, _) := insert s l (fresh_channel c) in Ok s
  | OLeadLag c b => on_channel s c (fun x => Ok (set_lead_lag x b))
  | OAddVariant c v => on_channel s c (fun x => add_variant x v)
  | OInsertVariant c v => on_channel s c (fun x => Ok (insert_variant x v))
  | OTime => Ok (mkSch (chans s) (final s) true)
  | OFinalize n => finalize s n
  end.

(** ** The stream construction helper (stream_construction_helper.cpp/.h): the keys its functions update *)
(** cpp:56-62 *)
Definition cat_ii (s : schema) (c v : nat) : outcome nat := let! d := channel_variant_to_stream_dim s c v in Ok (d + 1).
(** cpp:63-73; [p_schema] is not constant *)
Definition cat_li (s : schema) (label : string) (v : nat) : outcome nat :=
  let! f := find_mut s label in
  match f with
  | None => Throw
  | Some c => match nth_error (chans s) c with None => Throw | Some x => if (v <? num_variants (snd x))%nat then Ok (c + v + 1) else Throw end
  end.
(** cpp:74-88 *)
Definition cat_il (s : schema) (c : nat) (v : string) : outcome nat :=
  match nth_error (chans s) c with
  | None => Throw
  | Some x => match index_of v (get_variants (snd x)) with None => Throw | Some i => channel_variant_to_stream_dim s c i end
  end.
(** cpp:89-97 *)
Definition cat_ll (s : schema) (c v : string) : outcome nat := let! d := label_to_stream_dim s (c ++ ":" ++ v) in Ok (d + 1).
(** h:82-98 *)
Definition inc_i (s : schema) (c : nat) : outcome nat := let! d := channel_to_stream_dim s c in Ok (d + 1).
Definition inc_l (s : schema) (label : string) : outcome nat := let! d := label_to_stream_dim s label in Ok (d + 1).
(** h:103-104, 120-124: the dimensions of lead and lag *)
Definition val_i (s : schema) (c : nat) : outcome (nat * nat) :=
  let! lead := channel_variant_to_stream_dim s c 0 in let! lag := channel_variant_to_stream_dim s c 1 in Ok (lead, lag).
Definition val_l (s : schema) (label : string) : outcome (nat * nat) :=
  let! f := find_mut s label in
  match f with
  | None => Throw
  | Some c => match nth_error (chans s) c with
      | None => Throw
      | Some x => let! lead := variant_id_of_label (snd x) "lead" in let! lag := variant_id_of_label (snd x) "lag" in Ok (lead, lag)
      end
  end.

(** ** The entries it builds.  Timestamps are only compared, so integers stand for the doubles; an entry is
    a Lie element with one coordinate, as next_entry starts from zero each time. *)
From Verif Require Import Alg.
Section Helper.
Variable R : cring.
Record helper := mkH { prev : list R; entries : list (Z * (nat * R)) }.
(** cpp:38-49 *)
Definition new_helper (s : schema) : helper := mkH (repeat r0 (width s)) [].
(** cpp:51-54: flat_multimap inserts after the entries with an equal key *)
Fixpoint entry (l : list (Z * (nat * R))) (t : Z) (x : nat * R) : list (Z * (nat * R)) :=
  match l with [] => [(t, x)] | y :: l => if (t <? fst y)%Z then (t, x) :: y :: l else y :: entry l t x end.
Definition add_entry (h : helper) (t : Z) (key : nat) (x : R) : helper := mkH (prev h) (entry (entries h) t (key, x)).
(** h:106-114 and 126-134 *)
Definition add_lead_lag (h : helper) (t : Z) (lead lag : nat) (x : R) : outcome helper :=
  match nth_error (prev h) lead, nth_error (prev h) lag with
  | Some p, Some q =>
      let h := add_entry h t (lead + 1) (rsub x p) in
      let h := add_entry h t (lag + 1) (rsub x q) in
      Ok (mkH (upd (upd (prev h) lead x) lag x) (entries h))
  | _, _ => UB
  end.
Inductive hop :=
| HCatII (t : Z) (c v : nat) | HCatLI (t : Z) (c : string) (v : nat) | HCatIL (t : Z) (c : nat) (v : string) | HCatLL (t : Z) (c v : string)
| HIncI (t : Z) (c : nat) (x : R) | HIncL (t : Z) (c : string) (x : R) | HValI (t : Z) (c : nat) (x : R) | HValL (t : Z) (c : string) (x : R).
Definition h_step (s : schema) (o : hop) (h : helper) : outcome helper :=
  match o with
  | HCatII t c v => let! k := cat_ii s c v in Ok (add_entry h t k r1)
  | HCatLI t c v => let! k := cat_li s c v in Ok (add_entry h t k r1)
  | HCatIL t c v => let! k := cat_il s c v in Ok (add_entry h t k r1)
  | HCatLL t c v => let! k := cat_ll s c v in Ok (add_entry h t k r1)
  | HIncI t c x => let! k := inc_i s c in Ok (add_entry h t k x)
  | HIncL t c x => let! k := inc_l s c in Ok (add_entry h t k x)
  | HValI t c x => let! (a, b) := val_i s c in add_lead_lag h t a b x
  | HValL t c x => let! (a, b) := val_l s c in add_lead_lag h t a b x
  end.
Fixpoint h_run (s : schema) (l : list hop) (h : helper) : outcome helper :=
  match l with [] => Ok h | o :: l => let! h := h_step s o h in h_run s l h end.
End Helper.
