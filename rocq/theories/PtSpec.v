(** What ticks given from Python mean. *)
From Coq Require Import ZArith QArith List Bool Ascii String Sorted Permutation.
Import ListNotations.
From Verif Require Import Outcome Alg SchemaModel PsModel PsSpec PtModel.
Open Scope nat_scope.
Open Scope list_scope.

(** labels of channels, without the names of variants *)
Definition plain_label (l : string) : Prop := ~ In ":"%char (list_ascii_of_string l) /\ ~ In Ascii.zero (list_ascii_of_string l).
Definition usable (x : string) : Prop := plain_label x /\ x <> ""%string.
Definition no_empty_channel (s : schema) : Prop := forall x, In x (chans s) -> 0 < num_variants (snd x).
(** keyword arguments without a schema, channels, context and width *)
Definition no_schema (k : kwargs) : Prop := k_schema k = None /\ k_channels k = None /\ k_ctx k = None /\ k_width k = None.
(** an outcome other than undefined behaviour *)
Definition defined_outcome {A} (o : outcome A) : Prop := match o with Ok _ | Throw => True | _ => False end.

Section Spec.
  Variable data : Type.
  Variable R : cring.
  Variable to_scalar : data -> outcome R.

  (** ** Times: seconds after the first tick *)
  Definition seconds_after (st first : stamp) (t : Q) : Prop :=
    match st, first with
    | SFloat a, SFloat b => t == a - b
    | STime a, STime b => t == inject_Z (a - b) * (1 # 1000000)
    | _, _ => False
    end%Q.
  Definition first_stamp (calls : list (call data)) : stamp := match calls with [] => SNone | c :: _ => c_stamp _ c end.
  (** the tick that a call adds *)
  Definition made_by (first : stamp) (c : call data) (t : tick data) : Prop :=
    tk_label _ t = c_label _ c /\ tk_type _ t = c_type _ c /\ c_data _ c = Some (tk_data _ t) /\ seconds_after (c_stamp _ c) first (tk_time _ t).
  (** [out] has the ticks [l] in the order of time, those of one time in the order of [l] *)
  Definition in_order (l out : list (tick data)) : Prop :=
    Permutation out l /\ StronglySorted (fun a b => tk_time _ a <= tk_time _ b)%Q out /\
    forall q, filter (fun t => Qeq_bool (tk_time _ t) q) out = filter (fun t => Qeq_bool (tk_time _ t) q) l.

  (** ** Coordinates.  The dimensions that a tick moves: that of its label, and for a value of a lead-lag channel also the next *)
  Definition lead_lag_label (s : schema) (label : string) : bool :=
    match find s label with Some c => match nth_error (chans s) c with Some (_, ch) => is_lead_lag ch | None => false end | None => false end.
  Definition moves (s : schema) (t : tick data) (d : nat) : bool :=
    match label_to_stream_dim s (tk_label _ t) with
    | Ok i => Nat.eqb d i || match tk_type _ t with TValue => lead_lag_label s (tk_label _ t) && Nat.eqb d (S i) | _ => false end
    | _ => false
    end.
  Definition scalar (t : tick data) : R := match to_scalar (tk_data _ t) with Ok x => x | _ => r0 end.
  Definition is_value (t : tick data) : bool := match tk_type _ t with TValue => true | _ => false end.
  (** the value of dimension d after the ticks [ts], the newest first: that of the newest value tick that moves it *)
  Fixpoint value_after (s : schema) (ts : list (tick data)) (d : nat) : R :=
    match ts with [] => r0 | t :: ts => if is_value t && moves s t d then scalar t else value_after s ts d end.
  (** the coordinate of dimension d of a tick, after the ticks [ts] *)
  Definition step_of (s : schema) (ts : list (tick data)) (t : tick data) (d : nat) : R :=
    if moves s t d then
      match tk_type _ t with
      | TIncrement => scalar t
      | TValue => rsub (scalar t) (value_after s ts d)
      | TCategorical => r1
      | TLie => r0
      end
    else r0.
  Definition last_time (ts : list (tick data)) : Q := match ts with [] => 0%Q | t :: _ => tk_time _ t end.

  (** Lie elements with coordinates at the letters: letter d + 1 for dimension d *)
  Record coordinates_of (lie : Type) := mkCo {
    co_zero : lie; co_letter : nat -> R -> lie; co_sub : lie -> lie -> lie; co_cbh : lie -> lie -> lie; co_set : lie -> nat -> Q -> lie;
    co_at : lie -> nat -> R; co_time : Q -> R;
    at_zero : forall d, co_at co_zero d = r0;
    at_letter : forall k x d, co_at (co_letter (S k) x) d = if Nat.eqb d k then x else r0;
    at_sub : forall a b d, co_at (co_sub a b) d = rsub (co_at a d) (co_at b d);
    at_cbh : forall a b d, co_at (co_cbh a b) d = radd (co_at a d) (co_at b d);
    at_set : forall a k t d, co_at (co_set a (S k) t) d = if Nat.eqb d k then co_time t else co_at a d }.

  (** the rows of the ticks [l], after the ticks [ts]: the time of each tick, and an element whose coordinates are the
      steps; the last dimension is the time since the tick before when the schema has a time channel *)
  Fixpoint rows_mean {lie} (co : coordinates_of lie) (s : schema) (ts l : list (tick data)) (rows : list (Q * lie)) : Prop :=
    match l, rows with
    | [], [] => True
    | t :: l, (q, x) :: rows =>
        q = tk_time _ t /\
        (forall d, co_at _ co x d = if time s && Nat.eqb d (width s - 1) then co_time _ co (q - last_time ts)%Q else step_of s ts t d) /\
        rows_mean co s (t :: ts) l rows
    | _, _ => False
    end.
  (** the whole change of a dimension: its last value, its increments and one for each categorical tick *)
  Definition plain_step (s : schema) (d : nat) (t : tick data) : R :=
    if moves s t d then match tk_type _ t with TIncrement => scalar t | TCategorical => r1 | _ => r0 end else r0.
  (** calls that can be read: stamps of one kind, data that are there and of the right kind *)
  Definition same_kind (a b : stamp) : Prop := match a, b with SFloat _, SFloat _ | STime _, STime _ => True | _, _ => False end.
  Definition readable (to_label : data -> outcome string) (first : stamp) (c : call data) : Prop :=
    same_kind (c_stamp _ c) first /\ exists d, c_data _ c = Some d /\
      match c_type _ c with TIncrement | TValue => exists x, to_scalar d = Ok x | TCategorical => exists v, to_label d = Ok v | TLie => False end.
  (** The channels that ticks make when no schema is given: one for each label, in the order in which they are first
      used, of the type of the first tick; a categorical one has the categories of the categorical ticks of the label *)
  Variable to_label : data -> outcome string.
  Definition category (c : call data) : list string :=
    match c_type _ c, c_data _ c with TCategorical, Some d => match to_label d with Ok v => [v] | _ => [] end | _, _ => [] end.
  Definition with_label (x : string) (calls : list (call data)) : list (call data) := filter (fun c => String.eqb (c_label _ c) x) calls.
  Definition channel_of (calls : list (call data)) (x : string) : channel :=
    match with_label x calls with
    | [] => Increment false
    | c :: _ => match c_type _ c with
        | TIncrement => Increment false
        | TValue => Value false
        | TCategorical => Categorical (named [] (flat_map category (with_label x calls)))
        | TLie => LieCh
        end
    end.
  Definition channels_of (calls : list (call data)) : list (string * channel) :=
    map (fun x => (x, channel_of calls x)) (first_of_each (map (c_label data) calls)).
End Spec.
