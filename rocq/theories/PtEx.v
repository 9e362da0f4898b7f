(** Ticks that meet the hypotheses, and cases in which more than that would be false. *)
From Coq Require Import ZArith QArith List Bool Ascii String Lia.
Import ListNotations.
From Verif Require Import Outcome Alg SchemaModel SchemaProofs PsModel PsSpec PsProofs PtModel PtSpec PtProofs PtRows PtSchema PtWhole.
Open Scope nat_scope.
Open Scope list_scope.

(** Lie elements as the families of their coordinates, with the times as numerators *)
Definition zsub (f g : nat -> Z) (d : nat) : Z := (f d - g d)%Z.
Definition zadd (f g : nat -> Z) (d : nat) : Z := (f d + g d)%Z.
Definition zlet (k : nat) (x : Z) (d : nat) : Z := if Nat.eqb (S d) k then x else 0%Z.
Definition zset (f : nat -> Z) (k : nat) (q : Q) (d : nat) : Z := if Nat.eqb (S d) k then Qnum q else f d.
Definition zco : coordinates_of Zcr (nat -> Z) :=
  mkCo Zcr (nat -> Z) (fun _ => 0%Z) zlet zsub zadd zset (fun f d => f d) Qnum
    (fun _ => eq_refl) (fun _ _ _ => eq_refl) (fun _ _ _ => eq_refl) (fun _ _ _ => eq_refl) (fun _ _ _ _ => eq_refl).

(** Data are numbers and strings. *)
Definition dat : Type := (Z + string)%type.
Definition dl (x : dat) : outcome string := match x with inl _ => Throw | inr v => Ok v end.
Definition ds (x : dat) : outcome Z := match x with inl z => Ok z | inr _ => Throw end.
Definition stream_of (k : kwargs) (calls : list (call dat)) : outcome (schema * Z * Z * list (Q * (nat -> Z))) :=
  from_ticks dat Z dl ds (nat -> Z) (fun _ => 0%Z) zlet 1%Z zsub zadd zset k calls.
Definition shown (n : nat) (o : outcome (schema * Z * Z * list (Q * (nat -> Z)))) : outcome (list (string * channel) * Z * Z * list (Q * list Z)) :=
  match o with Ok (s, w, d, rows) => Ok (chans s, w, d, map (fun r => (fst r, map (snd r) (seq 0 n))) rows) | Throw => Throw | UB => UB | NoFuel => NoFuel end.

Definition fl (z : Z) : stamp := SFloat (inject_Z z).
Definition ticks : list (call dat) :=
  [ mkCall dat TValue "price" (fl 10) (Some (inl 5%Z)); mkCall dat TIncrement "vol" (fl 13) (Some (inl 7%Z));
    mkCall dat TValue "price" (fl 12) (Some (inl 9%Z)); mkCall dat TCategorical "mood" (fl 12) (Some (inr "up"%string));
    mkCall dat TCategorical "mood" (fl 14) (Some (inr "down"%string)); mkCall dat TValue "price" (fl 9) (Some (inl 3%Z)) ].
Definition plain_args : kwargs := mkKw None None None None None None None.
Definition timed_args : kwargs := mkKw None None (Some (PTruth true)) None None (Some 3%Z) None.
Example ticks_usable : Forall usable (map (c_label dat) ticks).
Proof. repeat constructor; cbn; try discriminate; intuition discriminate. Qed.
Example args_ok : no_schema plain_args /\ no_schema timed_args.
Proof. repeat split. Qed.
Example ticks_channels : channels_of dat dl ticks = [("price", Value false); ("vol", Increment false); ("mood", Categorical ["up"; "down"])]%string.
Proof. reflexivity. Qed.
(** the ticks of times 9, 10, 12, 12, 13, 14, counted from 10 *)
Example ticks_run : shown 5 (stream_of plain_args ticks) = Ok ([("price", Value false); ("vol", Increment false); ("mood", Categorical ["up"; "down"])]%string, 4%Z, 2%Z,
  [(inject_Z (-1), [3; 0; 0; 0; 0]%Z); (0%Q, [2; 0; 0; 0; 0]%Z); (inject_Z 2, [4; 0; 0; 0; 0]%Z); (inject_Z 2, [0; 0; 1; 0; 0]%Z); (inject_Z 3, [0; 7; 0; 0; 0]%Z); (inject_Z 4, [0; 0; 1; 0; 0]%Z)]).
Proof. vm_compute. reflexivity. Qed.
Example timed_run : shown 5 (stream_of timed_args ticks) = Ok ([("price", Value false); ("vol", Increment false); ("mood", Categorical ["up"; "down"])]%string, 5%Z, 3%Z,
  [(inject_Z (-1), [3; 0; 0; 0; -1]%Z); (0%Q, [2; 0; 0; 0; 1]%Z); (inject_Z 2, [4; 0; 0; 0; 2]%Z); (inject_Z 2, [0; 0; 1; 0; 0]%Z); (inject_Z 3, [0; 7; 0; 0; 1]%Z); (inject_Z 4, [0; 0; 1; 0; 1]%Z)]).
Proof. vm_compute. reflexivity. Qed.
Example ticks_mean s w d rows : stream_of timed_args ticks = Ok (s, w, d, rows) -> exists ts out, Forall2 (made_by dat (fl 10)) ticks ts /\ in_order dat ts out /\ rows_mean dat Zcr ds zco s [] out rows.
Proof. intros H. exact (proj2 (proj2 (streams_are dat Zcr dl ds _ zco timed_args ticks s w d rows H))). Qed.
(** a value channel with lead and lag *)
Definition ll_schema (l : list (string * channel)) : kwargs := mkKw (Some (SObject (mkSch l true false))) None None None None None None.
Definition ll_ticks : list (call dat) := [mkCall dat TValue "a" (STime 5000000) (Some (inl 2%Z)); mkCall dat TValue "a" (STime 5500000) (Some (inl 9%Z))].
Example lead_lag_run : shown 3 (stream_of (ll_schema [("a"%string, Value true)]) ll_ticks) = Ok ([("a"%string, Value true)], 2%Z, 2%Z, [(0 # 1000000, [2; 2; 0]%Z); (500000 # 1000000, [7; 7; 0]%Z)])%Q.
Proof. vm_compute. reflexivity. Qed.
Example lead_lag_good : good (mkSch [("a"%string, Value true)] true false) /\ no_empty_channel (mkSch [("a"%string, Value true)] true false).
Proof.
  split; [|intros x [<-|[]]; cbn; lia]. split; [|split]; cbn.
  - repeat constructor. intros [].
  - intros x [<-|[]]. repeat split; cbn; intuition discriminate.
  - intros n vs [H|[]]. discriminate.
Qed.
Example ticks_readable : Forall (readable dat Zcr ds dl (first_stamp dat ticks)) ticks.
Proof. repeat (apply Forall_cons; [split; [exact I|eexists; split; [reflexivity|]; cbn; eauto]|]). apply Forall_nil. Qed.
Example ticks_accepted : exists r, stream_of timed_args ticks = Ok r.
Proof. apply (stream_accepts dat Zcr dl ds _ zco timed_args ticks); [apply args_ok|eexists; reflexivity|discriminate|exact ticks_usable|exact ticks_readable]. Qed.
(** ticks in order by hand *)
Example order_ex : exists ts, Forall2 (made_by dat (fl 10)) ticks ts /\ map (tk_time dat) (sort_ticks dat ts) = [inject_Z (-1); 0%Q; inject_Z 2; inject_Z 2; inject_Z 3; inject_Z 4].
Proof.
  destruct (add_calls dat dl (mkHp dat [] empty_schema false None []) ticks) as [h| | |] eqn:E; [|vm_compute in E; discriminate E..].
  destruct (calls_in_order dat dl empty_schema ticks h E) as (ts & H1 & H2 & _ & _). exists ts. split; [exact H1|]. rewrite <- H2. vm_compute in E. injection E as <-. vm_compute. reflexivity.
Qed.

(** ** Without the hypotheses *)
Definition bad_label : list (call dat) := [mkCall dat TValue "a:lag" (fl 0) (Some (inl 2%Z))].
Lemma bad_label_ub : stream_of (ll_schema [("a"%string, Value true)]) bad_label = UB.
Proof. vm_compute. reflexivity. Qed.
Definition bad_channel : list (call dat) := [mkCall dat TValue "b" (fl 0) (Some (inl 2%Z))].
Lemma bad_channel_ub : stream_of (ll_schema [("a"%string, Increment false); ("b"%string, Categorical [])]) bad_channel = UB.
Proof. vm_compute. reflexivity. Qed.
Theorem always_defined_refuted : ~ (forall k calls, defined_outcome (stream_of k calls)).
Proof. intros H. specialize (H (ll_schema [("a"%string, Value true)]) bad_label). rewrite bad_label_ub in H. exact H. Qed.
Theorem defined_for_schemas_refuted : ~ (forall l calls, good (mkSch l true false) -> Forall usable (map (c_label dat) calls) -> defined_outcome (stream_of (ll_schema l) calls)).
Proof.
  intros H. specialize (H [("a"%string, Increment false); ("b"%string, Categorical [])] bad_channel). rewrite bad_channel_ub in H. apply H.
  - split; [|split]; cbn.
    + repeat constructor; cbn; intuition discriminate.
    + intros x [<-|[<-|[]]]; repeat split; cbn; intuition discriminate.
    + intros n vs [E|[E|[]]]; [discriminate|]. injection E as <- <-. constructor.
  - repeat constructor; cbn; try discriminate; intuition discriminate.
Qed.
(** the coordinate of a category is not that of its label *)
Definition moods : list (call dat) := [mkCall dat TCategorical "mood" (fl 0) (Some (inr "up"%string)); mkCall dat TCategorical "mood" (fl 1) (Some (inr "down"%string))].
Theorem categories_move_refuted : ~ (forall calls s w d rows, Forall usable (map (c_label dat) calls) -> stream_of plain_args calls = Ok (s, w, d, rows) ->
  forall i c v r j, nth_error calls i = Some c -> c_type dat c = TCategorical -> c_data dat c = Some (inr v) -> nth_error rows i = Some r ->
    label_to_stream_dim s (c_label dat c ++ ":" ++ v) = Ok j -> snd r j = 1%Z).
Proof.
  intros H. destruct (stream_of plain_args moods) as [[[[s w] d] rows]| | |] eqn:E; [|vm_compute in E; discriminate E..].
  assert (U : Forall usable (map (c_label dat) moods)) by (repeat constructor; cbn; try discriminate; intuition discriminate).
  specialize (H moods s w d rows U E 1 (mkCall dat TCategorical "mood" (fl 1) (Some (inr "down"%string))) "down"%string). vm_compute in E. injection E as <- <- <- <-.
  specialize (H _ 1 eq_refl eq_refl eq_refl eq_refl eq_refl). vm_compute in H. discriminate H.
Qed.
(** the times of floats are not kept *)
Theorem times_kept_refuted : ~ (forall calls s w d rows q0, Forall usable (map (c_label dat) calls) -> stream_of plain_args calls = Ok (s, w, d, rows) ->
  (forall c, In c calls -> c_stamp dat c = SFloat q0) -> forall r, In r rows -> (fst r == q0)%Q).
Proof.
  intros H. set (one_tick := [mkCall dat TIncrement "a" (fl 5) (Some (inl 1%Z))]). destruct (stream_of plain_args one_tick) as [[[[s w] d] rows]| | |] eqn:E; [|vm_compute in E; discriminate E..].
  assert (U : Forall usable (map (c_label dat) one_tick)) by (repeat constructor; cbn; try discriminate; intuition discriminate).
  assert (S : forall c, In c one_tick -> c_stamp dat c = SFloat (inject_Z 5)) by (intros c [<-|[]]; reflexivity).
  specialize (H one_tick s w d rows (inject_Z 5) U E S). vm_compute in E. injection E as <- <- <- <-. specialize (H _ (or_introl eq_refl)). discriminate H.
Qed.
