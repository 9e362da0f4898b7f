(** Histories of constructors of external data streams, and cases in which more would be false. *)
From Coq Require Import List Bool Arith Lia Permutation.
Import ListNotations.
From Verif Require Import Outcome SchemaModel EdModel EdProofs.
Open Scope nat_scope.
Open Scope list_scope.

(** URIs are numbers: factory 0 (sound files) takes even ones, any other factory those above 10; payload 2 makes no stream *)
Definition acc (f u : nat) : bool := if Nat.eqb f 0 then Nat.even u else 10 <? u.
Definition mk (p : nat) : bool := negb (Nat.eqb p 2).
Notation runs := (run nat acc mk start).
Definition history : list (op nat) :=
  [Get nat 2; Get nat 4; Get nat 3; MoveNew nat 0; Assign nat 1 3; Set_ nat 1; Construct nat 1; Assign nat 1 1; Destroy nat 0; Destroy nat 1; Destroy nat 2; Destroy nat 3].
Example history_run : runs history = Ok (mkSt [None; None; None; None] [] [0; 1] 2 [0] []).
Proof. reflexivity. Qed.
Example history_allowed : all_allowed nat acc mk start history.
Proof. apply defined_iff. eexists. exact history_run. Qed.
Example registered_run : exists s, runs [Get nat 2; Register nat 5; Register nat 6; Get nat 12; Get nat 4] = Ok s /\ map (fun o => match o with Some c => c_factory c | None => None end) (ctors s) = [Some 0; Some 6; Some 0].
Proof. eexists. split; reflexivity. Qed.
(** a constructor that has made its stream still says true but cannot be used *)
Theorem true_usable_refuted : ~ (forall l s i c, runs l = Ok s -> nth_error (ctors s) i = Some (Some c) -> says_true c = true -> step nat acc mk s (Construct nat i) <> UB).
Proof. intros H. apply (H [Get nat 2; Construct nat 0] (mkSt [Some (mkCtor (Some 0) None)] [] [0] 1 [0] []) 0 (mkCtor (Some 0) None)); reflexivity. Qed.
(** a construction that throws leaks its payload *)
Theorem always_released_refuted : ~ (forall l s, runs l = Ok s -> (forall c, ~ In (Some c) (ctors s)) -> live s = []).
Proof.
  intros H. specialize (H [Get nat 2; Get nat 2; Get nat 2; Construct nat 2; Destroy nat 0; Destroy nat 1; Destroy nat 2] (mkSt [None; None; None] [2] [1; 0] 3 [0] [2]) eq_refl).
  assert (A : forall c : ctor, ~ In (Some c) [None; None; None]) by (intros c [E|[E|[E|[]]]]; discriminate). specialize (H A). discriminate.
Qed.
(** a factory registered before the first use takes away the default one *)
Theorem default_kept_refuted : ~ (forall l s u s' c, runs l = Ok s -> acc 0 u = true -> step nat acc mk s (Get nat u) = Ok s' -> nth_error (ctors s') (List.length (ctors s)) = Some (Some c) -> says_true c = true).
Proof.
  intros H. specialize (H [Register nat 5] (mkSt [] [] [] 0 [5] []) 2 (mkSt [Some empty_ctor] [] [] 0 [5] []) empty_ctor eq_refl eq_refl eq_refl eq_refl). discriminate.
Qed.
