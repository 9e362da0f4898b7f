(** Property theorem C86: constructors of external data streams.  A history is a list of operations (registering
    factories, getting constructors for URIs, moving, assigning and destroying them, their setters and construct);
    [live], [freed] and [made] are the payloads allocated, deleted and ever made, [thrown] those whose construct raised
    an error, [held] those that constructors hold.  Any URIs, any factories, any results of construct. *)
From Coq Require Import List Bool Permutation.
Import ListNotations.
From Verif Require Import Outcome EdModel EdProofs EdEx.

(** A history is defined exactly if it only uses constructors that are not destroyed, and setters and construct only on
    those that hold a payload. *)
Theorem C86_defined : forall uri accepts makes l, (exists s, run uri accepts makes start l = Ok s) <-> all_allowed uri accepts makes start l.
Proof. exact defined_iff. Qed.
Print Assumptions C86_defined.
(** Each payload is deleted at most once, and one that is not deleted has one holder or its construct raised an error. *)
Theorem C86_released_once : forall uri accepts makes l s, run uri accepts makes start l = Ok s ->
  Permutation (live s ++ freed s) (seq 0 (made s)) /\ NoDup (live s ++ freed s) /\ Permutation (live s) (held (ctors s) ++ thrown s).
Proof. exact released_once. Qed.
Print Assumptions C86_released_once.
(** When all constructors are destroyed and no construct raised an error, every payload was deleted. *)
Theorem C86_nothing_left : forall uri accepts makes l s, run uri accepts makes start l = Ok s -> (forall c, ~ In (Some c) (ctors s)) -> thrown s = [] ->
  live s = [] /\ Permutation (freed s) (seq 0 (made s)).
Proof. exact nothing_left. Qed.
Print Assumptions C86_nothing_left.
(** The factory used is the one registered last among those that accept the URI. *)
Theorem C86_factory : forall uri accepts makes s u s', step uri accepts makes s (Get uri u) = Ok s' -> exists c, ctors s' = ctors s ++ [Some c] /\ factories s' = registered s /\
  match c_factory c with
  | Some f => exists a b, registered s = a ++ f :: b /\ accepts f u = true /\ forall g, In g b -> accepts g u = false
  | None => c_payload c = None /\ forall g, In g (registered s) -> accepts g u = false
  end.
Proof. exact factory_last. Qed.
Print Assumptions C86_factory.
(** Factories are kept in the order in which they were registered. *)
Theorem C86_register : forall uri accepts makes s f s', step uri accepts makes s (Register uri f) = Ok s' -> factories s' = factories s ++ [f] /\ ctors s' = ctors s /\ live s' = live s /\ freed s' = freed s.
Proof. exact register_last. Qed.
Print Assumptions C86_register.
(** Moving hands the payload over and leaves the source empty; assigning also deletes what the target held. *)
Theorem C86_move : forall uri accepts makes s i s', step uri accepts makes s (MoveNew uri i) = Ok s' -> exists c, nth_error (ctors s) i = Some (Some c) /\ length (ctors s') = S (length (ctors s)) /\
  nth_error (ctors s') (length (ctors s)) = Some (Some c) /\ nth_error (ctors s') i = Some (Some empty_ctor) /\
  (forall k, k <> i -> k < length (ctors s) -> nth_error (ctors s') k = nth_error (ctors s) k) /\ freed s' = freed s.
Proof. exact move_new. Qed.
Print Assumptions C86_move.
Theorem C86_assign : forall uri accepts makes s i j s', step uri accepts makes s (Assign uri i j) = Ok s' -> exists a b, nth_error (ctors s) i = Some (Some a) /\ nth_error (ctors s) j = Some (Some b) /\
  (i = j -> s' = s) /\ (i <> j -> nth_error (ctors s') i = Some (Some b) /\ nth_error (ctors s') j = Some (Some empty_ctor) /\
    (forall k, k <> i -> k <> j -> nth_error (ctors s') k = nth_error (ctors s) k) /\ freed s' = holds (Some a) ++ freed s).
Proof. exact assign_moves. Qed.
Print Assumptions C86_assign.
(** Destroying deletes what is held; construct deletes the payload unless it raises an error, and takes it away in both cases. *)
Theorem C86_destroy : forall uri accepts makes s i s', step uri accepts makes s (Destroy uri i) = Ok s' -> exists c, nth_error (ctors s) i = Some (Some c) /\ nth_error (ctors s') i = Some None /\
  (forall k, k <> i -> nth_error (ctors s') k = nth_error (ctors s) k) /\ freed s' = holds (Some c) ++ freed s.
Proof. exact destroy_frees. Qed.
Print Assumptions C86_destroy.
Theorem C86_construct : forall uri accepts makes s i s', step uri accepts makes s (Construct uri i) = Ok s' -> exists f p, nth_error (ctors s) i = Some (Some (mkCtor (Some f) (Some p))) /\
  nth_error (ctors s') i = Some (Some (mkCtor (Some f) None)) /\ (forall k, k <> i -> nth_error (ctors s') k = nth_error (ctors s) k) /\
  (if makes p then freed s' = p :: freed s /\ thrown s' = thrown s else freed s' = freed s /\ thrown s' = p :: thrown s).
Proof. exact construct_does. Qed.
Print Assumptions C86_construct.
(** What does not hold: a constructor that says true can be used; payloads are always deleted; the default factory stays. *)
Theorem C86_true_usable_refuted : ~ (forall l s i c, run nat acc mk start l = Ok s -> nth_error (ctors s) i = Some (Some c) -> says_true c = true -> step nat acc mk s (Construct nat i) <> UB).
Proof. exact true_usable_refuted. Qed.
Print Assumptions C86_true_usable_refuted.
Theorem C86_always_released_refuted : ~ (forall l s, run nat acc mk start l = Ok s -> (forall c, ~ In (Some c) (ctors s)) -> live s = []).
Proof. exact always_released_refuted. Qed.
Print Assumptions C86_always_released_refuted.
Theorem C86_default_kept_refuted : ~ (forall l s u s' c, run nat acc mk start l = Ok s -> acc 0 u = true -> step nat acc mk s (Get nat u) = Ok s' ->
  nth_error (ctors s') (List.length (ctors s)) = Some (Some c) -> says_true c = true).
Proof. exact default_kept_refuted. Qed.
Print Assumptions C86_default_kept_refuted.
