(** Constructors of external data streams (streams/include/roughpy/streams/external_data_stream.h,
    streams/src/external_data_stream.cpp, external_data_sources/sound_file_data_source.cpp): who holds the payload that
    a factory makes, and which factory is asked. *)
From Coq Require Import List Bool Arith.
Import ListNotations.
From Verif Require Import Outcome SchemaModel.
Open Scope nat_scope.
Open Scope list_scope.

Section External.
  (** URIs; whether a factory makes a constructor for one; whether construct_stream makes a stream of a payload or throws *)
  Variable uri : Type.
  Variable accepts : nat -> uri -> bool.
  Variable makes : nat -> bool.
  (** external_data_stream.h:98-99 *)
  Record ctor := mkCtor { c_factory : option nat; c_payload : option nat }.
  Definition empty_ctor : ctor := mkCtor None None.
  (** The constructors made so far (None once destroyed), the payloads allocated, those deleted (newest first), the number
      of payloads ever made, the factories registered, and the payloads for which construct_stream threw *)
  Record state := mkSt { ctors : list (option ctor); live : list nat; freed : list nat; made : nat; factories : list nat; thrown : list nat }.
  Definition start : state := mkSt [] [] [] 0 [] [].
  (** sound_file_data_source.cpp:377-381: deleting what is not allocated is undefined *)
  Definition release (s : state) (p : nat) : outcome state :=
    if in_dec Nat.eq_dec p (live s) then Ok (mkSt (ctors s) (remove Nat.eq_dec p (live s)) (p :: freed s) (made s) (factories s) (thrown s)) else UB.
  (** external_data_stream.cpp:176-181 *)
  Definition destruct_ctor (s : state) (c : ctor) : outcome state :=
    match c_factory c, c_payload c with Some _, Some p => release s p | _, _ => Ok s end.
  Definition set_ctors (s : state) (l : list (option ctor)) : state := mkSt l (live s) (freed s) (made s) (factories s) (thrown s).
  Definition alive (s : state) (i : nat) : outcome ctor := match nth_error (ctors s) i with Some (Some c) => Ok c | _ => UB end.
  (** the default factory of sound files is number 0 *)
  Definition registered (s : state) : list nat := match factories s with [] => [0] | l => l end.
  (** external_data_stream.cpp:98-103: the loop from the factory registered last to the first *)
  Fixpoint ask (l : list nat) (u : uri) : option nat := match l with [] => None | f :: l => if accepts f u then Some f else ask l u end.
  Inductive op := Register (f : nat) | Get (u : uri) | MoveNew (i : nat) | Assign (i j : nat) | Destroy (i : nat) | Set_ (i : nat) | Construct (i : nat).
  Definition step (s : state) (o : op) : outcome state :=
    match o with
    (* external_data_stream.cpp:81-87 *)
    | Register f => Ok (mkSt (ctors s) (live s) (freed s) (made s) (factories s ++ [f]) (thrown s))
    (* external_data_stream.cpp:88-106, sound_file_data_source.cpp:248-270; the temporaries moved from are empty *)
    | Get u =>
        let fs := registered s in
        match ask (rev fs) u with
        | Some f => Ok (mkSt (ctors s ++ [Some (mkCtor (Some f) (Some (made s)))]) (made s :: live s) (freed s) (S (made s)) fs (thrown s))
        | None => Ok (mkSt (ctors s ++ [Some empty_ctor]) (live s) (freed s) (made s) fs (thrown s))
        end
    (* external_data_stream.cpp:166-174 *)
    | MoveNew i => let! c := alive s i in Ok (set_ctors s (upd (ctors s) i (Some empty_ctor) ++ [Some c]))
    (* external_data_stream.cpp:182-195 *)
    | Assign i j =>
        let! a := alive s i in let! b := alive s j in
        if Nat.eqb i j then Ok s else
        let! s := destruct_ctor s a in
        Ok (set_ctors s (upd (upd (ctors s) i (Some b)) j (Some empty_ctor)))
    | Destroy i => let! c := alive s i in let! s := destruct_ctor s c in Ok (set_ctors s (upd (ctors s) i None))
    (* external_data_stream.cpp:197-247: the setters write to the payload *)
    | Set_ i => let! c := alive s i in
        match c_factory c, c_payload c with Some _, Some p => if in_dec Nat.eq_dec p (live s) then Ok s else UB | _, _ => UB end
    (* external_data_stream.cpp:248-253, sound_file_data_source.cpp:271-372: the payload is deleted when the stream is made;
       an exception leaves it *)
    | Construct i => let! c := alive s i in
        match c_factory c, c_payload c with
        | Some f, Some p =>
            let s := set_ctors s (upd (ctors s) i (Some (mkCtor (Some f) None))) in
            if in_dec Nat.eq_dec p (live s) then if makes p then release s p else Ok (mkSt (ctors s) (live s) (freed s) (made s) (factories s) (p :: thrown s)) else UB
        | _, _ => UB
        end
    end.
  Fixpoint run (s : state) (l : list op) : outcome state := match l with [] => Ok s | o :: l => let! s := step s o in run s l end.
  (** external_data_stream.h:133 *)
  Definition says_true (c : ctor) : bool := match c_factory c with Some _ => true | None => false end.
End External.
