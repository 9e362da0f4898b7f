(** A program of scalar arrays. *)
From Coq Require Import ZArith.
From Verif Require Export SaModel SaSpec SaProofs SaTop SaMore.
Open Scope nat_scope.

(** Elements of one type; memory of the caller: 5, 6, 7, of which 6, 7 are lent for reading.  Array 1 has
    two elements; array 2 is a copy, array 3 borrows from it, array 4 is a slice of the lent memory, array 5
    takes what 2 has, array 6 is assigned a copy of it. *)
Definition s_given : list (unit * list Z) := [(tt, [5; 6; 7]%Z)].
Definition s_zero (_ : unit) : Z := 0%Z.
Definition s_eqb (_ _ : unit) : bool := true.
Definition s_prog : list (cmd unit Z) :=
  [CBorrowMem _ _ true true tt 0 1 2; CAlloc _ _ tt 2; CCopy _ _ 1; CSet _ _ 2 0 9%Z; CGet _ _ 1 0; CBorrow _ _ false 1; CSet _ _ 3 1 4%Z; CDrop _ _ 1; CGet _ _ 3 0;
   CGet _ _ 0 1; CSet _ _ 0 0 1%Z; CSlice _ _ true 0 1 2; CGet _ _ 4 0; CGet _ _ 4 1; CMove _ _ 2; CNull _ _; CAssign _ _ 6 5; CGet _ _ 6 1;
   CDrop _ _ 0; CDrop _ _ 2; CDrop _ _ 3; CDrop _ _ 4; CDrop _ _ 5; CGet _ _ 6 0; CDrop _ _ 6].
Definition s_replies : list (reply Z) :=
  [RDone _; RDone _; RDone _; RDone _; RValue _ 9%Z; RDone _; RDone _; RDone _; RValue _ 9%Z; RValue _ 7%Z; RError _; RDone _; RValue _ 7%Z; RError _; RDone _; RDone _; RDone _; RValue _ 4%Z;
   RDone _; RDone _; RDone _; RDone _; RDone _; RValue _ 9%Z; RDone _].
Lemma s_eqb_spec a b : s_eqb a b = true <-> a = b.
Proof. destruct a, b. split; reflexivity. Qed.
Ltac owned x := eexists; split; [reflexivity|]; right; exists x; eexists; split; reflexivity.
Ltac lent := eexists; split; [reflexivity|]; left; reflexivity.
Ltac get_own x := eapply DA_cons; [eapply D_get; [reflexivity|owned x|lia|reflexivity|reflexivity]|].
Ltac get_lent := eapply DA_cons; [eapply D_get; [reflexivity|lent|lia|reflexivity|reflexivity]|].
Ltac set_own x := eapply DA_cons; [eapply D_set; [reflexivity|discriminate|owned x|lia|reflexivity]|].
Ltac drop := eapply DA_cons; [eapply D_drop; reflexivity|].
Definition s_world : world unit Z :=
  mkWorld _ _ [mkRegion _ _ true tt [5; 6; 7]%Z; mkRegion _ _ false tt [9; 4]%Z; mkRegion _ _ false tt [9; 4]%Z] [None; None; None; None; None; None; None].
Lemma s_does : does_all _ _ s_zero (start _ _ s_given) s_prog s_world s_replies.
Proof.
  eapply DA_cons; [apply (D_memory _ _ _ _ true true 0 1 2 (mkRegion _ _ true tt [5; 6; 7]%Z)); [reflexivity|reflexivity|cbn; lia]|].
  eapply DA_cons; [apply D_alloc; lia|]. eapply DA_cons; [eapply D_copy; reflexivity|].
  set_own 2. get_own 1. eapply DA_cons; [eapply (D_borrow _ _ _ _ false); [reflexivity|discriminate|right; discriminate]|]. set_own 1. drop. get_own 2. get_lent.
  eapply DA_cons; [eapply D_set_const; reflexivity|].
  eapply DA_cons; [eapply (D_slice _ _ _ _ true); [reflexivity|lia|discriminate|left; reflexivity]|]. get_lent.
  eapply DA_cons; [eapply D_get_beyond; [reflexivity|cbn; lia]|].
  eapply DA_cons; [eapply D_move; reflexivity|]. eapply DA_cons; [apply D_null|].
  eapply DA_cons; [eapply D_assign; [discriminate|reflexivity|reflexivity|eexists; split; reflexivity]|]. get_own 6.
  drop. drop. drop. drop. drop. get_own 6. drop. apply DA_nil.
Qed.
Lemma s_run : run _ _ s_eqb s_zero (start_memory _ _ s_given) s_prog =
  Ok (([Some (mkBlock _ _ tt [5; 6; 7]%Z None); None; None], [None; None; None; None; None; None; None]), s_replies).
Proof. vm_compute. reflexivity. Qed.
Lemma s_dropped : forall x a, nth_error (arrays _ _ s_world) x = Some a -> a = None.
Proof. intros x a H. do 7 (destruct x as [|x]; [cbn in H; congruence|]). destruct x; discriminate. Qed.
Lemma s_lent : forall c, In c s_prog -> ~ lends_writable _ _ 0 c.
Proof. apply Forall_forall. unfold s_prog. repeat (apply Forall_cons; [cbn; tauto|]). apply Forall_nil. Qed.
