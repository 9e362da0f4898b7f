(** Property theorems C46: lifetimes of maps objects. *)
From Coq Require Import ZArith List Lia.
Import ListNotations.
From Verif Require Import Outcome MapsModel MapsProofs.
Open Scope nat_scope.

(** A program that never copies a maps object and uses and deletes each only while it exists is free of double
    deletion and use after deletion exactly if it deletes no object made from a width and a depth, and uses none
    after another was made from the same width and depth.  At its end the allocated implementation objects are
    those of undeleted maps objects made from bases. *)
Theorem C46_safe : forall l, proper l -> ~ deletes_cached l -> ~ uses_replaced l ->
  exists heap, m_program l = Ok heap /\ forall h, h < news l -> (nth h heap false = true <-> (forall a later, ~ made l h a later) /\ ~ In (Del h) l).
Proof. exact program_safe. Qed.
Print Assumptions C46_safe.
Theorem C46_unsafe_refuted : forall l, proper l -> deletes_cached l \/ uses_replaced l -> m_program l = UB.
Proof. exact program_unsafe. Qed.
Print Assumptions C46_unsafe_refuted.
(** After an object was copied and the original deleted, using or deleting the copy is undefined. *)
Theorem C46_copies_refuted : forall s h l2 l3 s', m_run (CopyOf h :: l2 ++ Del h :: l3) s = Ok s' ->
  m_step (Use (length (objs s))) s' = UB /\ m_step (Del (length (objs s))) s' = UB.
Proof. exact copies_unsafe. Qed.
Print Assumptions C46_copies_refuted.
Example C46_ex_safe : m_program [NewBases; NewWD (2, 3)%Z; Use 1; NewBases; Use 0; Del 0; NewWD (2, 4)%Z; Use 1; Use 3] = Ok [false; false; true; false].
Proof. reflexivity. Qed.
(** Made, used, deleted once: the static cache deletes it again.  Made twice: the first is gone. *)
Example C46_ex_delete : let l := [NewWD (2, 3)%Z; Use 0; Del 0] in deletes_cached l /\ m_program l = UB /\ exists s, m_run l m0 = Ok s.
Proof. split; [exists 0, (2, 3)%Z, [Use 0; Del 0]; split; [exists []; auto|cbn; auto]|]. split; [reflexivity|]. eexists. reflexivity. Qed.
Example C46_ex_use : let l := [NewWD (2, 3)%Z; NewWD (2, 3)%Z; Use 0] in uses_replaced l /\ m_program l = UB /\ exists h, m_program [NewWD (2, 3)%Z; NewWD (2, 3)%Z; Use 1] = Ok h.
Proof. split; [exists [NewWD (2, 3)%Z; NewWD (2, 3)%Z], 0, [], (2, 3)%Z, [NewWD (2, 3)%Z]; split; [auto|]; split; [exists []; auto|left; auto]|]. split; [reflexivity|]. eexists. reflexivity. Qed.
Example C46_ex_proper : proper [NewWD (2, 3)%Z; Use 0; Del 0].
Proof.
  intros pre o post E. destruct pre as [|a [|b [|c pre]]]; cbn in E; injection E as; subst; cbn; auto; try (split; [lia|]).
  - intros [Q|[]]; discriminate. - intros [Q|[Q|[]]]; discriminate. - destruct pre; discriminate.
Qed.
Example C46_ex_copy : exists s', m_run [NewBases; CopyOf 0; Use 1; Del 0; NewBases] m0 = Ok s'.
Proof. eexists. reflexivity. Qed.
