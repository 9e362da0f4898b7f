(** Calls of LieIncrementStream.from_increments. *)
From Coq Require Import ZifyBool Lqa.
From Verif Require Export IndexTop StreamEx.
From Verif Require Import Outcome.
Open Scope Z_scope.

(** Rows of integers, one letter, depth 1. *)
Definition ix_float (v : Z) : Q := inject_Z v.
Definition ix_construct (c : actx Z) (r : list Z) : Z := hd 0 r.
Definition ix_assign (v : Z) (k : Z) (x : Q) : Z := v.
Definition ix_context (w d : Z) : actx Z := mkCtx w d 0 (fold_right Z.add 0).
Definition ix_from := from_increments ix_float ix_construct ix_assign ix_context.
Definition ix_plain : settings Z := mkSet (Some add_ctx) 0 0 false None None.
Lemma ix_get w d : cx_width (ix_context w d) = w.
Proof. reflexivity. Qed.
Definition streamed (o : outcome (stream Z)) : stream Z := match o with Ok s => s | _ => add_stream end.
Definition whole (s : stream Z) : option Z := val (ask (Z.eqb 0) 0 31 s add_ctx [] (QDefault (st_support s))).

Lemma ix_example : ix_from ix_plain None [[5]; [7]; [9]] = Ok (mkStream [(0%Q, 5); (1%Q, 7); (2%Q, 9)] 0 add_ctx (mkRI 0 3 Clopen)) /\
  ix_from ix_plain (Some (ISeq [Some (1#2); Some (1#4); Some (1#2)])) [[5]; [7]; [9]] = Ok (mkStream [((1#4)%Q, 7); ((1#2)%Q, 5)] 3 add_ctx (mkRI (1#4) (10#16) Clopen)) /\
  option_map st_data (match ix_from ix_plain (Some (IColumn 0)) [[1]; [2]; [4]] with Ok s => Some s | _ => None end) = Some [((1#1)%Q, 1); ((3#1)%Q, 2); ((7#1)%Q, 4)] /\
  whole (streamed (ix_from ix_plain None [[5]; [7]; [9]])) = Some 21.
Proof. split; [vm_compute; reflexivity|]. split; [vm_compute; reflexivity|]. split; vm_compute; reflexivity. Qed.

Lemma ix_offgrid : exists a rows s x, from_increments ix_float ix_construct ix_assign ix_context ix_plain a rows = Ok s /\
  rows = [[1]; [2]; [4]] /\ a = Some (ISeq [Some 100; Some 150; Some 200]%Q) /\ map snd (st_data s) = [1; 2; 4] /\
  whole s = Some x /\ x = 6 /\ sg_prod add_sigs (map snd (st_data s)) = 7.
Proof. exists (Some (ISeq [Some 100; Some 150; Some 200]%Q)), [[1]; [2]; [4]]. do 2 eexists. split; [vm_compute; reflexivity|]. split; [reflexivity|]. split; [reflexivity|]. split; [vm_compute; reflexivity|]. split; [vm_compute; reflexivity|]. split; reflexivity. Qed.
Lemma ix_single : exists a s, from_increments ix_float ix_construct ix_assign ix_context ix_plain a [[5]] = Ok s /\ a = Some (ISeq [Some (9#20)%Q]) /\ map snd (st_data s) = [5] /\ whole s = Some 0.
Proof. exists (Some (ISeq [Some (9#20)%Q])). eexists. split; [vm_compute; reflexivity|]. split; [reflexivity|]. split; vm_compute; reflexivity. Qed.
Lemma ix_close : exists a s, from_increments ix_float ix_construct ix_assign ix_context ix_plain a [[1]; [2]; [4]] = Ok s /\ a = Some (ISeq [Some 0; Some (1#16); Some (2#16)])%Q /\
  within 0 (1#16) (st_data s) = [1] /\ val (ask (Z.eqb 0) 0 31 s add_ctx [] (QDefault (mkRI 0 (1#16) Clopen))) = Some 7.
Proof. exists (Some (ISeq [Some 0; Some (1#16); Some (2#16)]))%Q. eexists. split; [vm_compute; reflexivity|]. split; [reflexivity|]. split; vm_compute; reflexivity. Qed.
Lemma ix_strided : exists b s, from_increments ix_float ix_construct ix_assign ix_context ix_plain (Some (IBuffer b)) [[5]; [7]] = Ok s /\
  index_of ix_float (Some (IBuffer b)) [[5]; [7]] 1 1 /\ map (fun e => Qred (fst e)) (st_data s) = [0; 9]%Q.
Proof.
  exists (mkIB IBNumber [0; 9; 1; 9]%Q 0 2 2). eexists. split; [vm_compute; reflexivity|]. split; [|reflexivity].
  apply (ix_buffer ix_float _ _ 1 (mkIB IBNumber [0; 9; 1; 9]%Q 0 2 2)); [reflexivity|cbn; lia|cbn; lia|reflexivity].
Qed.
Lemma ix_reversed : exists b, from_increments ix_float ix_construct ix_assign ix_context ix_plain (Some (IBuffer b)) [[5]; [7]] = UB /\
  index_of ix_float (Some (IBuffer b)) [[5]; [7]] 0 0 /\ index_of ix_float (Some (IBuffer b)) [[5]; [7]] 1 1.
Proof.
  exists (mkIB IBNumber [1; 0]%Q 1 (-1) 2). split; [vm_compute; reflexivity|].
  split; apply (ix_buffer ix_float _ _ _ (mkIB IBNumber [1; 0]%Q 1 (-1) 2)); try reflexivity; cbn; lia.
Qed.
Lemma ix_unsigned : exists b s, from_increments ix_float ix_construct ix_assign ix_context ix_plain (Some (IBuffer b)) [[5]; [7]] = Ok s /\
  ib_type b = IBUnsigned 8 /\ index_of ix_float (Some (IBuffer b)) [[5]; [7]] 0 100 /\ index_of ix_float (Some (IBuffer b)) [[5]; [7]] 1 200 /\ map (fun e => (Qred (fst e), snd e)) (st_data s) = [((-56)%Q, 7); (100%Q, 5)].
Proof.
  exists (mkIB (IBUnsigned 8) [100; 200]%Q 0 1 2). eexists. split; [vm_compute; reflexivity|]. split; [reflexivity|].
  split; [|split]; [| |vm_compute; reflexivity]; apply (ix_buffer ix_float _ _ _ (mkIB (IBUnsigned 8) [100; 200]%Q 0 1 2)); try reflexivity; cbn; lia.
Qed.
Lemma ix_other se b rows : ib_type b = IBOther -> 0 < ib_count b -> se_ctx se = Some add_ctx -> from_increments ix_float ix_construct ix_assign ix_context se (Some (IBuffer b)) rows = UB.
Proof.
  intros Ht Hc Hx. unfold from_increments, choose_ctx. rewrite Hx. cbn [bind read_indices]. unfold buffer_to_indices. rewrite Ht, (proj2 (Z.ltb_lt _ _) Hc). reflexivity.
Qed.

(** Vectors of coefficients, two letters. *)
Definition vx_construct (c : actx (list Q)) (r : list Q) : list Q := r.
Definition vx_assign (v : list Q) (k : Z) (x : Q) : list Q := firstn (Z.to_nat (k - 1)) v ++ x :: skipn (Z.to_nat k) v.
Definition vx_context (w d : Z) : actx (list Q) := mkCtx w d [] (fun _ => []).
Lemma vx_time : exists s, from_increments (fun x : Q => x) vx_construct vx_assign vx_context (mkSet None 0 2 true None None) (Some (ISeq [Some (1#4); Some 1]))%Q [[5; 6]; [7; 8]]%Q = Ok s /\
  map (fun e => map Qred (snd e)) (st_data s) = [[5; 1#4]; [7; 3#4]]%Q.
Proof. eexists. split; [vm_compute; reflexivity|]. vm_compute; reflexivity. Qed.
