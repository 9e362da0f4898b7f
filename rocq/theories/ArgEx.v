(** Examples of calls. *)
From Coq Require Import ZifyBool Lqa Lia.
From Coq Require Import String.
From Verif Require Export ArgModel ArgSpec ArgProofs ArgTop ArgMore SimpEx.
From Verif Require Import StreamLemmas.
Open Scope Z_scope.

(** The stream of SimpEx as a Stream of Python.  Contexts of depth 0 hold no Lie elements. *)
Definition q_get (w d : Z) (t : ctype) : actx Q := mkCtx w d 0%Q (if d =? 0 then fun _ => 0%Q else fold_right Qplus 0%Q).
Definition q_type (n : string) : option ctype := if String.eqb n "DPReal" then Some TDouble else None.
Definition q_py : pystream Q := mkPy Q q_stream 1 TDouble TDouble (mkRI 0 1 Clopen).
Definition q_pc : pctx Q := mkPC Q q_ctx TDouble.
Notation q_log := (py_log_signature Q q0 0%Q q_get q_type 31 q_py []).

(** log_signature(0.5, 1, resolution=2) *)
Definition q_pos : list (pyarg Q) := [AFloat Q (1#2); AInt Q 1].
Definition q_kw : list (string * pyarg Q) := [("resolution"%string, AInt Q 2)].
Lemma q_arguments : NoDup (map fst q_kw) /\ arguments Q sig_names 3 q_pos q_kw [Some (AFloat Q (1#2)); Some (AInt Q 1); Some (AInt Q 2); None; None; None].
Proof.
  assert (N : NoDup (map fst q_kw)) by (repeat constructor; cbn; tauto). split; [exact N|]. apply parse_args_spec; [exact N|]. reflexivity.
Qed.
Lemma q_asks : asks Q (Some (AFloat Q (1#2))) (Some (AInt Q 1)) (Some (AInt Q 2)) (Some (mkRI (1#2) 1 Clopen)) (Some 2).
Proof.
  eapply A_ends; try reflexivity; [constructor|apply (N_int Q 1); lia|unfold Qle; cbn; lia|]. right. exists (AInt Q 2), 2. split; [reflexivity|]. split; [|reflexivity]. constructor; [lia|lia|reflexivity].
Qed.
Lemma q_context : context_asked Q q_get q_py None None None q_pc.
Proof. apply C_own; auto. left. auto. Qed.
Lemma q_fits : fits_call q_stream q_ctx (QAt (mkRI (1#2) 1 Clopen) 2).
Proof. fits_compute. Qed.
Lemma q_answer : val (q_log q_pos q_kw) = Some 6%Q.
Proof. vm_compute. reflexivity. Qed.
(** log_signature() at the resolution of the stream *)
Lemma q_fits_default : fits_call q_stream q_ctx (QDefault (mkRI 0 1 Clopen)).
Proof.
  split; [unfold Qle; cbn; lia|]. intros tol (r & R0 & R1 & R2 & ->). assert (r = 0).
  { change (upto q_stream (mkRI 0 1 Clopen)) with 1%Q in *. change (from q_stream (mkRI 0 1 Clopen)) with 0%Q in *. destruct R2 as [R2|R2]; [exact R2|]. destruct (Z.eq_dec r 0) as [E|N0]; [exact E|]. exfalso.
    assert (P := DyadicProofs.Qpow2_pos (1 - r)). assert (E : (Qpower 2 (1 - r) * Qpower 2 (r - 1) == 1)%Q) by (rewrite <- DyadicProofs.Qpow2_plus; replace (1 - r + (r - 1)) with 0 by lia; reflexivity).
    assert (L : (1 <= Qpower 2 (r - 1))%Q). { rewrite DyadicProofs.Qpow2_Z by lia. assert (Y := DyadicProofs.pow2_pos (r - 1) ltac:(lia)). change 1%Q with (inject_Z 1). rewrite <- Zle_Qle. lia. } nra. }
  subst r. split; [cbn; lia|]. split; [cbn; lia|]. split; [cbn; lia|]. intros x [->| ->]; vm_compute; split; discriminate.
Qed.
Lemma q_answer_default : val (q_log [] []) = Some 7%Q.
Proof. vm_compute. reflexivity. Qed.
(** log_signature(dtype=DPReal), log_signature(depth=1, dtype=DPReal) *)
Lemma q_dtype : val (q_log [] [("dtype"%string, AType Q TDouble)]) = Some 0%Q /\ val (q_log [] [("depth"%string, AInt Q 1); ("dtype"%string, AType Q TDouble)]) = Some 7%Q.
Proof. vm_compute. auto. Qed.
(** log_signature(None, 0.25), log_signature(0, resolution=3) *)
Lemma q_misread : val (q_log [ANone Q; AFloat Q (1#4)] []) = Some 7%Q /\ val (q_log [AFloat Q 0; AFloat Q (1#4)] []) = Some 1%Q.
Proof. vm_compute. auto. Qed.
Lemma q_misread2 : val (q_log [AReal Q (mkRI 0 (3#4) Clopen)] [("resolution"%string, AInt Q 0)]) = Some 0%Q /\ val (q_log [AReal Q (mkRI 0 (3#4) Clopen); AInt Q (2 ^ 32)] []) = Some 0%Q.
Proof. vm_compute. auto. Qed.

(** signature_derivative([(i, 1), (j, 2)]), resolution 2; here the derivative is the sum of x dx *)
Definition q_deriv (ctx : actx Q) (l : list (Q * Q)) : outcome Q := Ok (fold_right (fun p a => fst p * snd p + a)%Q 0%Q l).
Definition q_dir : list (ri * Q) := [(mkRI 0 (1#2) Clopen, 1%Q); (mkRI (1#2) 1 Clopen, 2%Q)].
Definition q_dpos : list (pyarg Q) := [AList Q (map (fun p => ATuple Q [AReal Q (fst p); ALie Q (snd p)]) q_dir); AInt Q 2].
Lemma q_derivative : arguments Q deriv_names 3 q_dpos [] [nth_error q_dpos 0; nth_error q_dpos 1; None; None] /\ derivative_asked Q q_get q_py (nth_error q_dpos 0) (nth_error q_dpos 1) None None q_dir 2 q_pc.
Proof.
  split; [apply parse_args_spec; [constructor|reflexivity]|]. econstructor; [reflexivity|left; auto| |eapply D_list|left; split; [left; auto|reflexivity]].
  - left. exists 2. split; [reflexivity|]. split; [|reflexivity]. constructor; [lia|lia|reflexivity].
  - repeat constructor; (eexists; split; [reflexivity|]); constructor; constructor.
Qed.
Lemma q_dir_fits : Forall (fun p => fits_call q_stream q_ctx (QAt (fst p) 2)) q_dir.
Proof. apply Forall_cons; [fits_compute|]. apply Forall_cons; [fits_compute|]. apply Forall_nil. Qed.
Lemma q_derivative_is : val (py_signature_derivative Q Q q0 0%Q q_deriv q_get 31 q_py [] q_dpos []) = Some 13%Q.
Proof. vm_compute. reflexivity. Qed.

(** simplify(partition, 2) *)
Lemma q_simplify : arguments Q simplify_names 4 [APartition Q q_part; AInt Q 2] [] [Some (APartition Q q_part); Some (AInt Q 2); None; None] /\
  simplify_asked Q q_get q_py (Some (APartition Q q_part)) (Some (AInt Q 2)) None None q_part 2 q_pc /\
  val (py_simplify Q q0 0%Q q_get 31 q_py [] [APartition Q q_part; AInt Q 2] []) = Some q_simple.
Proof.
  split; [apply parse_args_spec; [constructor|reflexivity]|]. split; [|vm_compute; reflexivity]. apply S_own; auto; [|left; auto]. right. eexists. split; [reflexivity|]. constructor. lia.
Qed.
(** restrict(RealInterval(0.5, 1)), restrict(1) *)
Lemma q_restrict : py_restrict Q q_py [AReal Q (mkRI (1#2) 1 Clopen)] [] = Ok (mkPy Q (restrict q_stream (mkRI (1#2) 1 Clopen)) 1 TDouble TDouble (mkRI 0 1 Clopen)) /\ py_restrict Q q_py [AInt Q 1] [] = UB.
Proof. split; reflexivity. Qed.
