(** Concrete piecewise and tensor-valued streams. *)
From Coq Require Import QArith Lqa Lia.
From Verif Require Import PwSpec TvsSpec StreamEx PwProofs TvsProofs.
Open Scope Q_scope.
Definition q_ctx : actx Q := mkCtx 1 1 0 (fold_right Qplus 0).
Definition q_sigs : sigs Q := mkSigs Q Q Qeq Qplus 0 (fun x => x).
Lemma q_sound : sound (fun x => Qeq_bool x 0) q_sigs (fun _ => True) q_ctx.
Proof. constructor; cbn; auto; intros; try lra. - apply Qeq_bool_eq; auto. - unfold sg_prod; cbn. induction l; cbn in *; [lra|]. inversion H; subst. rewrite IHl by auto. lra. Qed.
Lemma q_scaling : scaling q_sigs (fun _ => True) Qmult.
Proof. constructor; cbn; auto; intros; try lra. rewrite H. reflexivity. Qed.
Definition q_pieces : list (lie_piece Q) := [(mkRI 0 1 Clopen, 6); (mkRI 1 2 Clopen, 10); (mkRI 3 5 Clopen, 8)].
Lemma q_order : in_order q_pieces.
Proof. split; repeat constructor; cbn; unfold Qlt, Qle; cbn; lia. Qed.
Lemma q_outside : outside q_pieces 5 /\ outside q_pieces (5#2) /\ outside q_pieces 1.
Proof. repeat split; repeat (apply Forall_cons; [cbn; unfold Qle; cbn; lia|]); apply Forall_nil. Qed.
Lemma q_exact : covered (1#2) 5 q_pieces = [(1#2, 6); (1, 10); (2#2, 8)] /\ pw_impl Qmult q_pieces q_ctx (mkRI (1#2) 5 Clopen) == 21.
Proof. split; vm_compute; reflexivity. Qed.
Definition q_grid : list (lie_piece Q) := [(mkRI 0 (1#2) Clopen, 6); (mkRI (1#2) (3#4) Clopen, 10); (mkRI (7#4) 2 Clopen, 8)].
Lemma q_grid_order : in_order q_grid.
Proof. split; repeat constructor; cbn; unfold Qlt, Qle; cbn; lia. Qed.
Lemma q_grid_outside : forall k, outside q_grid (dy k 1).
Proof. intros k. assert (E : dy k 1 == k # 2) by (unfold dy; cbn; unfold Qeq; cbn; lia). repeat (apply Forall_cons; [cbn [fst ri_inf ri_sup]; rewrite E; unfold Qle; cbn; lia|]). apply Forall_nil. Qed.
Lemma q_grid_query : exists x, pw_query Qmult 31 q_grid q_ctx (mkRI (1#3) (9#4) Clopen) 1 = Ok x /\ x == 24.
Proof. eexists. split; vm_compute; reflexivity. Qed.
Lemma q_split : (0 <= (1#2)) /\ pw_impl Qmult [(mkRI 0 1 Clopen, 6)] q_ctx (mkRI 0 (1#2) Clopen) == 6 /\
  pw_impl Qmult [(mkRI 0 1 Clopen, 6)] q_ctx (mkRI (1#2) 1 Clopen) == 3 /\ pw_impl Qmult [(mkRI 0 1 Clopen, 6)] q_ctx (mkRI 0 1 Clopen) == 6.
Proof. repeat split; vm_compute; try reflexivity; discriminate. Qed.
Lemma q_unsorted : pw_impl Qmult [(mkRI 3 4 Clopen, 1); (mkRI 0 1 Clopen, 6)] q_ctx (mkRI 0 2 Clopen) == 0 /\ covered 0 2 [(mkRI 3 4 Clopen, 1); (mkRI 0 1 Clopen, 6)] = [(1, 6)].
Proof. split; vm_compute; reflexivity. Qed.

Lemma add_fits01 : fits_query 0 1 (st_res add_stream) (st_res add_stream).
Proof. split; [cbn; lia|]. split; [cbn; lia|]. split; [cbn; lia|]. intros x [->| ->]; vm_compute; split; discriminate. Qed.
Definition tvs_ex : tvs Z := mkTvs (mkRI 0 1 Clopen) 100%Z.
Lemma tvs_ex_ok : increments eq Z.add (signature_after (Z.eqb 0) 0%Z add_sigs add_stream add_ctx [QAt (mkRI (1#10) (9#10) Clopen) 2]) 0 1 /\ inside 0 1 tvs_ex /\
  value_at Z.add (signature_after (Z.eqb 0) 0%Z add_sigs add_stream add_ctx []) tvs_ex (3#4) = Ok 107%Z /\
  exists s', queries Z.add (signature_after (Z.eqb 0) 0%Z add_sigs add_stream add_ctx []) tvs_ex [mkRI (1#4) 3 Clopen; mkRI 0 (7#8) Clopen] = Ok s' /\
    tv_initial s' = 103%Z /\ value_at Z.add (signature_after (Z.eqb 0) 0%Z add_sigs add_stream add_ctx []) s' (3#4) = Ok 107%Z.
Proof.
  split. { apply (stream_increments (Z.eqb 0) 0%Z eq_refl add_sigs (fun _ => True) add_ctx add_sound add_stream add_stream_ok 0 1 [QAt (mkRI (1#10) (9#10) Clopen) 2]); [exact add_fits01|reflexivity|apply Forall_cons; [apply add_fits; cbn; auto|apply Forall_nil]]. }
  split; [unfold inside; cbn; lra|]. split; [vm_compute; reflexivity|]. eexists. split; [vm_compute; reflexivity|]. split; vm_compute; reflexivity.
Qed.
Lemma tvs_touch_ex : exists s', tvs_query Z.add (fun _ => Ok 1%Z) (mkTvs (mkRI (-1) (1#2) Opencl) 5%Z) (mkRI (1#2) 4 Clopen) = Ok s' /\ tv_domain s' = mkRI 0 1 Clopen.
Proof. eexists. split; vm_compute; reflexivity. Qed.
