(** The Python functions on stacks of tensors in C order. *)
From Verif Require Export BatchTop2 TensorTop2 TensorLemmas3.
Open Scope Z_scope.

Section S.
  Variable R : Type.
  Variable sz : Z.
  Hypothesis Hsz : 0 < sz < 2 ^ 64.
  Lemma s_usable (a : stack R) : stack_ok a -> usable sz (s_shape a) (s_arr sz a) (s_dim a) (blen (s_mem a)).
  Proof. intros (H1 & H2 & H3). apply c_usable; lia. Qed.
  Lemma s_sep (a : stack R) : stack_ok a -> separate sz (s_shape a) (s_arr sz a) (s_dim a).
  Proof. intros (H1 & H2 & H3). apply c_separate; lia. Qed.
  Lemma s_piece (a : stack R) sh I : s_shape a = sh -> in_box sh I -> piece (s_mem a) (start sz (s_arr sz a) I) (s_dim a) = t_data (s_at a I).
  Proof. intros <- HI. unfold s_arr. rewrite c_start by (auto; lia). reflexivity. Qed.
  (** From memory to tensors. *)
  Lemma lift_result sh n (b : basis) (ob d : buf R) (one : list Z -> buf R -> Prop) (op : list Z -> outcome (dtensor R)) :
    Forall (fun n => 0 <= n) sh -> 0 <= n -> blen ob = zprod sh * n ->
    (forall I p, in_box sh I -> one I p -> op I = Ok (mkT p b)) ->
    batch_result sz sh (c_array sz sh n) n ob d one ->
    stack_ok (mkS d sh n b) /\ forall I, in_box sh I -> exists t, op I = Ok t /\ same_tensor t (s_at (mkS d sh n b) I).
  Proof.
    intros H1 H2 H3 Ho (B1 & B2 & _). split; [unfold stack_ok; cbn [s_mem s_shape s_dim]; repeat split; auto; lia|].
    intros I HI. destruct (B2 I HI) as (p & Ep & Lp & Hp). exists (mkT p b). split; [auto|]. split; [reflexivity|]. split; [exact Lp|].
    cbn [t_data s_at piece blen bat s_mem s_shape s_dim]. intros k Hk. rewrite <- Hp by auto. rewrite c_start by (auto; lia). reflexivity.
  Qed.
End S.

Lemma zeros_piece (R : cring) L c n : piece (zeros (R:=R) L) c n = zeros n. Proof. reflexivity. Qed.

Lemma stack_gen {R} sz sh n (b : basis) (ob : buf R) (res : outcome (stack R)) (nd : outcome (buf R)) (one : list Z -> outcome (buf R)) op : 0 < sz < 2 ^ 64 ->
  Forall (fun n => 0 <= n) sh -> 0 <= n -> blen ob = zprod sh * n ->
  res = (let! d := nd in Ok (mkS d sh n b)) ->
  (forall I, in_box sh I -> op I = (let! d := one I in Ok (mkT d b))) ->
  ((forall I, in_box sh I -> exists p, one I = Ok p) -> exists r, nd = Ok r /\ batch_result sz sh (c_array sz sh n) n ob r (fun I p => one I = Ok p)) ->
  itemwise sh op res.
Proof.
  intros Hsz Hsh Hn Hl -> Q Hb H1. destruct Hb as (d & -> & Bd).
  { intros I HI. destruct (H1 I HI) as (t & Et). rewrite Q in Et by auto. destruct (one I); try discriminate. eauto. }
  cbn [bind]. exists (mkS d sh n b). split; [reflexivity|]. split; [reflexivity|].
  refine (lift_result R sz Hsz sh n b ob d _ _ Hsh Hn Hl _ Bd).
  intros I p HI Hp. rewrite Q, Hp by auto. reflexivity.
Qed.

Section Stacks.
  Variable R : cring.
  Variable sz : Z.
  Hypothesis Hsz : 0 < sz < 2 ^ 64.
  Notation stack := (stack R).
  Notation pc a I := (piece (s_mem a) (start sz (s_arr sz a) I) (s_dim a)).
  Notation zpc a I := (piece (zeros (blen (s_mem a))) (start sz (s_arr sz a) I) (s_dim a)).

  Lemma stack_ft_fma (a b c : stack) : stack_ok a -> stack_ok b -> stack_ok c -> s_shape b = s_shape a -> s_shape c = s_shape a ->
    compat (s_basis a) (s_basis b) && compat (s_basis a) (s_basis c) = true -> 0 <= b_depth (s_basis b) -> 0 <= b_depth (s_basis c) ->
    itemwise (s_shape a) (fun I => py_ft_fma (s_at a I) (s_at b I) (s_at c I)) (s_ft_fma sz a b c).
  Proof.
    intros Ka Kb Kc Sb Sc Hc Db Dc. pose proof (s_usable R sz Hsz b Kb) as Ub. pose proof (s_usable R sz Hsz c Kc) as Uc. rewrite Sb in Ub. rewrite Sc in Uc.
    destruct Ka as (K1 & K2 & K3). pose proof (conj K1 (conj K2 K3) : stack_ok a) as Ka.
    eapply (stack_gen sz (s_shape a) (s_dim a) (s_basis a) (s_mem a) _ _
      (fun I => nd_ft_fma sz (s_basis b) (b_depth (s_basis c)) (-1) (-1) (vec sz (s_dim a)) (vec sz (s_dim b)) (vec sz (s_dim c)) (pc a I) (pc b I) (pc c I))); auto.
    - unfold s_ft_fma. rewrite Hc. cbn [negb]. reflexivity.
    - intros I HI. rewrite (s_piece R sz Hsz a _ I eq_refl HI), (s_piece R sz Hsz b _ I Sb HI), (s_piece R sz Hsz c _ I Sc HI).
      unfold py_ft_fma. cbn [t_basis s_at]. rewrite Hc. cbn [negb]. unfold nd_ft_fma, dense_ft_fma. ubs. destruct bb, bb0.
      rewrite vec_call2 by auto. reflexivity.
    - apply nd_ft_fma_batch; auto using s_usable, s_sep; try lia.
  Qed.
  Lemma stack_ft_mul (a b : stack) : stack_ok a -> stack_ok b -> s_shape b = s_shape a -> compat (s_basis a) (s_basis b) = true ->
    0 <= b_depth (s_basis a) -> 0 <= b_depth (s_basis b) ->
    itemwise (s_shape a) (fun I => py_ft_mul (s_at a I) (s_at b I)) (s_ft_mul sz a b).
  Proof.
    intros Ka Kb Sb Hc Da Db. pose proof (s_usable R sz Hsz b Kb) as Ub. rewrite Sb in Ub.
    destruct Ka as (K1 & K2 & K3). pose proof (conj K1 (conj K2 K3) : stack_ok a) as Ka.
    eapply (stack_gen sz (s_shape a) (s_dim a) (s_basis a) (zeros (blen (s_mem a))) _ _
      (fun I => nd_ft_fma sz (s_basis a) (-1) (-1) (b_depth (s_basis b)) (vec sz (s_dim a)) (vec sz (s_dim a)) (vec sz (s_dim b)) (zpc a I) (pc a I) (pc b I))); auto.
    - unfold s_ft_mul. rewrite Hc. cbn [negb]. reflexivity.
    - intros I HI. rewrite (s_piece R sz Hsz a _ I eq_refl HI), (s_piece R sz Hsz b _ I Sb HI), zeros_piece.
      unfold py_ft_mul. cbn [t_basis s_at]. rewrite Hc. cbn [negb]. unfold nd_ft_fma, dense_ft_fma. ubs. destruct bb, bb0.
      rewrite vec_call2 by auto. reflexivity.
    - apply nd_ft_fma_batch; auto; try lia; try (apply s_usable; auto). apply s_sep; auto.
  Qed.
  Lemma stack_ft_inplace_mul (a b : stack) : stack_ok a -> stack_ok b -> s_shape b = s_shape a -> compat (s_basis a) (s_basis b) = true ->
    0 <= b_depth (s_basis a) -> 0 <= b_depth (s_basis b) ->
    itemwise (s_shape a) (fun I => py_ft_inplace_mul (s_at a I) (s_at b I)) (s_ft_inplace_mul sz a b).
  Proof.
    intros Ka Kb Sb Hc Da Db. pose proof (s_usable R sz Hsz b Kb) as Ub. rewrite Sb in Ub.
    destruct Ka as (K1 & K2 & K3). pose proof (conj K1 (conj K2 K3) : stack_ok a) as Ka.
    eapply (stack_gen sz (s_shape a) (s_dim a) (s_basis a) (s_mem a) _ _
      (fun I => nd_ft_inplace_mul sz (s_basis a) (b_depth (s_basis b)) (-1) (vec sz (s_dim a)) (vec sz (s_dim b)) (pc a I) (pc b I))); auto.
    - unfold s_ft_inplace_mul. rewrite Hc. cbn [negb]. reflexivity.
    - intros I HI. rewrite (s_piece R sz Hsz a _ I eq_refl HI), (s_piece R sz Hsz b _ I Sb HI).
      unfold py_ft_inplace_mul. cbn [t_basis s_at]. rewrite Hc. cbn [negb]. unfold nd_ft_inplace_mul, dense_ft_inplace_mul. ubs. destruct bb, bb0.
      rewrite vec_call1 by auto. reflexivity.
    - apply nd_ft_inplace_mul_batch; auto; try lia; try (apply s_usable; auto). apply s_sep; auto.
  Qed.
  Lemma stack_antipode (a : stack) : stack_ok a -> 0 <= b_depth (s_basis a) ->
    itemwise (s_shape a) (fun I => py_antipode (s_at a I)) (s_antipode sz a).
  Proof.
    intros Ka Da. destruct Ka as (K1 & K2 & K3). pose proof (conj K1 (conj K2 K3) : stack_ok a) as Ka.
    eapply (stack_gen sz (s_shape a) (s_dim a) (s_basis a) (zeros (blen (s_mem a))) _ _
      (fun I => nd_antipode sz (s_basis a) (vec sz (s_dim a)) (vec sz (s_dim a)) (zpc a I) (pc a I))); auto.
    - unfold s_antipode. reflexivity.
    - intros I HI. rewrite (s_piece R sz Hsz a _ I eq_refl HI), zeros_piece.
      unfold py_antipode. cbn [t_basis s_at]. unfold nd_antipode. ubs. destruct bb.
      rewrite vec_call1 by auto. reflexivity.
    - apply nd_antipode_batch; auto; try lia; try (apply s_usable; auto). apply s_sep; auto.
  Qed.
  Lemma stack_st_fma (a b c : stack) : stack_ok a -> stack_ok b -> stack_ok c -> s_shape b = s_shape a -> s_shape c = s_shape a ->
    compat (s_basis a) (s_basis b) && compat (s_basis a) (s_basis c) = true -> 0 <= b_depth (s_basis a) ->
    itemwise (s_shape a) (fun I => py_st_fma (s_at a I) (s_at b I) (s_at c I)) (s_st_fma sz a b c).
  Proof.
    intros Ka Kb Kc Sb Sc Hc Da. pose proof (s_usable R sz Hsz b Kb) as Ub. pose proof (s_usable R sz Hsz c Kc) as Uc. rewrite Sb in Ub. rewrite Sc in Uc.
    destruct Ka as (K1 & K2 & K3). pose proof (conj K1 (conj K2 K3) : stack_ok a) as Ka.
    eapply (stack_gen sz (s_shape a) (s_dim a) (s_basis a) (s_mem a) _ _
      (fun I => nd_st_fma sz (s_basis a) (vec sz (s_dim a)) (vec sz (s_dim b)) (vec sz (s_dim c)) (pc a I) (pc b I) (pc c I))); auto.
    - unfold s_st_fma. rewrite Hc. cbn [negb]. reflexivity.
    - intros I HI. rewrite (s_piece R sz Hsz a _ I eq_refl HI), (s_piece R sz Hsz b _ I Sb HI), (s_piece R sz Hsz c _ I Sc HI).
      unfold py_st_fma. cbn [t_basis s_at]. rewrite Hc. cbn [negb]. unfold nd_st_fma, dense_st_fma. ubs. destruct bb.
      rewrite vec_call2 by auto. reflexivity.
    - apply nd_st_fma_batch; auto; try lia; try (apply s_usable; auto). apply s_sep; auto.
  Qed.
  Lemma stack_st_mul (a b : stack) : stack_ok a -> stack_ok b -> s_shape b = s_shape a -> compat (s_basis a) (s_basis b) = true ->
    0 <= b_depth (s_basis a) ->
    itemwise (s_shape a) (fun I => py_st_mul (s_at a I) (s_at b I)) (s_st_mul sz a b).
  Proof.
    intros Ka Kb Sb Hc Da. pose proof (s_usable R sz Hsz b Kb) as Ub. rewrite Sb in Ub.
    destruct Ka as (K1 & K2 & K3). pose proof (conj K1 (conj K2 K3) : stack_ok a) as Ka.
    eapply (stack_gen sz (s_shape a) (s_dim a) (s_basis a) (zeros (blen (s_mem a))) _ _
      (fun I => nd_st_fma sz (s_basis a) (vec sz (s_dim a)) (vec sz (s_dim a)) (vec sz (s_dim b)) (zpc a I) (pc a I) (pc b I))); auto.
    - unfold s_st_mul. rewrite Hc. cbn [negb]. reflexivity.
    - intros I HI. rewrite (s_piece R sz Hsz a _ I eq_refl HI), (s_piece R sz Hsz b _ I Sb HI), zeros_piece.
      unfold py_st_mul. cbn [t_basis s_at]. rewrite Hc. cbn [negb]. unfold nd_st_fma, dense_st_fma. ubs. destruct bb.
      rewrite vec_call2 by auto. reflexivity.
    - apply nd_st_fma_batch; auto; try lia; try (apply s_usable; auto). apply s_sep; auto.
  Qed.
  Lemma stack_adjoint (p a : stack) : stack_ok p -> stack_ok a -> s_shape p = s_shape a -> compat (s_basis p) (s_basis a) = true ->
    0 <= b_depth (s_basis p) -> 0 <= b_depth (s_basis a) ->
    itemwise (s_shape a) (fun I => py_ft_adjoint_left_mul (s_at p I) (s_at a I)) (s_ft_adjoint_left_mul sz p a).
  Proof.
    intros Kp Ka Sp Hc Dp Da. pose proof (s_usable R sz Hsz p Kp) as Up. rewrite Sp in Up.
    destruct Ka as (K1 & K2 & K3). pose proof (conj K1 (conj K2 K3) : stack_ok a) as Ka.
    eapply (stack_gen sz (s_shape a) (s_dim a) (s_basis a) (zeros (blen (s_mem a))) _ _
      (fun I => nd_ft_adj_lmul sz (s_basis p) (b_depth (s_basis a)) (b_depth (s_basis p)) (b_depth (s_basis a)) (vec sz (s_dim a)) (vec sz (s_dim p)) (vec sz (s_dim a)) (zpc a I) (pc p I) (pc a I))); auto.
    - unfold s_ft_adjoint_left_mul. rewrite Hc. cbn [negb]. reflexivity.
    - intros I HI. rewrite (s_piece R sz Hsz a _ I eq_refl HI), (s_piece R sz Hsz p _ I Sp HI), zeros_piece.
      unfold py_ft_adjoint_left_mul. cbn [t_basis s_at]. rewrite Hc. cbn [negb]. unfold nd_ft_adj_lmul. ubs. destruct bb, bb0.
      rewrite vec_call2 by auto. reflexivity.
    - apply nd_ft_adj_lmul_batch; auto; try lia; try (apply s_usable; auto). apply s_sep; auto.
  Qed.
End Stacks.

Section Stacks2.
  Variable R : qalg.
  Variable sz : Z.
  Hypothesis Hsz : 0 < sz < 2 ^ 64.
  Notation stack := (stack (qr R)).
  Notation pc a I := (piece (s_mem a) (start sz (s_arr sz a) I) (s_dim a)).
  Lemma stack_ft_exp (x : stack) ob : stack_ok x -> compat ob (s_basis x) = true -> 0 <= b_depth ob -> (exists n, basis_size ob = Ok n /\ 0 <= n) ->
    itemwise (s_shape x) (fun I => py_ft_exp (s_at x I) ob) (s_ft_exp sz x ob).
  Proof.
    intros Kx Hc Db (n & En & Hn). destruct Kx as (K1 & K2 & K3). pose proof (conj K1 (conj K2 K3) : stack_ok x) as Kx.
    eapply (stack_gen sz (s_shape x) n ob (zeros (zprod (s_shape x) * n)) _ _
      (fun I => nd_ft_exp sz ob (vec sz n) (vec sz (s_dim x)) (piece (zeros (zprod (s_shape x) * n)) (start sz (c_array sz (s_shape x) n) I) n) (pc x I))); auto.
    - unfold s_ft_exp. rewrite Hc, En. cbn [negb bind]. reflexivity.
    - intros I HI. rewrite (s_piece (qr R) sz Hsz x _ I eq_refl HI), zeros_piece.
      unfold py_ft_exp. cbn [t_basis s_at]. rewrite Hc, En. cbn [negb bind]. unfold nd_ft_exp. ubs. destruct bb.
      rewrite vec_call1 by auto. reflexivity.
    - apply nd_ft_exp_batch; auto; try lia; try (apply s_usable; auto). apply c_usable; cbn [zeros blen]; lia. apply c_separate; lia.
  Qed.
  Lemma stack_ft_log (x : stack) ob : stack_ok x -> compat ob (s_basis x) = true -> 0 <= b_depth ob -> (exists n, basis_size ob = Ok n /\ 0 <= n) ->
    itemwise (s_shape x) (fun I => py_ft_log (s_at x I) ob) (s_ft_log sz x ob).
  Proof.
    intros Kx Hc Db (n & En & Hn). destruct Kx as (K1 & K2 & K3). pose proof (conj K1 (conj K2 K3) : stack_ok x) as Kx.
    eapply (stack_gen sz (s_shape x) n ob (zeros (zprod (s_shape x) * n)) _ _
      (fun I => nd_ft_log sz ob (vec sz n) (vec sz (s_dim x)) (piece (zeros (zprod (s_shape x) * n)) (start sz (c_array sz (s_shape x) n) I) n) (pc x I))); auto.
    - unfold s_ft_log. rewrite Hc, En. cbn [negb bind]. reflexivity.
    - intros I HI. rewrite (s_piece (qr R) sz Hsz x _ I eq_refl HI), zeros_piece.
      unfold py_ft_log. cbn [t_basis s_at]. rewrite Hc, En. cbn [negb bind]. unfold nd_ft_log. ubs. destruct bb.
      rewrite vec_call1 by auto. reflexivity.
    - apply nd_ft_log_batch; auto; try lia; try (apply s_usable; auto). apply c_usable; cbn [zeros blen]; lia. apply c_separate; lia.
  Qed.
  Lemma stack_ft_fmexp (a x : stack) ob : stack_ok a -> stack_ok x -> s_shape x = s_shape a -> compat ob (s_basis a) && compat ob (s_basis x) = true ->
    0 <= b_depth ob -> (exists n, basis_size ob = Ok n /\ 0 <= n) ->
    itemwise (s_shape a) (fun I => py_ft_fmexp (s_at a I) (s_at x I) ob) (s_ft_fmexp sz a x ob).
  Proof.
    intros Ka Kx Sx Hc Db (n & En & Hn). pose proof (s_usable (qr R) sz Hsz x Kx) as Ux. rewrite Sx in Ux.
    destruct Ka as (K1 & K2 & K3). pose proof (conj K1 (conj K2 K3) : stack_ok a) as Ka.
    eapply (stack_gen sz (s_shape a) n ob (zeros (zprod (s_shape a) * n)) _ _
      (fun I => nd_ft_fmexp sz ob (vec sz n) (vec sz (s_dim a)) (vec sz (s_dim x)) (piece (zeros (zprod (s_shape a) * n)) (start sz (c_array sz (s_shape a) n) I) n) (pc a I) (pc x I))); auto.
    - unfold s_ft_fmexp. rewrite Hc, En. cbn [negb bind]. reflexivity.
    - intros I HI. rewrite (s_piece (qr R) sz Hsz a _ I eq_refl HI), (s_piece (qr R) sz Hsz x _ I Sx HI), zeros_piece.
      unfold py_ft_fmexp. cbn [t_basis s_at]. rewrite Hc, En. cbn [negb bind]. unfold nd_ft_fmexp. ubs. destruct bb.
      rewrite vec_call2 by auto. reflexivity.
    - apply nd_ft_fmexp_batch; auto; try lia; try (apply s_usable; auto). apply c_usable; cbn [zeros blen]; lia. apply c_separate; lia.
  Qed.
End Stacks2.

(** Arrays of different batch shapes. *)
Lemma bind_throw {A B C} (x : outcome A) (f : A -> outcome B) (g : B -> outcome C) : (forall y, f y = Throw) -> (exists a, x = Ok a) \/ x = Throw -> bind (bind x f) g = Throw.
Proof. intros H [[a ->]| ->]; cbn; auto. rewrite H. auto. Qed.
Lemma ub_cases b mx mn : (exists p, update_bounds b mx mn = Ok p) \/ update_bounds b mx mn = Throw.
Proof. unfold update_bounds. destruct (mn >? _); eauto. Qed.
Ltac ubt := repeat match goal with |- context [update_bounds ?b ?x ?y] => let p := fresh "bb" in let E := fresh "Eb" in destruct (ub_cases b x y) as [[p E]|E]; rewrite E; cbn [bind]; [|reflexivity] end.
Section Mismatch.
  Variable R : cring.
  Variable sz : Z.
  Lemma mismatch_ft_mul (a b : stack R) : s_shape b <> s_shape a -> s_ft_mul sz a b = Throw.
  Proof.
    intros H. unfold s_ft_mul. destruct (negb _); auto. unfold nd_ft_fma. ubt.
    erewrite call_mismatch; [reflexivity|reflexivity|right; left; reflexivity|reflexivity|exact H].
  Qed.
  Lemma mismatch_ft_fma (a b c : stack R) : s_shape b <> s_shape a \/ s_shape c <> s_shape a -> s_ft_fma sz a b c = Throw.
  Proof.
    intros H. unfold s_ft_fma. destruct (negb _); auto. unfold nd_ft_fma. ubt. destruct H as [H|H].
    - erewrite call_mismatch; [reflexivity|reflexivity|left; reflexivity|reflexivity|exact H].
    - erewrite call_mismatch; [reflexivity|reflexivity|right; left; reflexivity|reflexivity|exact H].
  Qed.
  Lemma mismatch_ft_inplace_mul (a b : stack R) : s_shape b <> s_shape a -> s_ft_inplace_mul sz a b = Throw.
  Proof.
    intros H. unfold s_ft_inplace_mul. destruct (negb _); auto. unfold nd_ft_inplace_mul. ubt.
    erewrite call_mismatch; [reflexivity|reflexivity|left; reflexivity|reflexivity|exact H].
  Qed.
  Lemma mismatch_st_mul (a b : stack R) : s_shape b <> s_shape a -> s_st_mul sz a b = Throw.
  Proof.
    intros H. unfold s_st_mul. destruct (negb _); auto. unfold nd_st_fma. ubt.
    erewrite call_mismatch; [reflexivity|reflexivity|right; left; reflexivity|reflexivity|exact H].
  Qed.
  Lemma mismatch_st_fma (a b c : stack R) : s_shape b <> s_shape a \/ s_shape c <> s_shape a -> s_st_fma sz a b c = Throw.
  Proof.
    intros H. unfold s_st_fma. destruct (negb _); auto. unfold nd_st_fma. ubt. destruct H as [H|H].
    - erewrite call_mismatch; [reflexivity|reflexivity|left; reflexivity|reflexivity|exact H].
    - erewrite call_mismatch; [reflexivity|reflexivity|right; left; reflexivity|reflexivity|exact H].
  Qed.
  Lemma mismatch_adjoint (p a : stack R) : s_shape p <> s_shape a -> s_ft_adjoint_left_mul sz p a = Throw.
  Proof.
    intros H. unfold s_ft_adjoint_left_mul. destruct (negb _); auto. unfold nd_ft_adj_lmul. ubt.
    erewrite call_mismatch; [reflexivity|reflexivity|left; reflexivity|reflexivity|exact H].
  Qed.
  Lemma mismatch_all (a b : stack R) : s_shape b <> s_shape a ->
    s_ft_mul sz a b = Throw /\ s_ft_inplace_mul sz a b = Throw /\ s_st_mul sz a b = Throw /\ s_ft_adjoint_left_mul sz b a = Throw /\
    forall c, s_ft_fma sz a b c = Throw /\ s_ft_fma sz a c b = Throw /\ s_st_fma sz a b c = Throw /\ s_st_fma sz a c b = Throw.
  Proof.
    intros H. split; [apply mismatch_ft_mul; auto|]. split; [apply mismatch_ft_inplace_mul; auto|]. split; [apply mismatch_st_mul; auto|].
    split; [apply mismatch_adjoint; auto|]. intros c. split; [apply mismatch_ft_fma; auto|]. split; [apply mismatch_ft_fma; auto|]. split; apply mismatch_st_fma; auto.
  Qed.
  Lemma mismatch_matrix (m : csmat R) op out a so no sa na (ob ab : buf R) : np_shape out = so ++ [no] -> np_shape a = sa ++ [na] ->
    sa <> so \/ no <> cs_inner m \/ na <> cs_n m -> nd_apply sz m op out a ob ab = Throw.
  Proof.
    intros Ho Ha H. unfold nd_apply. destruct (ndims out <? 1); auto. destruct (negb (ndims a =? ndims out)) eqn:En; auto.
    destruct (check_dims _ _ _ _) eqn:Ec; auto. cbn [negb]. unfold ndims in *. rewrite Ho, Ha in *. apply check_dims_iff in Ec. subst sa.
    rewrite app_length. cbn [length]. replace (Z.to_nat _) with (length so) by lia. rewrite !app_nth2, !Nat.sub_diag by lia. cbn [nth].
    destruct (Z.eqb_spec (cs_inner m) no); [|reflexivity]. cbn [negb]. destruct (Z.eqb_spec (cs_n m) na); [|reflexivity]. exfalso. destruct H as [H|[H|H]]; auto.
  Qed.
End Mismatch.

(** Values. *)
Section Values.
  Lemma item_ok {R : cring} w D (a : stack R) I : tensor_stack w D a -> tensor_ok w D (s_at a I).
  Proof. intros (_ & H1 & H2). split; cbn [t_basis s_at t_data piece blen]; auto. Qed.
  Lemma tv_same (R : cring) w D (p q : dtensor R) : 0 < w -> tensor_ok w D p -> same_tensor p q -> tensor_ok w D q /\ forall u, tv w D q u = tv w D p u.
  Proof.
    intros Hw (E1 & E2) (S1 & S2 & S3). split; [split; [congruence|lia]|]. intros u. unfold tv. destruct (Nat.leb_spec (length u) D) as [H2|]; [|reflexivity].
    destruct (okw w u) eqn:E; [|reflexivity]. apply okw_true in E. cbn [andb]. symmetry. apply S3.
    pose proof (pos_bound w Hw u D E H2). lia.
  Qed.
  Lemma itemwise_values (R : cring) w D sh op res (X : list Z -> tens R Z) : 0 < w -> itemwise sh op res ->
    (forall I, in_box sh I -> exists t, op I = Ok t /\ tensor_ok w D t /\ agree D (tv w D t) (X I)) ->
    exists r, res = Ok r /\ s_shape r = sh /\ forall I, in_box sh I -> tensor_ok w D (s_at r I) /\ agree D (tv w D (s_at r I)) (X I).
  Proof.
    intros Hw H K. destruct H as (r & Er & Sr & _ & Hr). { intros I HI. destruct (K I HI) as (t & Et & _). eauto. }
    exists r. split; [auto|]. split; [auto|]. intros I HI. destruct (Hr I HI) as (t & Et & Ht). destruct (K I HI) as (t' & Et' & Ho & Ha).
    rewrite Et in Et'. inversion Et'; subst t'. destruct (tv_same R w D t _ Hw Ho Ht) as [O1 O2]. split; auto. intros u Hu. rewrite O2. auto.
  Qed.
  Variable sz : Z.
  Hypothesis Hsz : 0 < sz < 2 ^ 64.
  Lemma compat_refl w D D' : compat (tensor_basis w D) (tensor_basis w D') = true.
  Proof. unfold compat, tensor_basis. cbn. apply Z.eqb_refl. Qed.
  Lemma values_ft_mul (R : cring) w D (a b : stack R) : 0 < w -> tensor_stack w D a -> tensor_stack w D b -> s_shape b = s_shape a ->
    exists r, s_ft_mul sz a b = Ok r /\ s_shape r = s_shape a /\
      forall I, in_box (s_shape a) I -> tensor_ok w D (s_at r I) /\ agree D (tv w D (s_at r I)) (conv (tv w D (s_at a I)) (tv w D (s_at b I))).
  Proof.
    intros Hw Ha Hb Hs. apply itemwise_values with (op := fun I => py_ft_mul (s_at a I) (s_at b I)); auto.
    - destruct Ha as (A1 & A2 & A3), Hb as (B1 & B2 & B3). apply stack_ft_mul; auto; rewrite ?A2, ?B2; [apply compat_refl|cbn; lia|cbn; lia].
    - intros I HI. apply py_ft_mul_spec; auto using item_ok.
  Qed.
  Lemma values_st_mul (R : cring) w D (a b : stack R) : 0 < w -> w <= 32768 -> (D < 64)%nat -> tensor_stack w D a -> tensor_stack w D b -> s_shape b = s_shape a ->
    exists r, s_st_mul sz a b = Ok r /\ s_shape r = s_shape a /\
      forall I, in_box (s_shape a) I -> tensor_ok w D (s_at r I) /\ agree D (tv w D (s_at r I)) (shuf (tv w D (s_at a I)) (tv w D (s_at b I))).
  Proof.
    intros Hw Hw' HD Ha Hb Hs. apply itemwise_values with (op := fun I => py_st_mul (s_at a I) (s_at b I)); auto.
    - destruct Ha as (A1 & A2 & A3), Hb as (B1 & B2 & B3). apply stack_st_mul; auto; rewrite ?A2, ?B2; [apply compat_refl|cbn; lia].
    - intros I HI. apply py_st_mul_spec; auto using item_ok.
  Qed.
  Lemma values_antipode (R : cring) w D (a : stack R) : 0 < w -> (1 <= D)%nat -> tensor_stack w D a ->
    exists r, s_antipode sz a = Ok r /\ s_shape r = s_shape a /\
      forall I, in_box (s_shape a) I -> tensor_ok w D (s_at r I) /\ agree D (tv w D (s_at r I)) (fun u => rmul (rpow (ropp r1) (length u)) (tv w D (s_at a I) (rev u))).
  Proof.
    intros Hw HD Ha. apply itemwise_values with (op := fun I => py_antipode (s_at a I)); auto.
    - destruct Ha as (A1 & A2 & A3). apply stack_antipode; auto. rewrite A2. cbn. lia.
    - intros I HI. destruct (antipode_coefficients R w Hw D (s_at a I) (item_ok w D a I Ha) HD) as (t & E1 & E2 & E3). exists t. auto.
  Qed.
  Lemma size_tb w D : 0 < w -> exists n, basis_size (tensor_basis w (Z.of_nat D)) = Ok n /\ 0 <= n.
  Proof. intros Hw. exists (words_below w (S D)). split; [apply basis_size_ok; auto|apply words_below_nonneg; auto]. Qed.
  Lemma values_ft_exp (R : qalg) w Dx D (x : stack R) : 0 < w -> (D <= Dx)%nat -> tensor_stack w Dx x ->
    exists r, s_ft_exp sz x (tensor_basis w (Z.of_nat D)) = Ok r /\ s_shape r = s_shape x /\
      forall I, in_box (s_shape x) I -> tensor_ok w D (s_at r I) /\
        agree D (tv w D (s_at r I)) (fun u => sum (seq O (S D)) (fun k => rmul (invfact R k) (tpow (noconst R (tv w Dx (s_at x I))) k u))).
  Proof.
    intros Hw HD Hx. apply itemwise_values with (op := fun I => py_ft_exp (s_at x I) (tensor_basis w (Z.of_nat D))); auto.
    - destruct Hx as (A1 & A2 & A3). apply stack_ft_exp; auto; [rewrite A2; apply compat_refl|cbn; lia|apply size_tb; auto].
    - intros I HI. apply py_ft_exp_spec; auto using item_ok.
  Qed.
  Lemma values_ft_log (R : qalg) w Dx D (x : stack R) : 0 < w -> (D <= Dx)%nat -> tensor_stack w Dx x ->
    exists r, s_ft_log sz x (tensor_basis w (Z.of_nat D)) = Ok r /\ s_shape r = s_shape x /\
      forall I, in_box (s_shape x) I -> tensor_ok w D (s_at r I) /\
        agree D (tv w D (s_at r I)) (fun u => sum (seq O (S D)) (fun k => rmul (plog R k) (tpow (noconst R (tv w Dx (s_at x I))) k u))).
  Proof.
    intros Hw HD Hx. apply itemwise_values with (op := fun I => py_ft_log (s_at x I) (tensor_basis w (Z.of_nat D))); auto.
    - destruct Hx as (A1 & A2 & A3). apply stack_ft_log; auto; [rewrite A2; apply compat_refl|cbn; lia|apply size_tb; auto].
    - intros I HI. apply py_ft_log_spec; auto using item_ok.
  Qed.
  Lemma values_ft_fmexp (R : qalg) w Da Dx D (a x : stack R) : 0 < w -> (D <= Da)%nat -> (D <= Dx)%nat -> tensor_stack w Da a -> tensor_stack w Dx x -> s_shape x = s_shape a ->
    exists r, s_ft_fmexp sz a x (tensor_basis w (Z.of_nat D)) = Ok r /\ s_shape r = s_shape a /\
      forall I, in_box (s_shape a) I -> tensor_ok w D (s_at r I) /\
        agree D (tv w D (s_at r I)) (conv (tv w Da (s_at a I)) (texp D (noconst R (tv w Dx (s_at x I))))).
  Proof.
    intros Hw HD HD' Ha Hx Hs. apply itemwise_values with (op := fun I => py_ft_fmexp (s_at a I) (s_at x I) (tensor_basis w (Z.of_nat D))); auto.
    - destruct Ha as (A1 & A2 & A3), Hx as (B1 & B2 & B3). apply stack_ft_fmexp; auto; [rewrite A2, B2, !compat_refl; auto|cbn; lia|apply size_tb; auto].
    - intros I HI. apply py_ft_fmexp_spec; auto using item_ok.
  Qed.
End Values.

(** Lie elements. *)
Section LieStacks.
  Variable R : cring.
  Variable isz : R -> bool.
  Variable sz : Z.
  Hypothesis Hsz : 0 < sz < 2 ^ 64.
  Lemma some_index sh : Forall (fun n => 0 <= n) sh -> 0 < zprod sh -> exists I, in_box sh I.
  Proof. intros Hsh Hp. destruct (nonneg_cases sh Hsh) as [P|Z0]; [|lia]. exists (nth_index sh 0). apply nth_index_box. auto. Qed.
  Lemma stack_lie_to_tensor jd ji jp B sh dim (mem : buf R) tb scale : Forall (fun n => 0 <= n) sh -> 0 < zprod sh -> 0 <= dim -> blen mem = zprod sh * dim ->
    (exists n, basis_size tb = Ok n /\ 0 <= n) ->
    (forall I, in_box sh I -> exists y, py_lie_to_tensor isz jd ji jp B (piece mem (ravel sh I * dim) dim) tb scale = Ok y) ->
    exists r, s_lie_to_tensor isz sz jd ji jp B sh dim mem tb scale = Ok r /\ s_shape r = sh /\ stack_ok r /\
      forall I, in_box sh I -> exists y, py_lie_to_tensor isz jd ji jp B (piece mem (ravel sh I * dim) dim) tb scale = Ok y /\ same_tensor (mkT y tb) (s_at r I).
  Proof.
    intros Hsh Hp Hd Hm (n & En & Hn) H1. destruct (some_index sh Hsh Hp) as (I0 & HI0).
    unfold s_lie_to_tensor, py_lie_to_tensor in *. destruct (H1 I0 HI0) as (y0 & E0).
    destruct (construct_new_l2t isz jd ji jp B) as [m| | |]; try discriminate. cbn [bind] in *. rewrite En in *. cbn [bind] in *.
    destruct (negb (b_width tb =? lb_width B)); [discriminate|]. clear E0 y0.
    destruct (nd_apply_batch R sz sh Hsz Hsh m (scaled scale) (c_array sz sh n) n (c_array sz sh dim) dim (zeros (zprod sh * n)) mem) as (d & Ed & Bd); auto.
    - apply c_usable; cbn [zeros blen]; lia.
    - apply c_separate; lia.
    - apply c_usable; lia.
    - intros I HI. rewrite zeros_piece, (c_start sz sh dim) by (auto; lia). destruct (H1 I HI) as (y & Ey). cbn [piece blen] in Ey. eauto.
    - rewrite Ed. cbn [bind]. exists (mkS d sh n tb). split; [reflexivity|]. split; [reflexivity|].
      destruct Bd as (B1 & B2 & _). split; [unfold stack_ok; cbn [s_mem s_shape s_dim]; repeat split; auto|].
      intros I HI. destruct (B2 I HI) as (p & Ep & Lp & Hk). cbv beta in Ep. rewrite zeros_piece, (c_start sz sh dim) in Ep by (auto; lia).
      exists p. split; [exact Ep|]. split; [reflexivity|]. split; [exact Lp|]. cbn [t_data s_at piece blen bat s_mem s_shape s_dim].
      intros k Hk'. rewrite <- Hk by auto. rewrite c_start by (auto; lia). reflexivity.
  Qed.
  Lemma stack_tensor_to_lie fuel inv jd ji jp B c (x : stack R) scale : stack_ok x -> 0 < zprod (s_shape x) -> (exists n, lb_size B = Ok n /\ 0 <= n) ->
    (forall I, in_box (s_shape x) I -> exists y, py_tensor_to_lie isz fuel inv jd ji jp B c (t_data (s_at x I)) (s_basis x) scale = Ok y) ->
    exists r c' n, s_tensor_to_lie isz sz fuel inv jd ji jp B c x scale = Ok (r, c') /\ lb_size B = Ok n /\ blen r = zprod (s_shape x) * n /\
      forall I, in_box (s_shape x) I -> exists y, py_tensor_to_lie isz fuel inv jd ji jp B c (t_data (s_at x I)) (s_basis x) scale = Ok (y, c') /\ blen y = n /\
        forall k, 0 <= k < n -> bat r (ravel (s_shape x) I * n + k) = bat y k.
  Proof.
    intros Kx Hp (n & En & Hn) H1. destruct Kx as (K1 & K2 & K3). destruct (some_index _ K1 Hp) as (I0 & HI0).
    unfold s_tensor_to_lie, py_tensor_to_lie in *. destruct (H1 I0 HI0) as (y0 & E0).
    destruct (construct_new_t2l isz fuel inv jd ji jp B c) as [[m c']| | |]; try discriminate. cbn [bind fst snd] in *. rewrite En in *. cbn [bind] in *.
    destruct (negb (b_width (s_basis x) =? lb_width B)); [discriminate|]. clear E0 y0.
    destruct (nd_apply_batch R sz (s_shape x) Hsz K1 m (scaled scale) (c_array sz (s_shape x) n) n (s_arr sz x) (s_dim x) (zeros (zprod (s_shape x) * n)) (s_mem x)) as (d & Ed & Bd); auto.
    - apply c_usable; cbn [zeros blen]; lia.
    - apply c_separate; lia.
    - apply s_usable; auto. repeat split; auto.
    - intros I HI. rewrite zeros_piece, (s_piece R sz Hsz x _ I eq_refl HI). destruct (H1 I HI) as (y & Ey). cbn [s_at t_data piece blen] in Ey.
      change (blen (t_data (s_at x I))) with (s_dim x) in Ey. destruct (dense_apply m n (s_dim x) (zeros n) (t_data (s_at x I)) (scaled scale)) as [y'| | |] eqn:E; eauto; exfalso; cbn [s_at t_data piece] in E; rewrite E in Ey; discriminate.
    - rewrite Ed. cbn [bind]. exists d, c', n. split; [reflexivity|]. split; [reflexivity|]. destruct Bd as (B1 & B2 & _). split; [exact B1|].
      intros I HI. destruct (B2 I HI) as (p & Ep & Lp & Hk). rewrite zeros_piece, (s_piece R sz Hsz x _ I eq_refl HI) in Ep.
      exists p. change (blen (t_data (s_at x I))) with (s_dim x). rewrite Ep. split; [reflexivity|]. split; [auto|]. intros k Hk'. rewrite <- Hk by auto. rewrite c_start by (auto; lia). reflexivity.
  Qed.
End LieStacks.

(** Witnesses. *)
Definition sqbuf (n : Z) : buf Zcr := mkbuf n (fun k => (k * k + 1 : Zcr)).
Definition blist (x : outcome (buf Zcr)) : option (list Z) := match x with Ok b => Some (map (bat b) (zrange (blen b))) | _ => None end.
Definition slist (x : outcome (stack Zcr)) : option (list Z * list Z) := match x with Ok r => Some (s_shape r, map (bat (s_mem r)) (zrange (blen (s_mem r)))) | _ => None end.
Definition stack227 : stack Zcr := mkS (sqbuf 28) [2; 2] 7 (tensor_basis 2 2).
Lemma stack227_ok : tensor_stack 2 2 stack227.
Proof. split; [split; [repeat constructor; lia|split; [cbn; lia|reflexivity]]|split; reflexivity]. Qed.
(** The item in column [i] of a 2 x 7 array in Fortran order. *)
Definition fcol (b : buf Zcr) (i : Z) : dtensor Zcr := mkT (mkbuf 7 (fun k => bat b (i + 2 * k))) (tensor_basis 2 2).
Lemma fortran_witness : exists (ab r : buf Zcr) t, blen ab = 14 /\
  nd_antipode 8 (tensor_basis 2 2) (mkNp 0 [2; 7] [8; 16]) (mkNp 0 [2; 7] [8; 16]) (zeros 14) ab = Ok r /\
  py_antipode (fcol ab 0) = Ok t /\ bat (t_data (fcol r 0)) 2 <> bat (t_data t) 2.
Proof.
  exists (sqbuf 14). destruct (nd_antipode 8 (tensor_basis 2 2) (mkNp 0 [2; 7] [8; 16]) (mkNp 0 [2; 7] [8; 16]) (zeros 14) (sqbuf 14)) as [r| | |] eqn:E; [|exfalso; vm_compute in E; discriminate..].
  destruct (py_antipode (fcol (sqbuf 14) 0)) as [t| | |] eqn:Et; [|exfalso; vm_compute in Et; discriminate..].
  exists r, t. split; [reflexivity|]. split; [reflexivity|]. split; [reflexivity|].
  assert (H1 : blist (nd_antipode 8 (tensor_basis 2 2) (mkNp 0 [2; 7] [8; 16]) (mkNp 0 [2; 7] [8; 16]) (zeros 14) (sqbuf 14)) = Some [1; 2; -5; 10; 17; 50; 65; 26; 37; 82; 101; 0; 0; 0]) by (vm_compute; reflexivity).
  assert (H2 : shown (py_antipode (fcol (sqbuf 14) 0)) = Ok [1; -5; -17; 37; 101; 65; 145]) by (vm_compute; reflexivity).
  assert (L1 : blen r = 14) by (apply (f_equal (fun x => match x with Ok b => blen b | _ => 0 end)) in E; vm_compute in E; auto).
  assert (L2 : blen (t_data t) = 7) by (apply (f_equal (fun x => match x with Ok b => blen (t_data b) | _ => 0 end)) in Et; vm_compute in Et; auto).
  rewrite E in H1. rewrite Et in H2. unfold blist in H1. unfold shown, show in H2. cbn [bind] in H2. rewrite L1 in H1. rewrite L2 in H2.
  apply (f_equal (fun o => match o with Some l => nth 4 l 0 | None => 0 end)) in H1. apply (f_equal (fun o => match o with Ok l => nth 2 l 0 | _ => 0 end)) in H2.
  change (bat r 4 = 17) in H1. change (bat (t_data t) 2 = -17) in H2. cbn [fcol t_data bat]. change (0 + 2 * 2) with 4. rewrite H1, H2. discriminate.
Qed.
Lemma short_witness : nd_antipode (R:=Zcr) 8 (tensor_basis 2 2) (c_array 8 [2] 3) (c_array 8 [2] 3) (zeros 6) (sqbuf 6) = UB.
Proof. vm_compute. reflexivity. Qed.
Lemma ex_strides : usable 8 [2] (mkNp 48 [2; 3] [-24; 8]) 3 9 /\ separate 8 [2] (mkNp 48 [2; 3] [-24; 8]) 3 /\ usable 8 [2] (mkNp 0 [2; 3] [0; 8]) 3 3 /\
  blist (nd_antipode 8 (tensor_basis 2 1) (mkNp 48 [2; 3] [-24; 8]) (mkNp 0 [2; 3] [0; 8]) (zeros 9) (sqbuf 3)) = Some [0; 0; 0; 1; -2; -5; 1; -2; -5].
Proof.
  assert (B : forall I, in_box [2] I -> I = [0] \/ I = [1]).
  { intros I H. inversion H as [|? i ? I' Hi H']; subst. inversion H'; subst. assert (i = 0 \/ i = 1) as [-> | ->] by lia; auto. }
  split; [|split; [|split; [|vm_compute; reflexivity]]].
  - split; [reflexivity|exists [-24]; split; reflexivity|]. intros I HI. destruct (B I HI) as [-> | ->]; (split; [first [exists 6; reflexivity|exists 3; reflexivity]|split; vm_compute; discriminate]).
  - intros I J HI HJ Hne. destruct (B I HI) as [-> | ->], (B J HJ) as [-> | ->]; try congruence; [right|left]; vm_compute; discriminate.
  - split; [reflexivity|exists [0]; split; reflexivity|]. intros I HI. destruct (B I HI) as [-> | ->]; (split; [exists 0; reflexivity|split; vm_compute; discriminate]).
Qed.
Lemma ex_stack : tensor_stack 2 2 stack227 /\ in_box [2; 2] [1; 0] /\
  shown (py_ft_mul (s_at stack227 [1; 0]) (s_at stack227 [1; 0])) = Ok (firstn 7 (skipn 14 (match slist (s_ft_mul 8 stack227 stack227) with Some p => snd p | None => [] end))) /\
  option_map fst (slist (s_ft_mul 8 stack227 stack227)) = Some [2; 2].
Proof. split; [exact stack227_ok|]. split; [repeat constructor; lia|]. split; vm_compute; reflexivity. Qed.
Lemma c_order sz sh n : 0 < sz -> 0 <= n ->
  usable sz sh (c_array sz sh n) n (zprod sh * n) /\ separate sz sh (c_array sz sh n) n /\
  (forall I, in_box sh I -> start sz (c_array sz sh n) I = ravel sh I * n /\ 0 <= ravel sh I < zprod sh) /\
  (forall I J, in_box sh I -> in_box sh J -> ravel sh I = ravel sh J -> I = J).
Proof.
  intros H1 H2. split; [apply c_usable; lia|]. split; [apply c_separate; auto|]. split; [|intros; eapply ravel_inj; eauto].
  intros I HI. split; [apply c_start; auto|apply ravel_bound; auto].
Qed.
Lemma stacks_all (R : cring) sz : 0 < sz < 2 ^ 64 -> forall a b c : stack R, stack_ok a -> stack_ok b -> stack_ok c ->
  s_shape b = s_shape a -> s_shape c = s_shape a -> b_width (s_basis b) = b_width (s_basis a) -> b_width (s_basis c) = b_width (s_basis a) ->
  0 <= b_depth (s_basis a) -> 0 <= b_depth (s_basis b) -> 0 <= b_depth (s_basis c) ->
  itemwise (s_shape a) (fun I => py_ft_fma (s_at a I) (s_at b I) (s_at c I)) (s_ft_fma sz a b c) /\
  itemwise (s_shape a) (fun I => py_ft_mul (s_at a I) (s_at b I)) (s_ft_mul sz a b) /\
  itemwise (s_shape a) (fun I => py_ft_inplace_mul (s_at a I) (s_at b I)) (s_ft_inplace_mul sz a b) /\
  itemwise (s_shape a) (fun I => py_antipode (s_at a I)) (s_antipode sz a) /\
  itemwise (s_shape a) (fun I => py_st_fma (s_at a I) (s_at b I) (s_at c I)) (s_st_fma sz a b c) /\
  itemwise (s_shape a) (fun I => py_st_mul (s_at a I) (s_at b I)) (s_st_mul sz a b) /\
  itemwise (s_shape a) (fun I => py_ft_adjoint_left_mul (s_at b I) (s_at a I)) (s_ft_adjoint_left_mul sz b a).
Proof.
  intros Hsz a b c Ka Kb Kc Sb Sc Wb Wc Da Db Dc.
  assert (C1 : compat (s_basis a) (s_basis b) = true) by (unfold compat; rewrite Wb; apply Z.eqb_refl).
  assert (C2 : compat (s_basis a) (s_basis c) = true) by (unfold compat; rewrite Wc; apply Z.eqb_refl).
  assert (C3 : compat (s_basis b) (s_basis a) = true) by (unfold compat; rewrite Wb; apply Z.eqb_refl).
  split; [apply stack_ft_fma; auto; rewrite C1, C2; auto|]. split; [apply stack_ft_mul; auto|]. split; [apply stack_ft_inplace_mul; auto|].
  split; [apply stack_antipode; auto|]. split; [apply stack_st_fma; auto; rewrite C1, C2; auto|]. split; [apply stack_st_mul; auto|]. apply stack_adjoint; auto.
Qed.
Lemma stacks_exp_all (R : qalg) sz : 0 < sz < 2 ^ 64 -> forall (a x : stack R) ob, stack_ok a -> stack_ok x ->
  s_shape x = s_shape a -> b_width (s_basis a) = b_width ob -> b_width (s_basis x) = b_width ob -> 0 <= b_depth ob -> (exists n, basis_size ob = Ok n /\ 0 <= n) ->
  itemwise (s_shape x) (fun I => py_ft_exp (s_at x I) ob) (s_ft_exp sz x ob) /\
  itemwise (s_shape x) (fun I => py_ft_log (s_at x I) ob) (s_ft_log sz x ob) /\
  itemwise (s_shape a) (fun I => py_ft_fmexp (s_at a I) (s_at x I) ob) (s_ft_fmexp sz a x ob).
Proof.
  intros Hsz a x ob Ka Kx Sx Wa Wx Db Hn.
  assert (C1 : compat ob (s_basis a) = true) by (unfold compat; rewrite Wa; apply Z.eqb_refl).
  assert (C2 : compat ob (s_basis x) = true) by (unfold compat; rewrite Wx; apply Z.eqb_refl).
  split; [apply stack_ft_exp; auto|]. split; [apply stack_ft_log; auto|]. apply stack_ft_fmexp; auto. rewrite C1, C2. auto.
Qed.
