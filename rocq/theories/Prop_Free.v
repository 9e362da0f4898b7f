(** Property theorems C56 to C59: free tensor objects, as the streams and the Python class FreeTensor use them.
    [run p] makes the calls of the program [p] on numbered objects that are null at first; [srun p] is what
    the objects should be, as tensors: functions from words to coefficients; [covered p]: no call of
    the program falls into one of the cases of C58 (LhSpec.v). *)
From Coq Require Import QArith Qcanon.
From Verif Require Import Outcome Alg Words Mem Series TensorLemmas Shuffle KeyModel KeyProofs LhModel LhSpec LhProofs LhLaws.
Open Scope Z_scope.
Notation zero_all := (fun (_ : Z) (_ : list Z) => r0).
Notation null_all := (fun _ : Z => KNull).
Notation program R req w N ctxs c0 p := (covered R w (Z.to_nat N) req c0 p null_all zero_all) (only parsing).
Notation value R w N p := (srun R w (Z.to_nat N) p zero_all) (only parsing).
Notation kinds R req p := (krun R req p null_all) (only parsing).
Notation exec R req ctxs p e := (run R req ctxs p (start R) = Ok e) (only parsing).
Notation looks R req w N ctxs h t := (shows R w (Z.to_nat N) req ctxs h t) (only parsing).

(** Every covered program runs; afterwards iteration, subscripts, the test for zero and == answer for every object
    as the truncated tensor algebra says, and each object has the storage it was made with. *)
Theorem C56_programs : forall R req w N ctxs c0, setting R req w N ctxs c0 -> forall p, program R req w N ctxs c0 p ->
  exists e, exec R req ctxs p e /\
  (forall x, looks R req w N ctxs (e x) (value R w N p x) /\ h_dense R (e x) = kdense (kinds R req p x) /\ (e x = None <-> kinds R req p x = KNull)) /\
  (forall x y, exists r, h_eqb R req ctxs (e x) (e y) = Ok r /\ (r = true <-> forall u, value R w N p x u = value R w N p y u)).
Proof. exact (fun R req w N ctxs c0 '(conj H1 (conj H2 (conj H3 (conj H4 (conj H5 H6))))) => programs R req H1 H2 w N (ctxs c0) H3 H4 H6 H5 ctxs c0 eq_refl). Qed.
Print Assumptions C56_programs.
(** Storage does not matter. *)
Theorem C56_storage : forall R req w N ctxs c0, setting R req w N ctxs c0 -> forall p p', Forall2 (same_cmd R) p p' -> program R req w N ctxs c0 p -> program R req w N ctxs c0 p' ->
  exists e e', exec R req ctxs p e /\ exec R req ctxs p' e' /\ forall x, exists t, looks R req w N ctxs (e x) t /\ looks R req w N ctxs (e' x) t.
Proof. exact (fun R req w N ctxs c0 '(conj H1 (conj H2 (conj H3 (conj H4 (conj H5 H6))))) => storage R req H1 H2 w N (ctxs c0) H3 H4 H6 H5 ctxs c0 eq_refl). Qed.
Print Assumptions C56_storage.

(** An example over the rationals, width 2, depth 2: a dense and a sparse tensor, product, in-place and fused operations. *)
Definition q (l : list Q) : list Qcqa := map Q2Qc l.
Definition ctx22 (_ : Z) : tbasis := match KeyModel.tensor_basis 2 2 with Ok B => B | _ => mkTB 0 0 (mkbuf 0 (fun _ => 0)) (mkbuf 0 (fun _ => 0)) end.
Definition ex_prog : list (cmd Qcqa) :=
  [New Qcqa 0 0 true None (q [1; 2; 3]%Q); New Qcqa 1 0 false (Some [4; 0; 1]) (q [7; 5; 1 # 2]%Q); Op2 Qcqa 2 Times 0 1; Op2 Qcqa 3 Times 1 0;
   Iop2 Qcqa 2 (SubSmul Qcqa (Q2Qc 3)) 0; Iop2 Qcqa 0 (IMul Qcqa) 2; AddMul Qcqa 1 0 1; Op1 Qcqa 4 (Exp Qcqa) 1; Iop2 Qcqa 1 (IAdd Qcqa) 1].
Definition seen (p : list (cmd Qcqa)) (x : Z) : option (list Z * list Q) :=
  match run Qcqa Qc_eq_bool ctx22 p (start Qcqa) with
  | Ok e => match h_items Qcqa Qc_eq_bool ctx22 (e x) with Ok l => Some (map fst l, map (fun c : Z * Qc => this (snd c)) l) | _ => None end
  | _ => None
  end.
Lemma setting22 : setting Qcqa Qc_eq_bool 2 2 ctx22 0.
Proof.
  split; [intros x y; split; [apply Qc_eq_bool_correct|intros ->; unfold Qc_eq_bool; destruct (Qc_eq_dec y y); congruence]|].
  split; [intros H; apply (f_equal this) in H; discriminate|].
  split; [unfold packs; repeat split; vm_compute; congruence|]. split; [vm_compute; reflexivity|]. split; [lia|]. vm_compute. reflexivity.
Qed.
Example C56_ex : setting Qcqa Qc_eq_bool 2 2 ctx22 0 /\ program Qcqa Qc_eq_bool 2 2 ctx22 0 ex_prog /\
  seen ex_prog 2 = Some ([0; 1; 2; 3; 4; 5; 6], [2; 9 # 2; 6; 1; 7; 3 # 2; 0]%Q) /\
  seen ex_prog 1 = Some ([0; 1; 2; 3; 4; 5; 6], [30; 88; 120; 217 # 2; 232; 162; 180]%Q).
Proof.
  split; [exact setting22|]. split; [|split; vm_compute; reflexivity].
  cbn; repeat split; auto; try (intros; congruence); try (right; congruence); try (right; right; congruence). repeat constructor; vm_compute; congruence.
Qed.

(** The laws of the algebra, as == sees them, after any program and whatever the storage of the operands. *)
Theorem C57_mul_assoc : forall R req w N ctxs c0, setting R req w N ctxs c0 -> forall p x y z a b,
  program R req w N ctxs c0 p -> kinds R req p x <> KNull -> kinds R req p y <> KNull -> kinds R req p z <> KNull -> ~ In a [x; y; z] -> ~ In b [a; x; y; z] ->
  exists e, exec R req ctxs (p ++ [Op2 R a Times x y; Op2 R a Times a z; Op2 R b Times y z; Op2 R b Times x b]) e /\ h_eqb R req ctxs (e a) (e b) = Ok true.
Proof. exact (fun R req w N ctxs c0 '(conj H1 (conj H2 (conj H3 (conj H4 (conj H5 H6))))) => mul_assoc R req H1 H2 w N (ctxs c0) H3 H4 H6 H5 ctxs c0 eq_refl). Qed.
Print Assumptions C57_mul_assoc.
Theorem C57_mul_distributes : forall R req w N ctxs c0, setting R req w N ctxs c0 -> forall p x y z a b,
  program R req w N ctxs c0 p -> kinds R req p x <> KNull -> kinds R req p y <> KNull -> kinds R req p z <> KNull -> may2 Plus (kinds R req p y) (kinds R req p z) -> ~ In a [x; y; z] -> ~ In b [a; x; y; z] ->
  exists e, exec R req ctxs (p ++ [Op2 R a Plus y z; Op2 R a Times x a; Op2 R b Times x y; AddMul R b x z]) e /\ h_eqb R req ctxs (e a) (e b) = Ok true.
Proof. exact (fun R req w N ctxs c0 '(conj H1 (conj H2 (conj H3 (conj H4 (conj H5 H6))))) => mul_distr R req H1 H2 w N (ctxs c0) H3 H4 H6 H5 ctxs c0 eq_refl). Qed.
Print Assumptions C57_mul_distributes.
(** log undoes exp on tensors without constant term, exp undoes log on those with constant term 1. *)
Theorem C57_log_exp : forall R req w N ctxs c0, setting R req w N ctxs c0 -> forall p x a,
  program R req w N ctxs c0 p -> kinds R req p x <> KNull -> value R w N p x [] = r0 -> a <> x ->
  exists e, exec R req ctxs (p ++ [Op1 R a (Exp R) x; Op1 R a (Log R) a]) e /\ h_eqb R req ctxs (e a) (e x) = Ok true.
Proof. exact (fun R req w N ctxs c0 '(conj H1 (conj H2 (conj H3 (conj H4 (conj H5 H6))))) => log_exp R req H1 H2 w N (ctxs c0) H3 H4 H6 H5 ctxs c0 eq_refl). Qed.
Print Assumptions C57_log_exp.
Theorem C57_exp_log : forall R req w N ctxs c0, setting R req w N ctxs c0 -> forall p x a,
  program R req w N ctxs c0 p -> kinds R req p x <> KNull -> value R w N p x [] = r1 -> a <> x ->
  exists e, exec R req ctxs (p ++ [Op1 R a (Log R) x; Op1 R a (Exp R) a]) e /\ h_eqb R req ctxs (e a) (e x) = Ok true.
Proof. exact (fun R req w N ctxs c0 '(conj H1 (conj H2 (conj H3 (conj H4 (conj H5 H6))))) => exp_log R req H1 H2 w N (ctxs c0) H3 H4 H6 H5 ctxs c0 eq_refl). Qed.
Print Assumptions C57_exp_log.
(** x.fmexp(y) is x * exp(y). *)
Theorem C57_fmexp : forall R req w N ctxs c0, setting R req w N ctxs c0 -> forall p x y a b,
  program R req w N ctxs c0 p -> kinds R req p x <> KNull -> kinds R req p y <> KNull -> value R w N p y [] = r0 -> ~ In a [x; y] -> ~ In b [a; x; y] ->
  exists e, exec R req ctxs (p ++ [Op1 R a (Copy R) x; Iop2 R a (Fmexp R) y; Op1 R b (Exp R) y; Op2 R b Times x b]) e /\ h_eqb R req ctxs (e a) (e b) = Ok true.
Proof. exact (fun R req w N ctxs c0 '(conj H1 (conj H2 (conj H3 (conj H4 (conj H5 H6))))) => fmexp_law R req H1 H2 w N (ctxs c0) H3 H4 H6 H5 ctxs c0 eq_refl). Qed.
Print Assumptions C57_fmexp.
(** exp(x) * exp(-x) is one. *)
Theorem C57_exp_inverse : forall R req w N ctxs c0, setting R req w N ctxs c0 -> forall p x a b,
  program R req w N ctxs c0 p -> kinds R req p x <> KNull -> value R w N p x [] = r0 -> a <> x -> ~ In b [a; x] ->
  exists e, exec R req ctxs (p ++ [Op1 R a (Exp R) x; Op1 R b (Neg R) x; Op1 R b (Exp R) b; Op2 R a Times a b]) e /\ looks R req w N ctxs (e a) tone.
Proof. exact (fun R req w N ctxs c0 '(conj H1 (conj H2 (conj H3 (conj H4 (conj H5 H6))))) => exp_inverse R req H1 H2 w N (ctxs c0) H3 H4 H6 H5 ctxs c0 eq_refl). Qed.
Print Assumptions C57_exp_inverse.
Definition ex_two : list (cmd Qcqa) := [New Qcqa 0 0 true None (q [0; 2; 3]%Q); New Qcqa 1 0 false (Some [4; 0; 1]) (q [7; 1; 1 # 2]%Q); New Qcqa 2 0 true None (q [0; 1]%Q)].
Example C57_ex : program Qcqa Qc_eq_bool 2 2 ctx22 0 ex_two /\ kinds Qcqa Qc_eq_bool ex_two 0 = KDense /\ kinds Qcqa Qc_eq_bool ex_two 1 = KSparse /\
  value Qcqa 2 2 ex_two 0 [] = r0 /\ value Qcqa 2 2 ex_two 1 [] = r1 /\
  seen (ex_two ++ [Op1 Qcqa 3 (Exp Qcqa) 0; Op2 Qcqa 3 Times 1 3]) 3 = Some ([0; 1; 2; 3; 4; 5; 6], [1; 5 # 2; 3; 3; 23 # 2; 3; 9 # 2]%Q).
Proof.
  split; [cbn; repeat split; auto; try congruence; repeat constructor; vm_compute; congruence|].
  split; [reflexivity|]. split; [reflexivity|]. split; [vm_compute; reflexivity|]. split; [|vm_compute; reflexivity].
  cbn. apply Qc_is_canon. vm_compute. reflexivity.
Qed.

(** The antipode reverses words and changes the sign of those of odd length (C56); it undoes itself, reverses products,
    commutes with exp, and inverts group-like tensors. *)
Theorem C59_antipode_twice : forall R req w N ctxs c0, setting R req w N ctxs c0 -> forall p x a,
  program R req w N ctxs c0 p -> may1 R w (Z.to_nat N) (Antipode R) (kinds R req p x) (value R w N p x) -> a <> x ->
  exists e, exec R req ctxs (p ++ [Op1 R a (Antipode R) x; Op1 R a (Antipode R) a]) e /\ h_eqb R req ctxs (e a) (e x) = Ok true.
Proof. exact (fun R req w N ctxs c0 '(conj H1 (conj H2 (conj H3 (conj H4 (conj H5 H6))))) => antipode_twice R req H1 H2 w N (ctxs c0) H3 H4 H6 H5 ctxs c0 eq_refl). Qed.
Print Assumptions C59_antipode_twice.
Theorem C59_antipode_mul : forall R req w N ctxs c0, setting R req w N ctxs c0 -> forall p x y a b c,
  ~ In a [x; y] -> ~ In b [a; x; y] -> ~ In c [b; a; x; y] ->
  let q := [Op2 R a Times x y; Op1 R a (Antipode R) a; Op1 R b (Antipode R) y; Op1 R c (Antipode R) x; Op2 R b Times b c] in
  program R req w N ctxs c0 (p ++ q) -> exists e, exec R req ctxs (p ++ q) e /\ h_eqb R req ctxs (e a) (e b) = Ok true.
Proof. exact (fun R req w N ctxs c0 '(conj H1 (conj H2 (conj H3 (conj H4 (conj H5 H6))))) => antipode_mul R req H1 H2 w N (ctxs c0) H3 H4 H6 H5 ctxs c0 eq_refl). Qed.
Print Assumptions C59_antipode_mul.
Theorem C59_antipode_exp : forall R req w N ctxs c0, setting R req w N ctxs c0 -> forall p x a b, a <> x -> ~ In b [a; x] ->
  let q := [Op1 R a (Exp R) x; Op1 R a (Antipode R) a; Op1 R b (Antipode R) x; Op1 R b (Exp R) b] in
  program R req w N ctxs c0 (p ++ q) -> exists e, exec R req ctxs (p ++ q) e /\ h_eqb R req ctxs (e a) (e b) = Ok true.
Proof. exact (fun R req w N ctxs c0 '(conj H1 (conj H2 (conj H3 (conj H4 (conj H5 H6))))) => antipode_exp R req H1 H2 w N (ctxs c0) H3 H4 H6 H5 ctxs c0 eq_refl). Qed.
Print Assumptions C59_antipode_exp.
Theorem C59_antipode_inverse : forall R req w N ctxs c0, setting R req w N ctxs c0 -> forall p x a b c,
  program R req w N ctxs c0 p -> kinds R req p x <> KNull -> (w < 2 ^ 16 \/ N <= 2) -> grouplike (Z.to_nat N) (value R w N p x) -> a <> x -> ~ In b [a; x] -> ~ In c [b; a; x] ->
  exists e, exec R req ctxs (p ++ [Op1 R a (Antipode R) x; Op2 R b Times a x; Op2 R c Times x a]) e /\ looks R req w N ctxs (e b) tone /\ looks R req w N ctxs (e c) tone.
Proof. exact (fun R req w N ctxs c0 '(conj H1 (conj H2 (conj H3 (conj H4 (conj H5 H6))))) => antipode_inverse R req H1 H2 w N (ctxs c0) H3 H4 H6 H5 ctxs c0 eq_refl). Qed.
Print Assumptions C59_antipode_inverse.
(** The antipode of a dense tensor without data, such as a fresh zero, is undefined behaviour. *)
Theorem C59_antipode_empty_refuted : forall R req w N ctxs c0, setting R req w N ctxs c0 -> forall p x z,
  program R req w N ctxs c0 p -> kdense (kinds R req p x) = true ->
  exists e, exec R req ctxs p e /\ (h_dimension R (e x) = 0 -> run R req ctxs (p ++ [Op1 R z (Antipode R) x]) (start R) = UB).
Proof. exact (fun R req w N ctxs c0 '(conj H1 (conj H2 (conj H3 (conj H4 (conj H5 H6))))) => antipode_empty R req H1 H2 w N (ctxs c0) H3 H4 H6 H5 ctxs c0 eq_refl). Qed.
Print Assumptions C59_antipode_empty_refuted.
Definition ex_anti : list (cmd Qcqa) :=
  [Op2 Qcqa 3 Times 0 1; Op1 Qcqa 3 (Antipode Qcqa) 3; Op1 Qcqa 4 (Antipode Qcqa) 1; Op1 Qcqa 5 (Antipode Qcqa) 0; Op2 Qcqa 4 Times 4 5].
Definition ex_glike : list (cmd Qcqa) := [New Qcqa 0 0 true None (q [0; 2; 3]%Q); Op1 Qcqa 1 (Exp Qcqa) 0].
Example C59_ex : program Qcqa Qc_eq_bool 2 2 ctx22 0 (ex_two ++ ex_anti) /\ seen (ex_two ++ ex_anti) 3 = Some ([0; 1; 2; 3; 4; 5; 6], [0; - (2); - (3); 1; 3 # 2; 0; 0]%Q) /\
  grouplike 2 (value Qcqa 2 2 ex_glike 1) /\ seen (ex_glike ++ [Op1 Qcqa 2 (Antipode Qcqa) 1]) 2 = Some ([0; 1; 2; 3; 4; 5; 6], [1; - (2); - (3); 2; 3; 3; 9 # 2]%Q) /\
  h_dimension Qcqa (match run Qcqa Qc_eq_bool ctx22 [New Qcqa 0 0 true None []] (start Qcqa) with Ok e => e 0 | _ => None end) = 0 /\
  run Qcqa Qc_eq_bool ctx22 [New Qcqa 0 0 true None []; Op1 Qcqa 1 (Antipode Qcqa) 0] (start Qcqa) = UB.
Proof.
  split; [|split; [vm_compute; reflexivity|split; [|split; [vm_compute; reflexivity|split; vm_compute; reflexivity]]]].
  - assert (nz : forall x : Qc, Qc_eq_bool x (Q2Qc 0) = false -> x <> Q2Qc 0) by (intros x H ->; vm_compute in H; discriminate).
    unfold ex_two, ex_anti. cbn [app covered]. split; [split; [reflexivity|exact I]|]. split; [split; [reflexivity|split; [reflexivity|repeat constructor; vm_compute; congruence]]|]. split; [split; [reflexivity|exact I]|].
    split; [split; discriminate|]. split; [intros _; split; [exists [0]; apply nz; vm_compute; reflexivity|left; lia]|]. split; [intros X; discriminate X|].
    split; [intros _; split; [exists [0]; apply nz; vm_compute; reflexivity|left; lia]|]. split; [split; discriminate|exact I].
  - apply (grouplike_exp_tr Qcqa 2 2); [lia|..].
    + intros u Hu. cbn. unfold trunc. change (Z.to_nat 2) with 2%nat in *. rewrite Hu. reflexivity.
    + apply primitive_letters. intros u Hu. change (trunc Qcqa 2 2 (fun u => given Qcqa 2 2 None (q [0; 2; 3]%Q) (pos 2 u)) u = r0). unfold trunc. destruct (inside 2 2 u) eqn:E; [|reflexivity].
      apply inside_iff in E. destruct u as [|a [|b [|c u]]]; [vm_compute; reflexivity|cbn in Hu; lia| |cbn in E; lia].
      cbn [given]. rewrite nth_overflow; [reflexivity|]. destruct E as [E _]. inversion E as [|? ? A1 E1]. inversion E1 as [|? ? A2 E2]. unfold pos. cbn [length idx words_below] in *. cbn [q map length]. lia.
Qed.

(** The cases left out. A product with a null object on the right is the left factor, not zero. *)
Theorem C58_mul_null_refuted : forall R req w N ctxs c0, setting R req w N ctxs c0 -> forall p x y z,
  program R req w N ctxs c0 p -> kinds R req p y = KNull -> ~ (forall u, value R w N p x u = r0) ->
  exists e, exec R req ctxs (p ++ [Op2 R z Times x y]) e /\ h_is_zero R req (e z) = false /\ (x <> z -> h_eqb R req ctxs (e z) (e x) = Ok true).
Proof. exact (fun R req w N ctxs c0 '(conj H1 (conj H2 (conj H3 (conj H4 (conj H5 H6))))) => mul_null R req H1 H2 w N (ctxs c0) H3 H4 H6 H5 ctxs c0 eq_refl). Qed.
Print Assumptions C58_mul_null_refuted.
(** The exponential of a null object is null, not one. *)
Theorem C58_exp_null_refuted : forall R req w N ctxs c0, setting R req w N ctxs c0 -> forall p x z,
  program R req w N ctxs c0 p -> kinds R req p x = KNull ->
  exists e, exec R req ctxs (p ++ [Op1 R z (Exp R) x]) e /\ h_is_zero R req (e z) = true /\ trunc R w (Z.to_nat N) (texp (Z.to_nat N) (value R w N p x)) [] = r1.
Proof. exact (fun R req w N ctxs c0 '(conj H1 (conj H2 (conj H3 (conj H4 (conj H5 H6))))) => exp_null R req H1 H2 w N (ctxs c0) H3 H4 H6 H5 ctxs c0 eq_refl). Qed.
Print Assumptions C58_exp_null_refuted.
(** A null object on the left of another: undefined behaviour. *)
Theorem C58_null_left_refuted : forall R req w N ctxs c0, setting R req w N ctxs c0 -> forall p x y,
  program R req w N ctxs c0 p -> kinds R req p x = KNull -> kinds R req p y <> KNull ->
  (forall z o, run R req ctxs (p ++ [Op2 R z o x y]) (start R) = UB) /\
  (forall o, In o [IAdd R; ISub R; IMul R] -> run R req ctxs (p ++ [Iop2 R x o y]) (start R) = UB) /\
  (forall s, s <> r0 -> forall o, In o [AddSmul R s; SubSmul R s; MulSmul R s] -> run R req ctxs (p ++ [Iop2 R x o y]) (start R) = UB).
Proof. exact (fun R req w N ctxs c0 '(conj H1 (conj H2 (conj H3 (conj H4 (conj H5 H6))))) => null_left R req H1 H2 w N (ctxs c0) H3 H4 H6 H5 ctxs c0 eq_refl). Qed.
Print Assumptions C58_null_left_refuted.
(** x -= x is undefined behaviour for every sparse tensor other than zero. *)
Theorem C58_self_subtraction_refuted : forall R req w N ctxs c0, setting R req w N ctxs c0 -> forall p x,
  program R req w N ctxs c0 p -> kinds R req p x = KSparse -> ~ (forall u, value R w N p x u = r0) -> run R req ctxs (p ++ [Iop2 R x (ISub R) x]) (start R) = UB.
Proof. exact (fun R req w N ctxs c0 '(conj H1 (conj H2 (conj H3 (conj H4 (conj H5 H6))))) => self_sub R req H1 H2 w N (ctxs c0) H3 H4 H6 H5 ctxs c0 eq_refl). Qed.
Print Assumptions C58_self_subtraction_refuted.
(** Reading a coefficient of a dense tensor past the end of its data is undefined behaviour, though the coefficient is zero. *)
Theorem C58_subscript_refuted : forall R req w N ctxs c0, setting R req w N ctxs c0 -> forall p x u,
  program R req w N ctxs c0 p -> kdense (kinds R req p x) = true -> inside w (Z.to_nat N) u = true ->
  exists e, exec R req ctxs p e /\ (h_dimension R (e x) <= pos w u -> h_get R req ctxs (e x) (pos w u) = UB).
Proof. exact (fun R req w N ctxs c0 '(conj H1 (conj H2 (conj H3 (conj H4 (conj H5 H6))))) => get_past R req H1 H2 w N (ctxs c0) H3 H4 H6 H5 ctxs c0 eq_refl). Qed.
Print Assumptions C58_subscript_refuted.
(** In Python [x / s] multiplies by s if s is a Scalar object; with a float or an int, and in place, it divides. *)
Theorem C58_division_refuted : forall R req w N ctxs c0, setting R req w N ctxs c0 -> forall p x s i,
  program R req w N ctxs c0 p -> rmul s i = r1 -> exists e, exec R req ctxs p e /\
  (exists h, py_truediv R req ctxs (e x) PyScalar s i = Ok h /\ looks R req w N ctxs h (fun u => rmul (value R w N p x u) s)) /\
  (forall k, k <> PyScalar -> exists h, py_truediv R req ctxs (e x) k s i = Ok h /\ looks R req w N ctxs h (fun u => rmul (value R w N p x u) i)) /\
  (forall k, exists h, py_itruediv R req ctxs (e x) k s i = Ok h /\ looks R req w N ctxs h (fun u => rmul (value R w N p x u) i)).
Proof. exact (fun R req w N ctxs c0 '(conj H1 (conj H2 (conj H3 (conj H4 (conj H5 H6))))) => truediv R req H1 H2 w N (ctxs c0) H3 H4 H6 H5 ctxs c0 eq_refl). Qed.
Print Assumptions C58_division_refuted.
(** Division by zero is reported as an error. *)
Theorem C58_division_by_zero : forall R req w N ctxs c0, setting R req w N ctxs c0 -> forall p x y,
  program R req w N ctxs c0 p -> kinds R req p x <> KNull ->
  (forall z i, run R req ctxs (p ++ [Op1 R z (Sdiv R r0 i) x]) (start R) = Throw) /\ (forall i, run R req ctxs (p ++ [Iop1 R x (ISdiv R r0 i)]) (start R) = Throw) /\
  (kinds R req p y <> KNull -> forall i o, In o [AddSdiv R r0 i; SubSdiv R r0 i; MulSdiv R r0 i] -> run R req ctxs (p ++ [Iop2 R x o y]) (start R) = Throw).
Proof. exact (fun R req w N ctxs c0 '(conj H1 (conj H2 (conj H3 (conj H4 (conj H5 H6))))) => div_zero R req H1 H2 w N (ctxs c0) H3 H4 H6 H5 ctxs c0 eq_refl). Qed.
Print Assumptions C58_division_by_zero.
(** Objects of two contexts are not combined; == is an error if the contexts have the same width, false otherwise. *)
Theorem C58_two_contexts : forall R req ctxs (e : env R) x y a b, e x = Some a -> e y = Some b -> im_ctx R a <> im_ctx R b ->
  (forall z o, step R req ctxs (Op2 R z o x y) e = Throw) /\
  (forall o, In o [IAdd R; ISub R; IMul R; Fmexp R] -> step R req ctxs (Iop2 R x o y) e = Throw) /\
  h_eqb R req ctxs (e x) (e y) = if tb_width (ctxs (im_ctx R a)) =? tb_width (ctxs (im_ctx R b)) then Throw else Ok false.
Proof. exact two_contexts. Qed.
Print Assumptions C58_two_contexts.
(** A dense tensor cleared by an in-place product keeps its degree; a sum then claims more data than it has,
    and a product reads past the end. Products in a context of depth 0 read past the table of powers. *)
Definition stale : list (cmd Qcqa) := [New Qcqa 0 0 true None (q [1; 2; 3; 4]%Q); New Qcqa 1 0 true None []; Iop2 Qcqa 0 (IMul Qcqa) 1; New Qcqa 2 0 true None (q [1; 1; 1]%Q); Op2 Qcqa 3 Plus 0 2].
Theorem C58_stale_degree_refuted : seen stale 3 = Some ([0; 1; 2], [1; 1; 1]%Q) /\ run Qcqa Qc_eq_bool ctx22 (stale ++ [Op2 Qcqa 4 Times 3 3]) (start Qcqa) = UB.
Proof. split; vm_compute; reflexivity. Qed.
Print Assumptions C58_stale_degree_refuted.
Theorem C58_depth_zero_refuted : (let! B := KeyModel.tensor_basis 2 0 in run Qcqa Qc_eq_bool (fun _ => B) [New Qcqa 0 0 true None (q [1]%Q); Op2 Qcqa 1 Times 0 0] (start Qcqa)) = UB.
Proof. vm_compute. reflexivity. Qed.
Print Assumptions C58_depth_zero_refuted.
