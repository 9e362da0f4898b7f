(** Property theorems C65, C66, C67: programs over Lie objects and tensor objects.
    [lie_run ck p] makes the calls of the program [p] on numbered objects, none of which exist at first, with the caches
    of brackets, expansions and projections that the process keeps; arithmetic on the integer coefficients in these caches
    is [ck]: exact ([Ok]) or 32-bit with overflow undefined ([int32]).  [vrun p] is what the objects should be, all read as
    functions from words to coefficients: a Lie object is a combination of iterated commutators of letters, the bracket is
    the commutator, signatures are products of exponentials, and so on (LieObjSpec.v).  [vcovered p]: every context made
    use of exists, operands exist and are of the algebra asked for and usable there, and no call falls into a case of
    the [_refuted] theorems. *)
From Coq Require Import QArith Qcanon.
From Verif Require Import Outcome Alg Words WordSums Mem Series TensorLemmas Shuffle KeyModel KeyProofs KeyProofs2 LhModel LhSpec LieObjModel LieObjSpec LieObj LieSim LieObjLaws LieObjEx.
Open Scope Z_scope.
Notation equality R req := (forall x y : car (qr R), req x y = true <-> x = y) (only parsing).
Notation nontrivial R := (@r1 (qr R) <> r0) (only parsing).
Notation covered65 R width depth dims trees ctxs p := (vcovered R width depth dims trees (lie_context width depth dims trees ctxs) p (vstart R)) (only parsing).
Notation result R width depth dims trees p := (vrun R width depth dims trees p (vstart R)) (only parsing).
Notation int32 := LieObjModel.i32.
Notation New := (LNew Qcqa). Notation Lin2 := (LLin2 Qcqa). Notation Times := (LTimes Qcqa). Notation Exp := (LExp Qcqa). Notation Log := (LLog Qcqa).
Notation ToTensor := (LToTensor Qcqa). Notation ToLie := (LToLie Qcqa). Notation Cbh := (LCbh Qcqa). Notation Cbh2 := (LCbh2 Qcqa). Notation Sig := (LSig Qcqa). Notation LogSig := (LLogSig Qcqa). Notation Deriv := (LDeriv Qcqa).

(** Contexts exist, any number of them together, for all widths and depths whose keys fit in 64 bits. *)
Theorem C65_contexts : forall width depth, (forall c : Z, packs (width c) (depth c) /\ sized (width c) (depth c) /\ 1 <= depth c) ->
  exists dims trees ctxs, forall c, lie_context width depth dims trees ctxs c.
Proof. exact contexts_exist. Qed.
Print Assumptions C65_contexts.

(** Every covered program runs, with any number of contexts; afterwards iteration, subscripts and == answer for every
    object as the algebra says, whatever was computed (and cached) before. *)
Theorem C65_programs : forall R req, equality R req -> nontrivial R -> forall width depth dims trees ctxs p, covered65 R width depth dims trees ctxs p ->
  exists e cs, lie_run R req Ok ctxs p (lie_start R) = Ok (e, cs) /\
  (forall x, match e x, result R width depth dims trees p x with
     | Some o, Some v => vsees R width depth dims trees req ctxs o v | None, None => True | _, _ => False end) /\
  (forall x y o o' v v', e x = Some o -> e y = Some o' -> result R width depth dims trees p x = Some v -> result R width depth dims trees p y = Some v' -> v_ctx R v = v_ctx R v' -> v_lie R v = v_lie R v' ->
     exists r cs', obj_eqb R req Ok ctxs o o' cs = Ok (r, cs') /\ (r = true <-> forall u, v_val R v u = v_val R v' u)).
Proof. exact programs. Qed.
Print Assumptions C65_programs.
(** With 32-bit coefficients in the caches, any program whatsoever runs into an overflow or does the same. *)
Theorem C65_int32 : forall R req ctxs p st, lie_run R req int32 ctxs p st = UB \/ lie_run R req int32 ctxs p st = lie_run R req Ok ctxs p st.
Proof. exact (run_sim int32 i32_sim). Qed.
Print Assumptions C65_int32.

(** Contexts of the examples: 0 (width 2, depth 2), 1 (width 2, depth 3), 2 (width 3, depth 2), 3 (width 2, depth 4).
    Brackets of dense and sparse operands, an iterated bracket, conversions between contexts, exponential and logarithm. *)
Definition prog65 : list (lcmd Qcqa) :=
  [New 0 1 true true None (q [1; 2; 0]%Q); New 1 1 true false (Some [1; 2; 4]) (q [3; 1 # 2; 1]%Q); Times 2 0 1; Times 3 1 2; ToTensor 4 1 3; ToLie 5 1 4;
   ToTensor 6 0 0; New 7 0 true false (Some [2; 0]) (q [5; 1]%Q); ToTensor 8 1 7; Exp 9 8; Log 10 9; ToLie 11 1 10; Lin2 12 LSub 11 0].
Ltac covers := apply covered65_by; vm_compute; reflexivity.
Example C65_ex : covered65 Qcqa widths depths dims65 trees65 ctx65 prog65 /\
  seen65 int32 prog65 2 = Ok (Some ([0; 1; 2; 3; 4], [0; 0; 3; 1 # 2; 1]%Q)) /\ seen65 int32 prog65 3 = Ok (Some ([4], [9]%Q)) /\
  seen65 int32 prog65 4 = Ok (Some ([10; 12; 13], [-9; 18; -9]%Q)) /\ seen65 int32 prog65 5 = Ok (Some ([4], [9]%Q)) /\
  seen65 int32 prog65 6 = Ok (Some ([0; 1; 2; 3; 4; 5; 6], [0; 1; 2; 0; 0; 0; 0]%Q)) /\
  seen65 int32 prog65 9 = Ok (Some ([0; 1; 3; 4; 5; 7; 8; 11], [1; 1; 1 # 2; 5; -5; 1 # 6; 5 # 2; -5 # 2]%Q)) /\
  seen65 int32 prog65 11 = Ok (Some ([0; 2], [1; 5]%Q)) /\ seen65 int32 prog65 12 = Ok (Some ([1; 2], [-2; 5]%Q)).
Proof.
  split; [covers|repeat (split; [vm_compute; reflexivity|]); vm_compute; reflexivity].
Qed.

(** The laws of a Lie algebra, as == sees them, after any program and whatever the storage. *)
Theorem C65_antisymmetric : forall R req, equality R req -> nontrivial R -> forall width depth dims trees ctxs p x y a b tx,
  result R width depth dims trees p x = Some tx -> v_lie R tx = true -> ~ In a [x; y] -> ~ In b [a; x; y] ->
  let q := [LTimes R a x y; LTimes R b y x; LLin R b (LNeg R) b] in covered65 R width depth dims trees ctxs (p ++ q) -> lagree R req ctxs (p ++ q) a b.
Proof. exact bracket_anti. Qed.
Print Assumptions C65_antisymmetric.
Theorem C65_jacobi : forall R req, equality R req -> nontrivial R -> forall width depth dims trees ctxs p x y z a b c tx,
  result R width depth dims trees p x = Some tx -> v_lie R tx = true -> ~ In a [x; y; z] -> ~ In b [a; x; y; z] -> ~ In c [b; a; x; y; z] ->
  let q := [LTimes R a y z; LTimes R a x a; LTimes R b x y; LTimes R b b z; LTimes R c x z; LTimes R c c y; LLin2 R b LSub b c] in
  covered65 R width depth dims trees ctxs (p ++ q) -> lagree R req ctxs (p ++ q) a b.
Proof. exact bracket_jacobi. Qed.
Print Assumptions C65_jacobi.
Theorem C65_additive : forall R req, equality R req -> nontrivial R -> forall width depth dims trees ctxs p x y z a b c tx,
  result R width depth dims trees p x = Some tx -> v_lie R tx = true -> ~ In a [x; y; z] -> ~ In b [a; x; y; z] -> ~ In c [b; a; x; y; z] ->
  let q := [LLin2 R a LAdd y z; LTimes R a x a; LTimes R b x y; LTimes R c x z; LLin2 R b LAdd b c] in
  covered65 R width depth dims trees ctxs (p ++ q) -> lagree R req ctxs (p ++ q) a b.
Proof. exact bracket_add. Qed.
Print Assumptions C65_additive.
Theorem C65_homogeneous : forall R req, equality R req -> nontrivial R -> forall width depth dims trees ctxs p x y s a b tx,
  result R width depth dims trees p x = Some tx -> v_lie R tx = true -> ~ In a [x; y] -> ~ In b [a; x; y] ->
  let q := [LLin R a (LSmul R s) y; LTimes R a x a; LTimes R b x y; LLin R b (LSmul R s) b] in
  covered65 R width depth dims trees ctxs (p ++ q) -> lagree R req ctxs (p ++ q) a b.
Proof. exact bracket_smul. Qed.
Print Assumptions C65_homogeneous.
(** Converting to a tensor and back gives the Lie element; the bracket becomes the commutator. *)
Theorem C65_round_trip : forall R req, equality R req -> nontrivial R -> forall width depth dims trees ctxs p x a b tx,
  result R width depth dims trees p x = Some tx -> v_lie R tx = true -> a <> x -> b <> x ->
  let q := [LToTensor R a (v_ctx R tx) x; LToLie R b (v_ctx R tx) a] in covered65 R width depth dims trees ctxs (p ++ q) -> lagree R req ctxs (p ++ q) b x.
Proof. exact to_tensor_to_lie. Qed.
Print Assumptions C65_round_trip.
Theorem C65_commutator : forall R req, equality R req -> nontrivial R -> forall width depth dims trees ctxs p x y a b d e tx,
  let c := v_ctx R tx in result R width depth dims trees p x = Some tx -> v_lie R tx = true -> ~ In a [x; y] -> ~ In b [a; x; y] -> ~ In d [b; a; x; y] -> ~ In e [d; b; a; x; y] ->
  let q := [LTimes R a x y; LToTensor R a c a; LToTensor R b c x; LToTensor R d c y; LTimes R e b d; LTimes R b d b; LLin2 R e LSub e b] in
  covered65 R width depth dims trees ctxs (p ++ q) -> lagree R req ctxs (p ++ q) a e.
Proof. exact bracket_commutator. Qed.
Print Assumptions C65_commutator.
(** The hypotheses of the laws at work: two dense operands and a sparse one. *)
Definition start65 : list (lcmd Qcqa) := [New 0 1 true true None (q [1; 2; 0]%Q); New 1 1 true false (Some [1; 2; 4]) (q [3; 1 # 2; 1]%Q); New 2 1 true true None (q [1; 0; 1 # 3]%Q)].
Definition jac65 : list (lcmd Qcqa) := start65 ++ [Times 20 1 2; Times 20 0 20; Times 21 0 1; Times 21 21 2; Times 22 0 2; Times 22 22 1; Lin2 21 LSub 21 22].
Example C65_jacobi_ex : covered65 Qcqa widths depths dims65 trees65 ctx65 jac65 /\ lagree Qcqa Qc_eq_bool ctx65 jac65 20 21.
Proof.
  assert (C : covered65 Qcqa widths depths dims65 trees65 ctx65 jac65) by covers.
  split; [exact C|]. refine (C65_jacobi Qcqa Qc_eq_bool _ _ widths depths dims65 trees65 ctx65 start65 0 1 2 20 21 22 _ eq_refl eq_refl _ _ _ C); try (cbn; lia).
  - split; [apply Qc_eq_bool_correct|intros ->; unfold Qc_eq_bool; destruct (Qc_eq_dec y y); congruence].
  - discriminate.
Qed.
(** Conversion between contexts of different widths raises an exception. *)
Theorem C65_to_tensor_width : forall R req, equality R req -> nontrivial R -> forall width depth dims trees ctxs p x c y a, covered65 R width depth dims trees ctxs p -> lie_context width depth dims trees ctxs c ->
  result R width depth dims trees p y = Some a -> v_lie R a = true -> width (v_ctx R a) <> width c -> lie_run R req Ok ctxs (p ++ [LToTensor R x c y]) (lie_start R) = Throw.
Proof. exact to_tensor_width. Qed.
Print Assumptions C65_to_tensor_width.
Theorem C65_to_lie_width : forall R req, equality R req -> nontrivial R -> forall width depth dims trees ctxs p x c y a, covered65 R width depth dims trees ctxs p -> lie_context width depth dims trees ctxs c ->
  result R width depth dims trees p y = Some a -> v_lie R a = false -> width (v_ctx R a) <> width c -> lie_run R req Ok ctxs (p ++ [LToLie R x c y]) (lie_start R) = Throw.
Proof. exact to_lie_width. Qed.
Print Assumptions C65_to_lie_width.
Example C65_width_ex : seen65 int32 (prog65 ++ [ToTensor 20 2 0]) 20 = Throw /\ seen65 int32 (prog65 ++ [ToLie 20 2 4]) 20 = Throw.
Proof. split; vm_compute; reflexivity. Qed.
(** A sparse Lie object converted to a context of smaller depth: its brackets of greater degree are not dropped
    but remain, with keys that this context does not have. *)
Definition shallow65 : list (lcmd Qcqa) := [New 0 1 true false (Some [3]) (q [1]%Q); ToTensor 1 0 0].
Theorem C65_shallow_refuted : covered65 Qcqa widths depths dims65 trees65 ctx65 [New 0 1 true false (Some [3]) (q [1]%Q)] /\
  seen65 int32 shallow65 1 = Ok (Some ([8; 9; 11], [1; -2; 1]%Q)) /\ words_below (widths 0) (S (Z.to_nat (depths 0))) = 7.
Proof. split; [covers|split; vm_compute; reflexivity]. Qed.
Print Assumptions C65_shallow_refuted.

(** ** C66 *)
(** Rows of a stream's data, dense and sparse; signatures, log signatures, Campbell-Baker-Hausdorff products (one with
    operands of another context), derivatives. *)
Definition rows66 : list (option (list Z) * list Qcqa) := [(None, q [1; 2]%Q); (Some [1; 2], q [3; 1 # 2]%Q); (None, q [-1; 0; 0; 1]%Q)].
Definition prog66 : list (lcmd Qcqa) :=
  [Sig 0 1 true rows66; LogSig 1 1 false rows66; LogSig 2 0 true rows66; New 3 1 true true None (q [1; 2]%Q); New 4 0 true false (Some [1; 2]) (q [3; 1 # 2]%Q); New 5 1 true false (Some [0; 3]) (q [-1; 1]%Q);
   Cbh 6 1 [3; 4; 5] false; Cbh2 7 1 3 4; Deriv 8 1 true [(3, 3)]; Deriv 9 1 false [(5, 4)]].
Example C66_ex : covered65 Qcqa widths depths dims65 trees65 ctx65 prog66 /\
  seen65 int32 prog66 0 = Ok (Some ([0; 1; 2; 3; 4; 5; 6; 7; 8; 9; 10; 11; 12; 13; 14], [1; 0; 5; 0; 9 # 2; -9 # 2; 25 # 2; 0; 10 # 3; -20 # 3; 107 # 12; 10 # 3; 14 # 3; -163 # 12; 125 # 6]%Q)) /\
  seen65 int32 prog66 1 = Ok (Some ([1; 2; 3; 4], [5; 9 # 2; 10 # 3; 7 # 3]%Q)) /\ seen65 int32 prog66 2 = Ok (Some ([0; 1; 2], [0; 5; 9 # 2]%Q)) /\
  seen65 int32 prog66 6 = Ok (Some ([1; 2; 3; 4], [5; 9 # 2; 10 # 3; 7 # 3]%Q)) /\ seen65 int32 prog66 7 = Ok (Some ([0; 1; 2; 3; 4], [1; 5; 2; 1 # 2; 1 # 4]%Q)) /\
  seen65 int32 prog66 8 = Ok (Some ([0; 1; 2; 3; 4; 5; 6; 7; 8; 9; 10; 11; 12; 13; 14], [0; 1; 2; 1; 2; 2; 4; 1 # 2; 1; 1; 2; 1; 2; 2; 4]%Q)) /\
  seen65 int32 prog66 9 = Ok (Some ([2; 4; 5; 8; 9; 11], [3; -1; -2; 1 # 4; 1 # 2; 3 # 4]%Q)).
Proof.
  split; [covers|repeat (split; [vm_compute; reflexivity|]); vm_compute; reflexivity].
Qed.
(** Chen: the signature over joined data is the product of the signatures, whatever the storages asked for. *)
Theorem C66_chen : forall R req, equality R req -> nontrivial R -> forall width depth dims trees ctxs p a b c d1 d2 d3 rows1 rows2, a <> b ->
  let q := [LSig R a c d1 rows1; LSig R b c d2 rows2; LTimes R a a b; LSig R b c d3 (rows1 ++ rows2)] in
  covered65 R width depth dims trees ctxs (p ++ q) -> lagree R req ctxs (p ++ q) a b.
Proof. exact signature_app. Qed.
Print Assumptions C66_chen.
(** The log signature is the logarithm of the signature, as a Lie element. *)
Theorem C66_log_signature : forall R req, equality R req -> nontrivial R -> forall width depth dims trees ctxs p a b c d d' rows, a <> b ->
  let q := [LLogSig R a c d rows; LSig R b c d' rows; LLog R b b; LToLie R b c b] in
  covered65 R width depth dims trees ctxs (p ++ q) -> lagree R req ctxs (p ++ q) a b.
Proof. exact log_signature_is_log. Qed.
Print Assumptions C66_log_signature.
(** The log signature over joined data is the Campbell-Baker-Hausdorff product of the log signatures. *)
Theorem C66_log_signature_cbh : forall R req, equality R req -> nontrivial R -> forall width depth dims trees ctxs p a b e c d1 d2 d3 d4 rows1 rows2, a <> b -> e <> a -> e <> b ->
  let q := [LLogSig R a c d1 (rows1 ++ rows2); LLogSig R b c d2 rows1; LLogSig R e c d3 rows2; LCbh R b c [b; e] d4] in
  covered65 R width depth dims trees ctxs (p ++ q) -> lagree R req ctxs (p ++ q) a b.
Proof. exact log_signature_app. Qed.
Print Assumptions C66_log_signature_cbh.
(** The two ways to ask for the Campbell-Baker-Hausdorff product agree; it is associative; the negative is the inverse. *)
Theorem C66_cbh_two : forall R req, equality R req -> nontrivial R -> forall width depth dims trees ctxs p x y a b c d tx,
  result R width depth dims trees p x = Some tx -> ~ In a [x; y] -> ~ In b [a; x; y] ->
  let q := [LCbh2 R a c x y; LCbh R b c [x; y] d] in covered65 R width depth dims trees ctxs (p ++ q) -> lagree R req ctxs (p ++ q) a b.
Proof. exact cbh_two. Qed.
Print Assumptions C66_cbh_two.
Theorem C66_cbh_associative : forall R req, equality R req -> nontrivial R -> forall width depth dims trees ctxs p x y z a b c tx ty tz,
  result R width depth dims trees p x = Some tx -> result R width depth dims trees p y = Some ty -> result R width depth dims trees p z = Some tz -> ~ In a [x; y; z] -> ~ In b [a; x; y; z] ->
  let q := [LCbh2 R a c x y; LCbh2 R a c a z; LCbh2 R b c y z; LCbh2 R b c x b] in covered65 R width depth dims trees ctxs (p ++ q) -> lagree R req ctxs (p ++ q) a b.
Proof. exact cbh_assoc. Qed.
Print Assumptions C66_cbh_associative.
Theorem C66_cbh_inverse : forall R req, equality R req -> nontrivial R -> forall width depth dims trees ctxs p x a b c d tx,
  result R width depth dims trees p x = Some tx -> a <> x -> b <> a ->
  let q := [LLin R a (LNeg R) x; LCbh2 R a c x a; LCbh R b c [] d] in covered65 R width depth dims trees ctxs (p ++ q) -> lagree R req ctxs (p ++ q) a b.
Proof. exact cbh_inverse. Qed.
Print Assumptions C66_cbh_inverse.
(** Hypotheses met: the rows of the example, cut after the first, in context 1. *)
Definition chen66 : list (lcmd Qcqa) := [] ++ [LogSig 20 1 true (firstn 1 rows66 ++ skipn 1 rows66); LogSig 21 1 false (firstn 1 rows66); LogSig 22 1 true (skipn 1 rows66); Cbh 21 1 [21; 22] false].
Example C66_chen_ex : covered65 Qcqa widths depths dims65 trees65 ctx65 chen66 /\ lagree Qcqa Qc_eq_bool ctx65 chen66 20 21.
Proof.
  assert (C : covered65 Qcqa widths depths dims65 trees65 ctx65 chen66) by covers.
  split; [exact C|]. refine (C66_log_signature_cbh Qcqa Qc_eq_bool _ _ widths depths dims65 trees65 ctx65 [] 20 21 22 1 true false true false (firstn 1 rows66) (skipn 1 rows66) _ _ _ C); try lia.
  - split; [apply Qc_eq_bool_correct|intros ->; unfold Qc_eq_bool; destruct (Qc_eq_dec y y); congruence].
  - discriminate.
Qed.

(** ** C67 *)
(** The derivative is additive in the perturbation. *)
Theorem C67_additive : forall R req, equality R req -> nontrivial R -> forall width depth dims trees ctxs p x y z a b e c dense tx ty tz,
  result R width depth dims trees p x = Some tx -> result R width depth dims trees p y = Some ty -> result R width depth dims trees p z = Some tz -> ~ In a [x; y; z] -> ~ In b [a; x; y; z] -> ~ In e [b; a; x; y; z] ->
  let q := [LDeriv R a c dense [(x, y)]; LDeriv R b c dense [(x, z)]; LLin2 R a LAdd a b; LLin2 R e LAdd y z; LDeriv R b c dense [(x, e)]] in
  covered65 R width depth dims trees ctxs (p ++ q) -> lagree R req ctxs (p ++ q) a b.
Proof. exact derivative_add. Qed.
Print Assumptions C67_additive.
(** What is computed over any number of intervals: [dsteps], in which the signature of the intervals before is missing
    from every summand but the first. *)
Theorem C67_several : forall R req, equality R req -> nontrivial R -> forall width depth dims trees ctxs p x c dense info,
  covered65 R width depth dims trees ctxs p -> lie_context width depth dims trees ctxs c ->
  let t := result R width depth dims trees p in
  Forall (fun yz => is_lie R t (fst yz) (dusable R width depth c dense) /\ is_lie R t (snd yz) (dusable R width depth c dense)) info ->
  exists e cs o, lie_run R req Ok ctxs (p ++ [LDeriv R x c dense info]) (lie_start R) = Ok (e, cs) /\ e x = Some o /\
    vsees R width depth dims trees req ctxs o (mkV R c false dense (cutc R width depth c (dsteps R (Z.to_nat (depth c)) (map (fun yz => (val R t (fst yz), val R t (snd yz))) info)))).
Proof. exact derivative_any. Qed.
Print Assumptions C67_several.
(** Over two intervals, first e1 unperturbed, then 0 perturbed by e2, the derivative of the signature is e2 + e1 e2;
    the call gives e2. *)
Definition two67 : list (lcmd Qcqa) := [New 0 0 true true None (q [1; 0]%Q); New 1 0 true true None (q []%Q); New 2 0 true true None (q [0; 1]%Q); Deriv 3 0 true [(0, 1); (1, 2)]].
Definition val67 (x : Z) (u : list Z) : Q := match result Qcqa widths depths dims65 trees65 two67 x with Some v => this (v_val Qcqa v u) | None => 0%Q end.
Theorem C67_two_intervals_refuted : covered65 Qcqa widths depths dims65 trees65 ctx65 (firstn 3 two67) /\
  seen65 int32 two67 3 = Ok (Some ([0; 1; 2], [0; 0; 1]%Q)) /\
  map (val67 3) [[]; [0]; [1]; [0; 0]; [0; 1]; [1; 0]; [1; 1]] = [0; 0; 1; 0; 1; 0; 0]%Q.
Proof. split; [covers|split; vm_compute; reflexivity]. Qed.
Print Assumptions C67_two_intervals_refuted.
(** Lie elements of the context itself must be stored as the result is asked for. *)
Theorem C67_storage_refuted : forall R req, equality R req -> nontrivial R -> forall width depth dims trees ctxs p x c dense y z info a b, covered65 R width depth dims trees ctxs p ->
  let t := result R width depth dims trees p in
  t y = Some a -> v_lie R a = true -> v_ctx R a = c -> v_dense R a <> dense -> t z = Some b -> v_lie R b = true ->
  Forall (fun yz => is_lie R t (fst yz) (fun _ => True) /\ is_lie R t (snd yz) (fun _ => True)) info ->
  lie_run R req Ok ctxs (p ++ [LDeriv R x c dense ((y, z) :: info)]) (lie_start R) = UB.
Proof. exact derivative_storage. Qed.
Print Assumptions C67_storage_refuted.
Example C67_storage_ex : seen65 int32 (prog66 ++ [Deriv 20 1 false [(3, 5)]]) 20 = UB /\ seen65 int32 (prog66 ++ [Deriv 20 1 false [(5, 5)]]) 20 = Ok (Some ([1; 3; 7; 8; 9; 11], [-1; 1; -1 # 2; 1; -2; 1]%Q)).
Proof. split; vm_compute; reflexivity. Qed.
