(** Property theorems C64: shuffle and half-shuffle products of tensor objects.
    [sh_run p] makes the calls of the program [p] on numbered objects, none of which exist at first, with the caches
    of products that the process keeps; [trun p] is what the objects should be, as functions from words to coefficients,
    by the definitions of [shuf] (sum over the ways to split the letters of a word in two) and [half] (the first letter
    goes to the left factor) truncated at the depth of the left operand; [scovered p]: every context made use of exists,
    operands exist, and no call falls into a case of the [_refuted] theorems (ShufObjSpec.v). *)
From Coq Require Import QArith Qcanon.
From Verif Require Import Outcome Alg Words WordSums Mem Series TensorLemmas Shuffle KeyModel KeyProofs LhModel LhSpec ShufModel ShufObjSpec ShufObj ShufLaws.
Open Scope Z_scope.
Notation equality R req := (forall x y : car (qr R), req x y = true <-> x = y) (only parsing).
Notation nontrivial R := (@r1 (qr R) <> r0) (only parsing).
Notation covered64 R width depth ctxs p := (scovered R width depth (context width depth ctxs) p (tstart R)) (only parsing).
Notation result R width depth p := (trun R width depth p (tstart R)) (only parsing).

(** Every covered program runs, with any number of contexts; afterwards iteration, subscripts, the test for zero and ==
    answer for every object as the shuffle algebra says, whatever products were computed before. *)
Theorem C64_programs : forall R req, equality R req -> nontrivial R -> forall width depth ctxs p, covered64 R width depth ctxs p ->
  exists e cs, sh_run R req ctxs p (sh_start R) = Ok (e, cs) /\
  (forall x, match e x, result R width depth p x with
     | Some o, Some t => sees R width depth req ctxs o t | None, None => True | _, _ => False end) /\
  (forall x y o o' t t', e x = Some o -> e y = Some o' -> result R width depth p x = Some t -> result R width depth p y = Some t' -> t_ctx R t = t_ctx R t' ->
     exists r, h_eqb R req ctxs (handle_of R o) (handle_of R o') = Ok r /\ (r = true <-> forall u, t_val R t u = t_val R t' u)).
Proof. exact programs. Qed.
Print Assumptions C64_programs.

(** Contexts of the examples: width 2 and depth 2, width 2 and depth 3, width 3 and depth 2, width 1 and depth 34. *)
Definition nobasis := mkTB 0 0 (mkbuf 0 (fun _ => 0)) (mkbuf 0 (fun _ => 0)).
Definition widths (c : Z) : Z := nth (Z.to_nat c) [2; 2; 3; 1] 1.
Definition depths (c : Z) : Z := nth (Z.to_nat c) [2; 3; 2; 34] 1.
Definition ctx64 (c : Z) : tbasis := match KeyModel.tensor_basis (widths c) (depths c) with Ok B => B | _ => nobasis end.
Definition q (l : list Q) : list Qcqa := map Q2Qc l.
Definition seen64 (p : list (scmd Qcqa)) (x : Z) : outcome (option (list Z * list Q)) :=
  let! (e, _) := sh_run Qcqa Qc_eq_bool ctx64 p (sh_start Qcqa) in
  match e x with Some o => let! l := h_items Qcqa Qc_eq_bool ctx64 (handle_of Qcqa o) in Ok (Some (map fst l, map (fun c : Z * Qc => this (snd c)) l)) | None => Ok None end.
Notation Make := (SNew Qcqa). Notation Mul := (STimes Qcqa). Notation Fn := (SFn Qcqa). Notation Lin2 := (SLin2 Qcqa).
Lemma context64 c : 0 <= c < 4 -> context widths depths ctx64 c.
Proof.
  intros H. assert (E : c = 0 \/ c = 1 \/ c = 2 \/ c = 3) by lia. unfold context, packs.
  destruct E as [->|[->|[->| ->]]]; (split; [repeat split; vm_compute; congruence|split; [vm_compute; reflexivity|split; [vm_compute; congruence|vm_compute; reflexivity]]]).
Qed.
(** Left operand of depth 2 and right operand of depth 3; dense and sparse; a product used twice. *)
Definition prog64 : list (scmd Qcqa) :=
  [Make 0 1 false true None (q [1; 2; 3; 0; 5]%Q); Make 1 1 false false (Some [4; 2; 0; 8]) (q [7; 1; 1 # 2; 3]%Q); Make 6 0 true true None (q [0; 1; 1]%Q);
   Mul 2 0 1; Fn FHalf 3 0 1; Fn FShuffle 4 1 0; Fn FHalf 5 1 0; Fn FShuffle 7 6 1; Lin2 8 LSub 2 0].
Example C64_ex : covered64 Qcqa widths depths ctx64 prog64 /\
  seen64 prog64 2 = Ok (Some ([0; 1; 2; 3; 4; 5; 6; 7; 8; 9; 10; 11; 12; 13; 14], [1 # 2; 1; 5 # 2; 0; 23 # 2; 2; 6; 0; 31; 14; 52; 0; 26; 0; 0]%Q)) /\
  seen64 prog64 3 = Ok (Some ([0; 1; 2; 3; 4; 5; 6; 7; 8; 9; 10; 11; 12; 13; 14], [0; 1; 3 # 2; 0; 9 # 2; 0; 3; 0; 14; 0; 10; 0; 21; 0; 0]%Q)) /\
  seen64 prog64 5 = Ok (Some ([2; 4; 5; 6; 8; 9; 10; 12], [1; 7; 2; 3; 17; 14; 42; 5]%Q)) /\
  seen64 prog64 7 = Ok (Some ([0; 1; 2; 3; 4; 5; 6], [0; 1 # 2; 1 # 2; 0; 1; 1; 2]%Q)).
Proof.
  split; [|split; [vm_compute; reflexivity|split; [vm_compute; reflexivity|split; vm_compute; reflexivity]]].
  unfold prog64. cbn [scovered]. split; [split; [apply context64; lia|exact I]|]. split; [split; [apply context64; lia|split; [reflexivity|repeat constructor; vm_compute; congruence]]|]. split; [split; [apply context64; lia|exact I]|].
  split; [do 2 eexists; split; [reflexivity|split; [reflexivity|split; [reflexivity|split; [reflexivity|intros _; vm_compute; congruence]]]]|].
  do 4 (split; [do 2 eexists; split; [reflexivity|split; [reflexivity|split; [reflexivity|split; vm_compute; congruence]]]|]).
  split; [|exact I]. do 2 eexists. split; [reflexivity|]. split; [reflexivity|]. split; [reflexivity|]. split; [reflexivity|]. intros _. split; left; discriminate.
Qed.

(** The laws of the product of ShuffleTensor objects, as == sees them, after any program and whatever the storage. *)
Theorem C64_commutative : forall R req, equality R req -> nontrivial R -> forall width depth ctxs p x y a b tx,
  result R width depth p x = Some tx -> t_free R tx = false -> ~ In a [x; y] -> b <> a ->
  let q := [STimes R a x y; STimes R b y x] in covered64 R width depth ctxs (p ++ q) -> agree_after R req ctxs (p ++ q) a b.
Proof. exact times_comm. Qed.
Print Assumptions C64_commutative.
Theorem C64_associative : forall R req, equality R req -> nontrivial R -> forall width depth ctxs p x y z a b tx,
  result R width depth p x = Some tx -> t_free R tx = false -> ~ In a [x; y; z] -> ~ In b [a; x; y; z] ->
  let q := [STimes R a x y; STimes R a a z; STimes R b y z; STimes R b x b] in covered64 R width depth ctxs (p ++ q) -> agree_after R req ctxs (p ++ q) a b.
Proof. exact times_assoc. Qed.
Print Assumptions C64_associative.
Theorem C64_distributes : forall R req, equality R req -> nontrivial R -> forall width depth ctxs p x y z a b c tx,
  result R width depth p x = Some tx -> t_free R tx = false -> ~ In a [x; y; z] -> ~ In b [a; x; y; z] -> ~ In c [b; a; x; y; z] ->
  let q := [SLin2 R a LAdd y z; STimes R a x a; STimes R b x y; STimes R c x z; SLin2 R b LAdd b c] in covered64 R width depth ctxs (p ++ q) -> agree_after R req ctxs (p ++ q) a b.
Proof. exact times_distr. Qed.
Print Assumptions C64_distributes.
Theorem C64_unit : forall R req, equality R req -> nontrivial R -> forall width depth ctxs p x y a tx ty,
  result R width depth p x = Some tx -> t_free R tx = false -> result R width depth p y = Some ty -> (forall u, t_val R ty u = tone u) -> a <> x ->
  let q := [STimes R a x y] in covered64 R width depth ctxs (p ++ q) -> agree_after R req ctxs (p ++ q) a x.
Proof. exact times_one. Qed.
Print Assumptions C64_unit.
(** The operator and the function shuffle_multiply agree. *)
Theorem C64_function_is_operator : forall R req, equality R req -> nontrivial R -> forall width depth ctxs p x y a b tx,
  result R width depth p x = Some tx -> t_free R tx = false -> ~ In a [x; y] -> b <> a ->
  let q := [STimes R a x y; SFn R FShuffle b x y] in covered64 R width depth ctxs (p ++ q) -> agree_after R req ctxs (p ++ q) a b.
Proof. exact times_fn. Qed.
Print Assumptions C64_function_is_operator.
(** The two half-shuffle products make up the shuffle product. *)
Theorem C64_halves : forall R req, equality R req -> nontrivial R -> forall width depth ctxs p x y a b c tx ty,
  result R width depth p x = Some tx -> result R width depth p y = Some ty -> t_ctx R tx = t_ctx R ty -> rmul (t_val R tx []) (t_val R ty []) = r0 -> ~ In a [x; y] -> ~ In b [a; x; y] -> ~ In c [b; a; x; y] ->
  let q := [SFn R FHalf a x y; SFn R FHalf b y x; SLin2 R a LAdd a b; SFn R FShuffle c x y] in covered64 R width depth ctxs (p ++ q) -> agree_after R req ctxs (p ++ q) a c.
Proof. exact halves_law. Qed.
Print Assumptions C64_halves.
(** Half-shuffling twice is half-shuffling with the shuffle product. *)
Theorem C64_half_twice : forall R req, equality R req -> nontrivial R -> forall width depth ctxs p x y z a b tx,
  result R width depth p x = Some tx -> ~ In a [x; y; z] -> ~ In b [a; x; y; z] ->
  let q := [SFn R FHalf a x y; SFn R FHalf a a z; SFn R FShuffle b y z; SFn R FHalf b x b] in covered64 R width depth ctxs (p ++ q) -> agree_after R req ctxs (p ++ q) a b.
Proof. exact half_assoc. Qed.
Print Assumptions C64_half_twice.
(** As linear functionals on group-like tensors, such as signatures, shuffle tensors multiply. *)
Theorem C64_functionals_multiply : forall R req, equality R req -> nontrivial R -> forall width depth ctxs p x y z a tx ty tg i j,
  let w := width (t_ctx R tx) in let N := Z.to_nat (depth (t_ctx R tx)) in
  result R width depth p x = Some tx -> t_free R tx = false -> result R width depth p y = Some ty -> result R width depth p z = Some tg -> t_ctx R tg = t_ctx R tx ->
  grouplike N (t_val R tg) -> (forall u, (i < length u)%nat -> t_val R tx u = r0) -> (forall u, (j < length u)%nat -> t_val R ty u = r0) -> (i + j <= N)%nat ->
  let q := [STimes R a x y] in covered64 R width depth ctxs (p ++ q) ->
  exists e cs o t, sh_run R req ctxs (p ++ q) (sh_start R) = Ok (e, cs) /\ e a = Some o /\ sees R width depth req ctxs o t /\ t_ctx R t = t_ctx R tx /\
    pairing w N (t_val R t) (t_val R tg) = rmul (pairing w N (t_val R tx) (t_val R tg)) (pairing w N (t_val R ty) (t_val R tg)).
Proof. exact product_of_functionals. Qed.
Print Assumptions C64_functionals_multiply.
(** Hypotheses met: three shuffle tensors of one context, one of them the unit, one dense and two sparse; the programs of the laws. *)
Definition three64 : list (scmd Qcqa) := [Make 0 1 false true None (q [0; 2; 3]%Q); Make 1 1 false false (Some [4; 2; 0; 8]) (q [7; 1; 1 # 2; 3]%Q); Make 2 1 false false (Some [0]) (q [1]%Q)].
Definition val64 (p : list (scmd Qcqa)) (x : Z) : tens Qcqa Z := match result Qcqa widths depths p x with Some t => t_val Qcqa t | None => fun _ => r0 end.
Lemma one64 u : val64 three64 2 u = tone u.
Proof.
  unfold val64. change (result Qcqa widths depths three64 2) with (Some (ShufObjSpec.mkT Qcqa 1 false KSparse (LhSpec.trunc Qcqa 2 3 (fun u => given Qcqa 2 3 (Some [0]) (q [1]%Q) (pos 2 u))))).
  cbn [t_val]. unfold LhSpec.trunc. destruct u as [|a u]; [apply Qc_is_canon; vm_compute; reflexivity|]. destruct (inside 2 3 (a :: u)) eqn:E; [|reflexivity].
  apply inside_iff in E. destruct E as [E _]. assert (P : 0 <> pos 2 (a :: u)) by (intros P; assert (Q := pos_inj 2 ltac:(lia) [] (a :: u) ltac:(constructor) E P); discriminate).
  unfold given. change (firstn (Z.to_nat (words_below 2 4)) (combine [0] (q [1]%Q))) with (combine [0] (q [1]%Q)). cbn [q map combine fold_left fst snd].
  apply Z.eqb_neq in P. rewrite P. reflexivity.
Qed.
Definition comm64 := [Mul 10 0 1; Mul 11 1 0]. Definition assoc64 := [Mul 10 0 1; Mul 10 10 2; Mul 11 1 2; Mul 11 0 11].
Definition distr64 := [Lin2 10 LAdd 1 2; Mul 10 0 10; Mul 11 0 1; Mul 12 0 2; Lin2 11 LAdd 11 12]. Definition unit64 := [Mul 10 1 2]. Definition fn64 := [Mul 10 0 1; Fn FShuffle 11 0 1].
Definition halves64 := [Fn FHalf 10 0 1; Fn FHalf 11 1 0; Lin2 10 LAdd 10 11; Fn FShuffle 12 0 1]. Definition twice64 := [Fn FHalf 10 0 1; Fn FHalf 10 10 1; Fn FShuffle 11 1 1; Fn FHalf 11 0 11].
Ltac cover64 nz :=
  unfold three64; cbn [scovered app]; split; [split; [apply context64; lia|exact I]|]; do 2 (split; [split; [apply context64; lia|split; [reflexivity|repeat constructor; vm_compute; congruence]]|]);
  repeat match goal with
  | |- True => exact I
  | |- smay _ _ _ _ (STimes _ _ _ _) _ /\ _ => split; [do 2 eexists; split; [reflexivity|split; [reflexivity|split; [reflexivity|split; [reflexivity|intros _; vm_compute; congruence]]]]|]
  | |- smay _ _ _ _ (SFn _ _ _ _ _) _ /\ _ => split; [do 2 eexists; split; [reflexivity|split; [reflexivity|split; [reflexivity|split; vm_compute; congruence]]]|]
  | |- smay _ _ _ _ (SLin2 _ _ _ _ _) _ /\ _ => split; [do 2 eexists; split; [reflexivity|split; [reflexivity|split; [reflexivity|split; [reflexivity|
      first [intros Hk; discriminate Hk | intros _; split; [first [left; discriminate | right; exists [0; 1]; apply nz; vm_compute; reflexivity]|left; discriminate]]]]]]|]
  end.
Example C64_laws_ex : (forall q, In q [comm64; assoc64; distr64; unit64; fn64; halves64; twice64] -> covered64 Qcqa widths depths ctx64 (three64 ++ q)) /\
  val64 three64 0 [] = r0 /\ (forall u, val64 three64 2 u = tone u) /\
  seen64 (three64 ++ distr64) 10 = seen64 (three64 ++ distr64) 11 /\ seen64 (three64 ++ twice64) 10 = seen64 (three64 ++ twice64) 11 /\ seen64 (three64 ++ halves64) 10 = seen64 (three64 ++ halves64) 12 /\
  seen64 (three64 ++ halves64) 10 = Ok (Some ([0; 1; 2; 3; 4; 5; 6; 7; 8; 9; 10; 11; 12; 13; 14], [0; 1; 3 # 2; 0; 2; 2; 6; 0; 28; 14; 42; 0; 21; 0; 0]%Q)).
Proof.
  assert (nz : forall x : Qc, Qc_eq_bool x (Q2Qc 0) = false -> x <> Q2Qc 0) by (intros x H ->; vm_compute in H; discriminate).
  split; [|split; [|split; [|split; [vm_compute; reflexivity|split; [vm_compute; reflexivity|split; vm_compute; reflexivity]]]]].
  - intros q0 H. cbn [In] in H. destruct H as [<-|[<-|[<-|[<-|[<-|[<-|[<-|[]]]]]]]];
      [unfold comm64|unfold assoc64|unfold distr64|unfold unit64|unfold fn64|unfold halves64|unfold twice64]; cover64 nz.
  - apply Qc_is_canon. vm_compute. reflexivity.
  - intros u. apply one64.
Qed.
(** A group-like tensor: the exponential of 2 e1 + 3 e2 at depth 2. *)
Definition sig64 : list (scmd Qcqa) := [Make 0 0 false true None (q [1; 2; 3]%Q); Make 1 0 false false (Some [0; 2]) (q [1 # 2; 5]%Q); Make 2 0 true true None (q [1; 2; 3; 2; 3; 3; 9 # 2]%Q)].
Add Ring Qr64 : (rth Qcqa).
Lemma val_out p x u : (forall t, result Qcqa widths depths p x = Some t -> t_val Qcqa t u = r0) -> val64 p x u = r0.
Proof. unfold val64. destruct (result Qcqa widths depths p x) as [t|]; [|reflexivity]. intros H. apply H. reflexivity. Qed.
Example C64_functionals_ex : covered64 Qcqa widths depths ctx64 (sig64 ++ [Mul 3 0 1]) /\ grouplike 2 (val64 sig64 2) /\
  (forall u, (1 < length u)%nat -> val64 sig64 0 u = r0) /\ (forall u, (1 < length u)%nat -> val64 sig64 1 u = r0) /\
  map (fun x => this (pairing 2 2 (val64 (sig64 ++ [Mul 3 0 1]) x) (val64 sig64 2))) [0; 1; 3] = [14; 31 # 2; 217]%Q.
Proof.
  assert (Two : forall x u, In x [0; 1; 2] -> (1 < length u)%nat -> val64 sig64 x u = r0 \/ In u [[0; 0]; [0; 1]; [1; 0]; [1; 1]]).
  { intros x u Hx Hu. destruct (inside 2 2 u) eqn:E.
    - right. apply inside_iff in E. destruct E as [E E2]. destruct u as [|a [|b [|c u]]]; [cbn in Hu; lia|cbn in Hu; lia| |cbn in E2; lia].
      inversion E as [|? ? A1 E1]. inversion E1 as [|? ? A2 E3]. assert (Ea : a = 0 \/ a = 1) by lia. assert (Eb : b = 0 \/ b = 1) by lia. destruct Ea as [-> | ->], Eb as [-> | ->]; cbn; tauto.
    - left. apply val_out. intros t Ht. destruct Hx as [<-|[<-|[<-|[]]]]; injection Ht as <-; cbn [t_val]; unfold LhSpec.trunc; change (Z.to_nat (depths 0)) with 2%nat; change (widths 0) with 2; rewrite E; reflexivity. }
  split; [|split; [|split; [|split; [|vm_compute; reflexivity]]]].
  - unfold sig64. cbn [scovered app]. split; [split; [apply context64; lia|exact I]|]. split; [split; [apply context64; lia|split; [reflexivity|repeat constructor; vm_compute; congruence]]|]. split; [split; [apply context64; lia|exact I]|].
    split; [|exact I]. do 2 eexists. split; [reflexivity|]. split; [reflexivity|]. split; [reflexivity|]. split; [reflexivity|]. intros _. vm_compute. congruence.
  - assert (One : val64 sig64 2 [] = r1) by (apply Qc_is_canon; vm_compute; reflexivity). split; [exact One|].
    assert (Out : forall a u, ~ 0 <= a < 2 -> In a u -> val64 sig64 2 u = r0).
    { intros a u Ha Hu. apply val_out. intros t Ht. injection Ht as <-. cbn [t_val]. unfold LhSpec.trunc. change (Z.to_nat (depths 0)) with 2%nat. change (widths 0) with 2.
      destruct (inside 2 2 u) eqn:E; [|reflexivity]. apply inside_iff in E. destruct E as [E _]. unfold letters_ok in E. rewrite Forall_forall in E. specialize (E a Hu). lia. }
    intros u v Hl. destruct u as [|a u]; [cbn [shuffles sum]; rewrite One; ring|]. destruct v as [|b v]; [rewrite shuffles_nil_r; cbn [sum]; rewrite One; ring|].
    destruct u as [|? ?]; [|cbn in Hl; lia]. destruct v as [|? ?]; [|cbn in Hl; lia]. cbn [shuffles map app sum].
    destruct (Z_le_dec 0 a); [destruct (Z_lt_dec a 2); [destruct (Z_le_dec 0 b); [destruct (Z_lt_dec b 2)|]|]|].
    + assert (Ea : a = 0 \/ a = 1) by lia. assert (Eb : b = 0 \/ b = 1) by lia. destruct Ea as [-> | ->], Eb as [-> | ->]; apply Qc_is_canon; vm_compute; reflexivity.
    + rewrite (Out b [a; b]), (Out b [b; a]), (Out b [b]) by (try lia; cbn; tauto). ring.
    + rewrite (Out b [a; b]), (Out b [b; a]), (Out b [b]) by (try lia; cbn; tauto). ring.
    + rewrite (Out a [a; b]), (Out a [b; a]), (Out a [a]) by (try lia; cbn; tauto). ring.
    + rewrite (Out a [a; b]), (Out a [b; a]), (Out a [a]) by (try lia; cbn; tauto). ring.
  - intros u Hu. destruct (Two 0 u ltac:(cbn; tauto) Hu) as [H|H]; [exact H|]. destruct H as [<-|[<-|[<-|[<-|[]]]]]; apply Qc_is_canon; vm_compute; reflexivity.
  - intros u Hu. destruct (Two 1 u ltac:(cbn; tauto) Hu) as [H|H]; [exact H|]. destruct H as [<-|[<-|[<-|[<-|[]]]]]; apply Qc_is_canon; vm_compute; reflexivity.
Qed.

(** The cases left out. Products of words with 34 letters or more together: the multiplicity of a word in the product does
    not fit in an int, undefined behaviour. *)
Theorem C64_overflow_refuted : context widths depths ctx64 3 /\ seen64 [Make 0 3 false false (Some [17]) (q [1]%Q); Mul 1 0 0] 1 = UB.
Proof. split; [apply context64; lia|vm_compute; reflexivity]. Qed.
Print Assumptions C64_overflow_refuted.
(** The functions do not ask that the operands have the same depth; with a right operand of smaller depth terms are lost:
    of (1 + e1) ⧢ (1 + e1 e1 e1), the left operand last, only the last remains. *)
Definition shallow64 : list (scmd Qcqa) := [Make 0 1 false true None (q [1; 0; 0; 0; 0; 0; 0; 1]%Q); Make 1 0 false true None (q [1; 1]%Q); Fn FShuffle 2 0 1].
Theorem C64_shallow_right_refuted : seen64 shallow64 2 = Ok (Some ([0; 1; 2; 3; 4; 5; 6; 7; 8; 9; 10; 11; 12; 13; 14], [0; 0; 0; 0; 0; 0; 0; 1; 0; 0; 0; 0; 0; 0; 0]%Q)) /\
  map (fun u => this (val64 shallow64 2 u)) [[]; [0]; [0; 0; 0]] = [1; 1; 1]%Q.
Proof. split; vm_compute; reflexivity. Qed.
Print Assumptions C64_shallow_right_refuted.
(** Nor the same width: keys of the right operand are taken for others, or undefined behaviour. *)
Theorem C64_widths_refuted :
  seen64 [Make 0 0 false true None (q [1; 2; 3]%Q); Make 1 2 false true None (q [1; 1]%Q); Fn FShuffle 2 0 1] 2 = UB /\
  seen64 [Make 0 0 false false None (q [1; 2; 3]%Q); Make 1 2 false false None (q [1; 0; 0; 1]%Q); Fn FShuffle 2 0 1] 2 = Ok (Some ([0; 1; 2; 3; 5; 7; 8], [1; 2; 3; 1; 2; 5; 3]%Q)).
Proof. split; vm_compute; reflexivity. Qed.
Print Assumptions C64_widths_refuted.
(** A dense product that is zero keeps the degree it might have had; after a sum with it a product reads past the end. *)
Definition stale64 : list (scmd Qcqa) := [Make 0 0 true true None (q [1]%Q); Make 1 0 true true None (q [1; 2; 3; 4]%Q); Fn FHalf 2 0 1; Lin2 3 LAdd 0 2].
Theorem C64_stale_degree_refuted : seen64 stale64 3 = Ok (Some ([0], [1]%Q)) /\ seen64 (stale64 ++ [Mul 4 3 3]) 4 = UB.
Proof. split; vm_compute; reflexivity. Qed.
Print Assumptions C64_stale_degree_refuted.
(** Operators refuse operands of two algebras or two contexts. *)
Theorem C64_operators_refuse : forall R req ctxs (e : Z -> option (sobj R)) cs x y z a b, e y = Some a -> e z = Some b -> so_ctx R a <> so_ctx R b \/ so_free R a <> so_free R b ->
  sh_step R req ctxs (STimes R x y z) (e, cs) = Throw /\ forall o, sh_step R req ctxs (SLin2 R x o y z) (e, cs) = Throw.
Proof. exact operators_refuse. Qed.
Print Assumptions C64_operators_refuse.
