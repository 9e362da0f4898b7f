(** Concrete dynamically constructed streams. *)
From Coq Require Import ZifyBool Lqa Qround.
From Verif Require Export DynLemmas3.
From Verif Require Import DyadicProofs StreamEx TickEx.
From Verif Require Import Outcome Alg Words Mem Series Shuffle TensorModel TensorTop TensorTop3 TensorLemmas HallModel HallSpec LieSpec HallLemmas BracketModel BracketLemmas SmhModel SmhLemmas L2tModel L2tLemmas.
Open Scope Z_scope.

Notation wide := (mkRI (-8) 8 Clopen).
Notation ask_ a b r := (mkRI a b Clopen, r).
Lemma pair_of {lie} (is_zero : lie -> bool) S ok ctx : sound is_zero S ok ctx -> pair_sound (fun a b => cx_cbh ctx [a; b]) S ok.
Proof.
  intros HS a b Oa Ob. assert (F : Forall ok [a; b]) by auto. split; [apply (sd_cbh_ok _ _ _ _ HS); auto|]. eapply (sd_trans _ _ _ _ HS); [apply (sd_cbh _ _ _ _ HS); auto|]. cbn [sg_prod fold_right]. apply (sd_mul _ _ _ _ HS); [apply (sd_refl _ _ _ _ HS)|apply (sd_one_r _ _ _ _ HS)].
Qed.
Theorem dyn_signature : forall (R : qalg) (isz : R -> bool), (forall x, isz x = true <-> x = r0) -> (r1 : R) <> r0 ->
  forall inv : Z -> R, (forall d, 1 <= d -> rmul (zr R d) (inv d) = r1) ->
  forall B w N M, standard B w N -> l2t_fits w N -> lb_size B = Ok M -> small_brackets B w ->
  exists F0, forall fuel jd ji jp, (F0 <= fuel)%nat -> let ctx := dense_ctx isz fuel inv jd ji jp B w N M in let cbh2 := fun a b => cx_cbh ctx [a; b] in let D := Z.to_nat N in
  forall (F : Q -> Q -> buf R) (G : Q -> Q -> tens (qr R) Z),
  (forall a b, (a <= b)%Q -> exists g, blen (F a b) = M /\ to_signature isz jd ji jp B (tensor_basis w N) (F a b) = Ok g /\ agree D (tv w D g) (G a b)) ->
  (forall a a' b b', (a == a')%Q -> (b == b')%Q -> agree D (G a b) (G a' b')) -> (forall a, agree D (G a a) tone) -> (forall a b c, (a <= b)%Q -> (b <= c)%Q -> agree D (conv (G a b) (G b c)) (G a c)) ->
  forall support res qs, (ri_inf support <= ri_sup support)%Q -> fits_history support res qs -> one_sided support qs ->
  exists xs, dyn_answers (dense_is_zero isz M) cbh2 (function_rule F) tt support ctx qs xs /\
    Forall2 (fun q x => meets support (fst q) -> exists g, blen x = M /\ to_signature isz jd ji jp B (tensor_basis w N) x = Ok g /\
      agree D (tv w D g) (G (grid_floor (cut_from support (fst q)) (snd q)) (grid_floor (cut_upto support (fst q)) (snd q)))) qs xs.
Proof.
  intros R isz Hz H1 inv Hinv B w N M HS HF EM Hsm. destruct (dense_sound R isz Hz H1 inv Hinv B w N M HS HF EM Hsm) as (F0 & Hd). exists F0. intros fuel jd ji jp Hfu ctx cbh2 D F G HFG G1 G2 G3 support res qs Hs Hf Ho.
  assert (Sd := Hd fuel jd ji jp Hfu). fold ctx in Sd.
  destruct (dyn_function _ _ cbh2 _ _ ctx Sd (pair_of _ _ _ _ Sd) support Hs res F G) with (qs := qs) as (xs & A & V); auto.
  - constructor; auto.
  - intros a b Hab. destruct (HFG a b Hab) as (g & L & E & P). split; auto. cbn [sg_of dense_sigs sg_eq]. rewrite L, Z.eqb_refl, E. exact P.
  - exists xs. split; auto. clear A. induction V as [|q x qs' xs' (L & P & _) _ IH]; constructor; [|exact (IH (conj (proj1 Hf) (fun i r Hi => proj2 Hf i r (or_intror Hi))) (match Ho with or_introl h => or_introl (fun i r Hi => h i r (or_intror Hi)) | or_intror h => or_intror (fun i r Hi => h i r (or_intror Hi)) end))]. intros Hm. destruct (sig_ok R isz Hz H1 B w N M HS HF EM x jd ji jp L) as (g & Eg & _). exists g. split; auto. split; auto.
    specialize (P Hm). cbn [sg_of dense_sigs sg_eq] in P. rewrite L, Z.eqb_refl, Eg in P. exact P.
Qed.
(** A path that jumps by [v] at 1/2. *)
Definition jumps (a b : Q) : bool := negb (Qle_bool (1#2) a) && Qle_bool (1#2) b.
Lemma jump_path : forall (R : qalg) (isz : R -> bool), (forall x, isz x = true <-> x = r0) -> (r1 : R) <> r0 ->
  forall inv : Z -> R, (forall d, 1 <= d -> rmul (zr R d) (inv d) = r1) ->
  forall B w N M, standard B w N -> l2t_fits w N -> lb_size B = Ok M -> small_brackets B w -> let D := Z.to_nat N in
  forall jd ji jp (v : buf R), blen v = M -> exists g, to_signature isz jd ji jp B (tensor_basis w N) v = Ok g /\
  let F a b := if jumps a b then v else zeros M in let G a b := if jumps a b then tv w D g else tone in
  (forall a b, (a <= b)%Q -> exists g, blen (F a b) = M /\ to_signature isz jd ji jp B (tensor_basis w N) (F a b) = Ok g /\ agree D (tv w D g) (G a b)) /\
  (forall a a' b b', (a == a')%Q -> (b == b')%Q -> agree D (G a b) (G a' b')) /\ (forall a, agree D (G a a) tone) /\ (forall a b c, (a <= b)%Q -> (b <= c)%Q -> agree D (conv (G a b) (G b c)) (G a c)).
Proof.
  intros R isz Hz H1 inv Hinv B w N M HS HF EM Hsm D jd ji jp v Lv. destruct (dense_sound R isz Hz H1 inv Hinv B w N M HS HF EM Hsm) as (F0 & Hd). assert (Sd := Hd F0 jd ji jp ltac:(lia)).
  destruct (sig_ok R isz Hz H1 B w N M HS HF EM v jd ji jp Lv) as (g & Eg & _). exists g. split; auto. intros F G.
  assert (J : forall a b, jumps a b = true <-> (a < (1#2) <= b)%Q).
  { intros a b. unfold jumps. rewrite andb_true_iff, negb_true_iff, <- not_true_iff_false, !Qle_bool_iff. split; intros []; split; try lra. }
  split; [|split; [|split]].
  - intros a b _. unfold F, G. destruct (jumps a b); [exists g; split; auto; split; auto; apply agree_refl|].
    destruct (sig_ok R isz Hz H1 B w N M HS HF EM (zeros M) jd ji jp eq_refl) as (g0 & E0 & _). exists g0. split; auto. split; auto.
    assert (X := sd_zero _ _ _ _ Sd). cbn [sg_of dense_sigs sg_eq sg_one dense_ctx cx_zero blen zeros] in X. rewrite Z.eqb_refl in X. change {| blen := M; bat := fun _ => r0 |} with (zeros (R := R) M) in X. rewrite E0 in X. exact X.
  - intros a a' b b' Ha Hb. unfold G. replace (jumps a' b') with (jumps a b); [apply agree_refl|]. apply eq_true_iff_eq. rewrite !J. lra.
  - intros a. unfold G. destruct (jumps a a) eqn:E; [apply J in E; lra|apply agree_refl].
  - intros a b c Hab Hbc. unfold G. destruct (jumps a b) eqn:E1, (jumps b c) eqn:E2, (jumps a c) eqn:E3; rewrite ?J, <- ?not_true_iff_false, ?J in *; try lra.
    + apply (sd_one_r _ _ _ _ Sd).
    + apply (sd_one_l _ _ _ _ Sd).
    + apply (sd_one_l _ _ _ _ Sd).
Qed.
Lemma run_answers {lie st} (is_zero : lie -> bool) cbh2 (R : rule lie st) F g0 support ctx qs xs t g : dyn_all is_zero cbh2 R F g0 [] support ctx qs = Ok (xs, t, g) -> dyn_answers is_zero cbh2 R g0 support ctx qs xs.
Proof. intros H. exists F, t, g. intros fuel Hf. eapply all_more; eauto. Qed.
Definition meetsb (support i : ri) : bool := negb (Qle_bool (cut_upto support i) (cut_from support i)).
Lemma meetsb_iff support i : meets support i <-> meetsb support i = true.
Proof. unfold meets, meetsb. rewrite negb_true_iff, <- not_true_iff_false, Qle_bool_iff. split; intros; lra. Qed.
Definition fitb (support : ri) (res : Z) (q : ri * Z) : bool :=
  let (i, r) := q in let a := cut_from support i in let b := cut_upto support i in
  Qle_bool (ri_inf i) (ri_sup i) && (- 2 ^ 27 <=? r) && (r <=? res) &&
  (- 2 ^ 28 <=? Qfloor (grid_floor a r * Qpower 2 (Z.max r res))) && (Qfloor (grid_floor a r * Qpower 2 (Z.max r res)) <=? 2 ^ 28) &&
  (- 2 ^ 28 <=? Qfloor (grid_floor b r * Qpower 2 (Z.max r res))) && (Qfloor (grid_floor b r * Qpower 2 (Z.max r res)) <=? 2 ^ 28).
Lemma fits_by support res qs : - 2 ^ 27 <= res <= 2 ^ 27 -> forallb (fitb support res) qs = true -> fits_history support res qs.
Proof.
  intros Hr H. split; auto. intros i r Hi. rewrite forallb_forall in H. specialize (H _ Hi). unfold fitb in H. rewrite !andb_true_iff in H. destruct H as [[[[[[H1 H2] H3] H4] H5] H6] H7]. apply Qle_bool_iff in H1. split; auto. intros _. split; [lia|]. apply query_fits; lia.
Qed.
Ltac each := intros ? ? Hi; cbn [In] in Hi; repeat (destruct Hi as [[= <- <-]|Hi]; [|]); [..|destruct Hi].

(** *** A path in the Heisenberg group: x = floor 4t, y = (floor 2t)^2, with an area *)
Definition heis_inv (p : heis) : heis := let '(a, b, c) := p in (- a, - b, - c).
Definition heis_at (t : Q) : heis := (Qfloor (4 * t), Qfloor (2 * t) * Qfloor (2 * t), Qfloor (3 * t)).
Definition heis_path (a b : Q) : heis := heis_mul (heis_inv (heis_at a)) (heis_at b).
Notation pair2 := (fun a b => cx_cbh heis2 [a; b]).
Lemma heis_is_path : path heis_sigs heis_path.
Proof.
  assert (E : forall a b, (a == b)%Q -> heis_at a = heis_at b) by (intros a b H; unfold heis_at; rewrite (Qfloor_comp (4 * a) (4 * b)), (Qfloor_comp (2 * a) (2 * b)), (Qfloor_comp (3 * a) (3 * b)) by lra; reflexivity).
  constructor; cbn [sg_eq sg_mul sg_one heis_sigs]; unfold heis_path.
  - intros a a' b b' H1 H2. rewrite (E _ _ H1), (E _ _ H2). reflexivity.
  - intros a. destruct (heis_at a) as [[x y] z]. cbn. repeat (apply pair_equal_spec; split); lia.
  - intros a b c _ _. destruct (heis_at a) as [[x y] z], (heis_at b) as [[x' y'] z'], (heis_at c) as [[x2 y2] z2]. cbn. repeat (apply pair_equal_spec; split); lia.
Qed.
Lemma ex_exact : sound heis_is_zero heis_sigs (fun _ => True) heis2 /\ pair_sound pair2 heis_sigs (fun _ => True) /\ path heis_sigs heis_path /\
  source_of heis_sigs (fun _ => True) heis_path (function_rule heis_path) /\
  let qs := [ask_ 0 1 2; ask_ (3#8) (5#4) 2; ask_ 0 2 0] in fits_history wide 2 qs /\ one_sided wide qs /\
  dyn_answers heis_is_zero pair2 (function_rule heis_path) tt wide heis2 qs [heis_path 0 1; heis_path (1#4) (5#4); heis_path 0 2] /\ heis_path (1#4) (5#4) = (4, 4, -1).
Proof.
  split; [apply heis2_sound|]. split; [apply (pair_of heis_is_zero), heis2_sound|]. split; [apply heis_is_path|]. split; [apply (function_source heis heis_sigs (fun _ => True)); intros; split; [exact I|reflexivity]|].
  split; [apply fits_by; [lia|vm_compute; reflexivity]|]. split; [left; each; intros _; unfold Qle; vm_compute; congruence|]. split; [|vm_compute; reflexivity]. eapply (run_answers _ _ _ 60). vm_compute. reflexivity.
Qed.
(** The first query and the tree that is saved. *)
Lemma ex_first : let i := mkRI (1#2) 1 Clopen in (cut_from wide i == dy 1 1)%Q /\ (cut_upto wide i == dy 2 1)%Q /\ fits_query (cut_from wide i) (cut_upto wide i) 1 1 /\
  dyn_answers heis_is_zero pair2 (function_rule heis_path) tt wide heis2 [(i, 1)] [heis_path (1#2) 1] /\ heis_path (1#2) 1 = (2, 3, -2).
Proof.
  cbn zeta. split; [vm_compute; reflexivity|]. split; [vm_compute; reflexivity|]. split; [apply query_fits; [lia..|vm_compute; reflexivity]|]. split; [|vm_compute; reflexivity]. eapply (run_answers _ _ _ 60). vm_compute. reflexivity.
Qed.
Lemma ex_saved : exists t l, dyn_all heis_is_zero pair2 (function_rule heis_path) 60 tt [] wide heis2 [ask_ 0 (1#2) 2; ask_ 0 2 0] = Ok ([heis_path 0 (1#2); heis_path 0 2], t, tt) /\ List.length t = 7%nat /\ dn_store t = Ok l /\ dn_load l = Ok t.
Proof. do 2 eexists. split; [vm_compute; reflexivity|]. split; [vm_compute; reflexivity|]. split; [vm_compute; reflexivity|]. vm_compute. reflexivity. Qed.

(** *** Random splitting over the rationals (depth 1, one letter) *)
Definition q_ctx : actx Q := mkCtx 1 1 0%Q (fold_right Qplus 0%Q).
Definition q_sigs : sigs Q := mkSigs Q Q Qeq Qplus 0%Q (fun x => x).
Definition q_zero (x : Q) : bool := Qeq_bool x 0.
Lemma q_sound : sound q_zero q_sigs (fun _ => True) q_ctx.
Proof. constructor; cbn; auto; intros; try lra. - apply Qeq_bool_iff. auto. - reflexivity. Qed.
Definition q_half (x : Q) : Q := ((1#2) * x)%Q.
Lemma q_linear : DynSpec.linear q_sigs (fun _ => True) q_half Qplus Qminus.
Proof. constructor; cbn; intros; [lra|split; auto..]; unfold q_half; try lra. Qed.
(** A generator: the numbers 3, 4, 5, ... *)
Definition q_gauss (g : Z) (s : Q) : Q * Z := (inject_Z g, g + 1).
Notation q_brownian := (brownian_rule q_half Qplus Qminus q_gauss).
Notation q_pair := (fun a b => cx_cbh q_ctx [a; b]).
Lemma ex_brownian : sound q_zero q_sigs (fun _ => True) q_ctx /\ pair_sound q_pair q_sigs (fun _ => True) /\ DynSpec.linear q_sigs (fun _ => True) q_half Qplus Qminus /\
  let qs := [ask_ 0 1 1; ask_ (1#4) (3#4) 2; ask_ (1#4) (1#2) 2; ask_ (1#2) (3#4) 2; ask_ 0 1 1] in fits_history wide 2 qs /\ first_whole wide 0 0 qs /\
  exists xs, dyn_answers q_zero q_pair q_brownian 3 wide q_ctx qs xs /\ map Qred xs = [3; (5#2); (-9#4); (19#4); 3]%Q.
Proof.
  split; [apply q_sound|]. split; [apply (pair_of q_zero), q_sound|]. split; [apply q_linear|]. split; [apply fits_by; [lia|vm_compute; reflexivity]|].
  split; [split; [lia|]; split; [vm_compute; reflexivity|]; split; [vm_compute; reflexivity|]; each; intros _; split; unfold Qle; vm_compute; congruence|].
  eexists. split; [eapply (run_answers _ _ _ 60); vm_compute; reflexivity|vm_compute; reflexivity].
Qed.

(** *** What does not hold *)
(** The value function (8t, 64 t^2), increments without area: what a function stream makes
    of a function of two letters at depth 2. *)
Definition curve (a b : Q) : heis := (Qfloor (8 * b) - Qfloor (8 * a), Qfloor (64 * b * b) - Qfloor (64 * a * a), 0).
Notation curve_answers qs xs := (dyn_answers heis_is_zero pair2 (function_rule curve) tt wide heis2 qs xs).
Ltac runs := eapply (run_answers _ _ _ 60); vm_compute; reflexivity.
Ltac side_ := split; [apply fits_by; [lia|vm_compute; reflexivity]|split; [left; each; intros _; unfold Qle; vm_compute; congruence|]].
Lemma repeat_changes : let qs := [ask_ 0 1 0; ask_ 0 (1#2) 1; ask_ 0 1 0] in fits_history wide 1 qs /\ one_sided wide qs /\ curve_answers qs [(8, 64, 0); (4, 16, 0); (8, 64, 128)].
Proof. side_. runs. Qed.
Lemma history_changes : let qs := [ask_ 0 (1#2) 1; ask_ 0 1 1] in fits_history wide 1 qs /\ one_sided wide qs /\ curve_answers [ask_ 0 1 1] [(8, 64, 128)] /\ curve_answers qs [(4, 16, 0); (8, 64, 0)].
Proof. side_. split; runs. Qed.
Lemma resolution_ignored : let qs := [ask_ 0 1 2] in fits_history wide 2 qs /\ one_sided wide qs /\ curve_answers qs [(8, 64, 128)] /\
  pair2 (pair2 (curve 0 (1#4)) (curve (1#4) (1#2))) (pair2 (curve (1#2) (3#4)) (curve (3#4) 1)) = (8, 64, 160).
Proof. side_. split; [runs|vm_compute; reflexivity]. Qed.
Lemma growth_breaks_chen : let qs := [ask_ 0 (1#2) 1; ask_ (1#2) 1 1; ask_ 0 1 1] in fits_history wide 1 qs /\ one_sided wide qs /\
  exists x y z, dyn_answers q_zero q_pair q_brownian 3 wide q_ctx qs [x; y; z] /\ ~ (z == x + y)%Q.
Proof. side_. eexists _, _, _. split; [runs|]. unfold Qeq. vm_compute. congruence. Qed.
(** Depth 2: half an increment plus and minus p is not a splitting. *)
Definition heis_half (p : heis) : heis := let '(a, b, c) := p in (a / 2, b / 2, c / 2).
Definition heis_add (p q : heis) : heis := let '(a, b, c) := p in let '(a', b', c') := q in (a + a', b + b', c + c').
Definition heis_sub (p q : heis) : heis := let '(a, b, c) := p in let '(a', b', c') := q in (a - a', b - b', c - c').
Definition heis_gauss (g : Z) (s : Q) : heis * Z := ((2 * g, 2, 0), g + 1).
Lemma brownian_depth2 : let qs := [ask_ 0 1 0; ask_ 0 (1#2) 1; ask_ 0 1 0] in fits_history wide 1 qs /\ one_sided wide qs /\
  (forall v w, v = heis_add w w -> heis_add (heis_half v) (heis_half v) = v) /\
  dyn_answers heis_is_zero pair2 (brownian_rule heis_half heis_add heis_sub heis_gauss) 1 wide heis2 qs [(2, 2, 0); (5, 3, 0); (2, 2, 4)].
Proof.
  side_. split; [|runs]. intros v [[a b] c] ->. unfold heis_half, heis_add. replace (a + a) with (a * 2) by lia. replace (b + b) with (b * 2) by lia. replace (c + c) with (c * 2) by lia. rewrite !Z.div_mul by lia. repeat (apply pair_equal_spec; split); lia.
Qed.
Lemma ex_sides : let qs := [ask_ 0 1 0] in let q := ask_ (-1) (1#2) 1 in fits_history wide 1 (qs ++ [q]) /\ (exists p, In p qs /\ not_empty wide p) /\ not_empty wide q /\ other_side wide qs q /\
  dyn_all heis_is_zero pair2 (function_rule curve) 100 tt [] wide heis2 (qs ++ [q]) = UB.
Proof.
  cbn zeta. split; [apply fits_by; [lia|vm_compute; reflexivity]|]. split; [exists (ask_ 0 1 0); split; [left; auto|split; unfold meets, Qlt; vm_compute; reflexivity]|]. split; [split; unfold meets, Qlt; vm_compute; reflexivity|].
  split; [left; split; [each; intros _; unfold Qle; vm_compute; congruence|unfold Qlt; vm_compute; reflexivity]|vm_compute; reflexivity].
Qed.
