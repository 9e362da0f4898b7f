(** Contexts exist for every width and depth whose keys fit; and the contexts of the examples. *)
From Coq Require Import ZArith List Bool Lia ZifyBool QArith Qcanon.
From Verif Require Import LieObjModel Alg PowerSeries Words Series Shuffle Dual Dexp LalBasis LalFma LalTensor LalDense LalFun LhSpec ShufFma KeyProofs KeyProofs2 LhProofs HallModel HallSpec HallTab HallDim HallTrees HsProofs HsLemmas BracketModel BracketProofs BracketSem LieSpec L2tProofs Dynkin T2lLemmas L2tLemmas HallIndep LieTab LieBasis LieProd LieMult LieMaps LieVec LieOne LieTwo LieThree LieObj.
From Verif Require Import Cbh LieObjSpec.
Import ListNotations.
Open Scope Z_scope.

Section Exists.
  Variables (w N : Z) (L : lctx).
  Hypothesis HC : ctx_ok w N L.
  Let Hw : 1 <= w := c_w w N L HC.
  Let HN : 1 <= N <= 254 := c_N w N L HC.
  Lemma named_is : forall m k, (Z.to_nat k <= m)%nat -> 1 <= k <= nM w N -> named (lc_h L) (UK w k) (HallTrees.tr (nL w N) (nR w N) k).
  Proof.
    assert (HU := UH w Hw). assert (HH := nH w Hw N HN). assert (HM := nM_le w Hw N HN).
    induction m as [|m IH]; intros k Hm Hk; [lia|].
    destruct (uk_read w N L HC k Hk) as [Ed Ei]. assert (Gi := ug_in w Hw N HN k Hk). destruct (dg_level _ _ _ _ _ _ HU k ltac:(lia)) as [A1 A2]. fold (ug w k) in A1, A2.
    destruct (Z_le_gt_dec k w) as [Hkw|Hkw].
    - assert (D1 : ug w k = 1) by (apply (dg_eq _ _ _ _ _ _ HU); [assert (Q := UN_eq); lia|]; apply (level_letter _ _ _ _ _ _ HU); lia).
      rewrite (tr_letter _ _ _ _ _ _ HH) by lia. rewrite D1, (hd_1 _ _ _ _ _ _ HU) in Ei. replace k with (k_index (UK w k) + 1) at 2 by lia. apply named_letter. congruence.
    - destruct (node_dg _ _ _ _ _ _ HH k Hk ltac:(lia)) as (B1 & B2 & B3 & B4 & B5 & B6). destruct (dg_level _ _ _ _ _ _ HH k Hk) as [D2 D3]. destruct (dg_level _ _ _ _ _ _ HH _ B1) as [D4 _]. destruct (dg_level _ _ _ _ _ _ HH _ B2) as [D5 _].
      rewrite (tr_node _ _ _ _ _ _ HH (dg N (ndb w N) k) k) by (auto; lia). eapply named_bracket; [|apply (uk_parents w N L HC k Hk ltac:(lia))| |]; [|apply IH; lia|apply IH; lia].
      rewrite Ed, <- (ng_eq w Hw N HN) by auto. lia.
  Qed.
End Exists.
Definition no_ctx := mkLC (mkTB 0 0 (mkbuf 0 (fun _ => 0)) (mkbuf 0 (fun _ => 0))) (mkHS 0 [] [] [] []).
Definition make_ctx (w N : Z) : lctx := match KeyModel.tensor_basis w N, new_hall_set w N with Ok B, Ok H => mkLC B H | _, _ => no_ctx end.
Lemma make_ctx_ok w N : packs w N -> sized w N -> 1 <= N -> ctx_ok w N (make_ctx w N).
Proof.
  intros P S HN. unfold make_ctx. destruct (tensor_basis_ok w N ltac:(lia)) as (B & EB & _). rewrite EB.
  assert (HP := P). destruct HP as ((W1 & W2) & (N1 & N2) & _).
  destruct (new_ok w N ltac:(lia) ltac:(lia) (packs_lev w W1 N P ltac:(lia)) N ltac:(lia)) as (H & EH & _). rewrite EH. unfold ctx_ok. cbn [lc_t lc_h]. auto.
Qed.
(** The dimension and the Hall trees of the contexts *)
Definition dim_of (width depth : Z -> Z) (c : Z) : Z := nM (width c) (depth c).
Definition tree_of (width depth : Z -> Z) (c i : Z) : tree := HallTrees.tr (nL (width c) (depth c)) (nR (width c) (depth c)) (i + 1).
Definition ctx_of (width depth : Z -> Z) (c : Z) : lctx := make_ctx (width c) (depth c).
Theorem context_of width depth c : packs (width c) (depth c) -> sized (width c) (depth c) -> 1 <= depth c ->
  lie_context width depth (dim_of width depth) (tree_of width depth) (ctx_of width depth) c.
Proof.
  intros P S D. assert (HC := make_ctx_ok _ _ P S D). unfold dim_of, tree_of, ctx_of.
  assert (HC' := HC). destruct HC' as (_ & _ & _ & E1 & E2). repeat (split; [assumption|]). split; [apply (c_size _ _ _ HC)|]. intros i Hi. exists (lkey (width c) i). split; [apply (c_key _ _ _ HC); lia|]. unfold lkey. apply (named_is _ _ _ HC (Z.to_nat (i + 1))); lia.
Qed.
(** For any choice of widths and depths whose keys fit, the process can have these contexts, all at once. *)
Theorem contexts_exist width depth : (forall c : Z, packs (width c) (depth c) /\ sized (width c) (depth c) /\ 1 <= depth c) ->
  exists dims trees ctxs, forall c, lie_context width depth dims trees ctxs c.
Proof. intros H. exists (dim_of width depth), (tree_of width depth), (ctx_of width depth). intros c. destruct (H c) as (P & S & D). apply context_of; auto. Qed.
(** Contexts of the examples *)
Definition widths (c : Z) : Z := nth (Z.to_nat c) [2; 2; 3; 2] 2.
Definition depths (c : Z) : Z := nth (Z.to_nat c) [2; 3; 2; 4] 1.
Definition ctx65 := ctx_of widths depths.
Definition dims65 := dim_of widths depths.
Definition trees65 := tree_of widths depths.
Lemma context65 c : 0 <= c < 4 -> lie_context widths depths dims65 trees65 ctx65 c.
Proof.
  intros H. assert (E : c = 0 \/ c = 1 \/ c = 2 \/ c = 3) by lia. 
  apply context_of; destruct E as [->|[->|[->| ->]]]; first [vm_compute; congruence | repeat split; vm_compute; congruence].
Qed.
Definition q (l : list Q) : list Qcqa := map Q2Qc l.
(** What iteration shows of an object after a program: keys and coefficients. *)
Definition seen65 (ck : Z -> outcome Z) (p : list (lcmd Qcqa)) (x : Z) : outcome (option (list Z * list Q)) :=
  let! (e, _) := lie_run Qcqa Qc_eq_bool ck ctx65 p (lie_start Qcqa) in
  match e x with
  | Some o =>
      let! l := if lo_lie o then ld_items Qcqa Qc_eq_bool (ctx65 (lo_ctx o)) (lo_data o) else h_items Qcqa Qc_eq_bool (fun c => lc_t (ctx65 c)) (Some (mkImpl (lo_ctx o) (lo_data o))) in
      Ok (Some (map fst l, map (fun c : Z * Qc => this (snd c)) l))
  | None => Ok None end.

(** ** A test for covered programs, for the examples: contexts, algebras and storages are enough to decide *)
Section Check.
  Variable R : qalg.
  Variables (width depth dims : Z -> Z) (trees : Z -> Z -> tree) (good : Z -> Prop) (goodb : Z -> bool).
  Hypothesis Hgood : forall c, goodb c = true -> good c.
  Definition meta (v : vobj R) : Z * bool * bool := (v_ctx R v, v_lie R v, v_dense R v).
  Definition kset (e : Z -> option (Z * bool * bool)) x k := fun y => if y =? x then Some k else e y.
  Definition kon (e : Z -> option (Z * bool * bool)) x y (f : Z * bool * bool -> Z * bool * bool) := match e y with Some a => kset e x (f a) | None => e end.
  Definition kstep (k : lcmd R) e :=
    match k with
    | LNew _ x c lie dense _ _ => kset e x (c, lie, dense)
    | LLin _ x _ y => kon e x y (fun a => a)
    | LLin2 _ x _ y z | LTimes _ x y z => match e y, e z with Some a, Some _ => kset e x a | _, _ => e end
    | LExp _ x y | LLog _ x y => kon e x y (fun a => (fst (fst a), false, snd a))
    | LToTensor _ x c y => kon e x y (fun a => (c, false, snd a))
    | LToLie _ x c y => kon e x y (fun a => (c, true, snd a))
    | LCbh _ x c _ dense => kset e x (c, true, dense)
    | LCbh2 _ x c y z => kon e x y (fun a => (c, true, snd a))
    | LSig _ x c dense _ => kset e x (c, false, dense)
    | LLogSig _ x c dense _ => kset e x (c, true, dense)
    | LDeriv _ x c dense _ => kset e x (c, false, dense)
    end.
  Definition usableb c (a : Z * bool * bool) := (fst (fst a) =? c) || ((width (fst (fst a)) =? width c) && (snd a || (depth (fst (fst a)) <=? depth c))).
  Definition is_lieb (e : Z -> option (Z * bool * bool)) y (P : Z * bool * bool -> bool) := match e y with Some a => snd (fst a) && P a | None => false end.
  Definition rowb (dim : Z) (row : option (list Z) * list R) := match fst row with None => true | Some ks => Nat.eqb (length ks) (length (snd row)) && forallb (fun i => (0 <=? i) && (i <? dim)) ks end.
  Definition derivb c (dense : bool) (a : Z * bool * bool) := usableb c a && (negb (fst (fst a) =? c) || Bool.eqb (snd a) dense).
  Definition kmay (k : lcmd R) e : bool :=
    match k with
    | LNew _ _ c lie _ keys data => goodb c && rowb (if lie then dims c else words_below (width c) (S (Z.to_nat (depth c)))) (keys, data)
    | LLin _ _ _ y => match e y with Some _ => true | None => false end
    | LLin2 _ _ _ y z | LTimes _ _ y z => match e y, e z with Some a, Some b => (fst (fst a) =? fst (fst b)) && Bool.eqb (snd (fst a)) (snd (fst b)) | _, _ => false end
    | LExp _ _ y | LLog _ _ y => match e y with Some a => negb (snd (fst a)) | None => false end
    | LToTensor _ _ c y => goodb c && is_lieb e y (usableb c)
    | LToLie _ _ c y => goodb c && match e y with Some a => negb (snd (fst a)) && usableb c a | None => false end
    | LCbh _ _ c ys _ => goodb c && forallb (fun y => is_lieb e y (usableb c)) ys
    | LCbh2 _ _ c y z => goodb c && (is_lieb e y (usableb c) && is_lieb e z (usableb c))
    | LSig _ _ c _ rows | LLogSig _ _ c _ rows => goodb c && forallb (rowb (dims c)) rows
    | LDeriv _ _ c dense info => goodb c && (Nat.leb (length info) 1 && forallb (fun yz => is_lieb e (fst yz) (derivb c dense) && is_lieb e (snd yz) (derivb c dense)) info)
    end.
  Fixpoint check (p : list (lcmd R)) e : bool := match p with [] => true | k :: p => kmay k e && check p (kstep k e) end.
  Definition krel (e : venv R) (ke : Z -> option (Z * bool * bool)) := forall x, option_map meta (e x) = ke x.
  Ltac eqs := rewrite ?andb_true_iff, ?orb_true_iff, ?negb_true_iff, ?Z.eqb_eq, ?Z.leb_le, ?Z.ltb_lt, ?Bool.eqb_true_iff, ?forallb_forall in *.
  Lemma krel_set e ke x v : krel e ke -> krel (vset R e x v) (kset ke x (meta v)).
  Proof. intros H y. unfold vset, kset. destruct (y =? x); [reflexivity|apply H]. Qed.
  Lemma krel_at e ke y a : krel e ke -> ke y = Some a -> exists v, e y = Some v /\ a = meta v.
  Proof. intros H E. specialize (H y). rewrite E in H. destruct (e y) as [v|]; [|discriminate]. injection H as <-. eauto. Qed.
  Lemma krel_step k e ke : krel e ke -> krel (vstep R width depth dims trees k e) (kstep k ke).
  Proof.
    intros H. destruct k; cbn [vstep kstep]; unfold von1, von2, kon.
    - destruct lie; refine (krel_set _ _ _ _ H).
    - rewrite <- (H y). destruct (e y) as [v|]; cbn [option_map]; [|exact H]. refine (krel_set _ _ _ (mkV R (v_ctx R v) (v_lie R v) (v_dense R v) _) H).
    - rewrite <- (H y), <- (H z). destruct (e y) as [v|], (e z) as [v'|]; cbn [option_map]; try exact H. refine (krel_set _ _ _ (mkV R (v_ctx R v) (v_lie R v) (v_dense R v) _) H).
    - rewrite <- (H y), <- (H z). destruct (e y) as [v|], (e z) as [v'|]; cbn [option_map]; try exact H. refine (krel_set _ _ _ (mkV R (v_ctx R v) (v_lie R v) (v_dense R v) _) H).
    - rewrite <- (H y). destruct (e y) as [v|]; cbn [option_map]; [|exact H]. refine (krel_set _ _ _ (mkV R (v_ctx R v) false (v_dense R v) _) H).
    - rewrite <- (H y). destruct (e y) as [v|]; cbn [option_map]; [|exact H]. refine (krel_set _ _ _ (mkV R (v_ctx R v) false (v_dense R v) _) H).
    - rewrite <- (H y). destruct (e y) as [v|]; cbn [option_map]; [|exact H]. refine (krel_set _ _ _ (mkV R ctx false (v_dense R v) _) H).
    - rewrite <- (H y). destruct (e y) as [v|]; cbn [option_map]; [|exact H]. refine (krel_set _ _ _ (mkV R ctx true (v_dense R v) _) H).
    - refine (krel_set _ _ _ _ H).
    - rewrite <- (H y). destruct (e y) as [v|]; cbn [option_map]; [|exact H]. refine (krel_set _ _ _ (mkV R ctx true (v_dense R v) _) H).
    - refine (krel_set _ _ _ _ H).
    - refine (krel_set _ _ _ _ H).
    - refine (krel_set _ _ _ _ H).
  Qed.
  Lemma usableb_ok c v : usableb c (meta v) = true -> usable R width depth c v.
  Proof. unfold usableb, usable, meta. cbn [fst snd]. rewrite orb_true_iff, !andb_true_iff, orb_true_iff, !Z.eqb_eq, Z.leb_le. tauto. Qed.
  Lemma derivb_ok c dense v : derivb c dense (meta v) = true -> usable R width depth c v /\ (v_ctx R v = c -> v_dense R v = dense).
  Proof. unfold derivb. rewrite andb_true_iff. intros [A C]. split; [apply usableb_ok; auto|]. unfold meta in C. cbn [fst snd] in C. eqs. intros E. destruct C as [C|C]; [apply Z.eqb_neq in C; contradiction|auto]. Qed.
  Lemma is_lieb_ok e ke y P (Q : vobj R -> Prop) : krel e ke -> (forall v, P (meta v) = true -> Q v) -> is_lieb ke y P = true -> is_lie R e y Q.
  Proof. intros H HP. unfold is_lieb. destruct (ke y) as [a|] eqn:E; [|discriminate]. destruct (krel_at e ke y a H E) as (v & Ev & ->). rewrite andb_true_iff. intros [L U]. exists v. auto. Qed.
  Lemma rowb_ok dim row : rowb dim row = true -> row_ok R dim row.
  Proof. unfold rowb, row_ok. destruct (fst row); [|auto]. rewrite andb_true_iff, Nat.eqb_eq, forallb_forall. intros [A C]. split; [auto|]. apply Forall_forall. intros i Hi. specialize (C i Hi). eqs. lia. Qed.
  Lemma kmay_ok k e ke : krel e ke -> kmay k ke = true -> vmay R width depth dims good k e.
  Proof.
    intros H. destruct k; cbn [kmay vmay].
    - rewrite andb_true_iff. intros [G Hr]. split; [auto|]. apply rowb_ok; auto.
    - destruct (ke y) as [a|] eqn:E; [|discriminate]. destruct (krel_at e ke y a H E) as (v & Ev & _). congruence.
    - destruct (ke y) as [a|] eqn:E; [|discriminate]. destruct (ke z) as [b|] eqn:E'; [|discriminate]. destruct (krel_at e ke y a H E) as (v & Ev & ->), (krel_at e ke z b H E') as (v' & Ev' & ->). cbn [meta fst snd]. eqs. intros [A C]. exists v, v'. auto.
    - destruct (ke y) as [a|] eqn:E; [|discriminate]. destruct (ke z) as [b|] eqn:E'; [|discriminate]. destruct (krel_at e ke y a H E) as (v & Ev & ->), (krel_at e ke z b H E') as (v' & Ev' & ->). cbn [meta fst snd]. eqs. intros [A C]. exists v, v'. auto.
    - destruct (ke y) as [a|] eqn:E; [|discriminate]. destruct (krel_at e ke y a H E) as (v & Ev & ->). eqs. cbn [meta fst snd]. intros A. exists v. auto.
    - destruct (ke y) as [a|] eqn:E; [|discriminate]. destruct (krel_at e ke y a H E) as (v & Ev & ->). eqs. cbn [meta fst snd]. intros A. exists v. auto.
    - rewrite andb_true_iff. intros [G A]. split; [auto|]. eapply is_lieb_ok; eauto using usableb_ok.
    - rewrite andb_true_iff. intros [G A]. split; [auto|]. destruct (ke y) as [a|] eqn:E; [|discriminate]. destruct (krel_at e ke y a H E) as (v & Ev & ->). rewrite andb_true_iff, negb_true_iff in A. exists v. destruct A as [A1 A2]. split; [auto|]. split; [exact A1|]. apply usableb_ok; auto.
    - rewrite andb_true_iff, forallb_forall. intros [G A]. split; [auto|]. apply Forall_forall. intros y Hy. eapply is_lieb_ok; eauto using usableb_ok.
    - rewrite !andb_true_iff. intros (G & A1 & A2). split; [auto|]. split; eapply is_lieb_ok; eauto using usableb_ok.
    - rewrite andb_true_iff, forallb_forall. intros [G A]. split; [auto|]. apply Forall_forall. intros r Hr. apply rowb_ok; auto.
    - rewrite andb_true_iff, forallb_forall. intros [G A]. split; [auto|]. apply Forall_forall. intros r Hr. apply rowb_ok; auto.
    - rewrite !andb_true_iff, forallb_forall, Nat.leb_le. intros (G & A1 & A2). split; [auto|]. split; [auto|]. apply Forall_forall. intros yz Hyz. specialize (A2 yz Hyz). rewrite andb_true_iff in A2. destruct A2. split; eapply is_lieb_ok; eauto using derivb_ok.
  Qed.
  Lemma check_rel p : forall e ke, krel e ke -> check p ke = true -> vcovered R width depth dims trees good p e.
  Proof. induction p as [|k p IH]; intros e ke H; cbn [check vcovered]; [auto|]. rewrite andb_true_iff. intros [A C]. split; [eapply kmay_ok; eauto|]. eapply IH; [apply krel_step; eauto|auto]. Qed.
  Lemma check_ok p : check p (fun _ => None) = true -> vcovered R width depth dims trees good p (vstart R).
  Proof. apply check_rel. intros x. reflexivity. Qed.
End Check.
Lemma covered65_by p : check Qcqa widths depths dims65 (fun c => (0 <=? c) && (c <? 4)) p (fun _ => None) = true ->
  vcovered Qcqa widths depths dims65 trees65 (lie_context widths depths dims65 trees65 ctx65) p (vstart Qcqa).
Proof. apply check_ok. intros c H. apply context65. lia. Qed.
