(** Dynamically constructed streams: consequences. *)
From Coq Require Import ZifyBool Lqa Qround.
From Verif Require Export DynLemmas2.
From Verif Require Import DyadicLemmas DyadicProofs DyadicProofs2 DyadicProofs3 StreamProofs2 StreamProofs3 StreamLemmas TickLemmas.
Open Scope Z_scope.

Lemma answers_fun lie st (is_zero : lie -> bool) cbh2 (R : rule lie st) g0 support ctx qs xs ys : dyn_answers is_zero cbh2 R g0 support ctx qs xs -> dyn_answers is_zero cbh2 R g0 support ctx qs ys -> xs = ys.
Proof.
  intros (F & t & g & H) (F' & t' & g' & H'). assert (A := H (Nat.max F F') (Nat.le_max_l _ _)). rewrite (H' (Nat.max F F') (Nat.le_max_r _ _)) in A. congruence.
Qed.
Section Cor.
  Variable lie st : Type.
  Variable is_zero : lie -> bool.
  Variable cbh2 : lie -> lie -> lie.
  Variable R : rule lie st.
  Variable S : sigs lie.
  Variable ok : lie -> Prop.
  Variable ctx : actx lie.
  Hypothesis HS : sound is_zero S ok ctx.
  Hypothesis H2 : pair_sound cbh2 S ok.
  Variable support : ri.
  Hypothesis Hsup : (ri_inf support <= ri_sup support)%Q.
  Variable res : Z.
  Variable g0 : st.
  Infix "===" := (sg_eq S) (at level 70).

  Lemma later_le a b : ((a <= b)%Q -> (later a b == b)%Q) /\ ((b <= a)%Q -> (later a b == a)%Q).
  Proof. unfold later. destruct (Qle_bool b a) eqn:E; split; intros H; try reflexivity; [apply Qle_bool_iff in E; lra|apply Qle_bool_iff in H; congruence]. Qed.
  Lemma earlier_le a b : ((a <= b)%Q -> (earlier a b == a)%Q) /\ ((b <= a)%Q -> (earlier a b == b)%Q).
  Proof. unfold earlier. destruct (Qle_bool a b) eqn:E; split; intros H; try reflexivity; [apply Qle_bool_iff in E; lra|apply Qle_bool_iff in H; congruence]. Qed.
  Let f (r : Z) (x : Q) : Z := cell_at res (grid_floor x r).
  Lemma f_mono r x y : (x <= y)%Q -> f r x <= f r y.
  Proof. intros L. unfold f, cell_at. apply Qfloor_resp_le. apply Qmult_le_compat_r; [apply grid_mono; auto|apply Qlt_le_weak, Qpow2_pos]. Qed.
  Lemma f_eq r x y : (x == y)%Q -> f r x = f r y.
  Proof. intros E. apply Z.le_antisymm; apply f_mono; rewrite E; apply Qle_refl. Qed.
  Lemma over_empty w a b : b <= a -> product_over S w a b = sg_one S.
  Proof. intros H. unfold product_over. replace (Z.to_nat (b - a)) with 0%nat by lia. reflexivity. Qed.
  Lemma chen_cells w a b c t1 t2 t3 r : (a <= b)%Q -> (b <= c)%Q ->
    product_over S w (f r (cut_from support (mkRI a c t3))) (f r (cut_upto support (mkRI a c t3))) ===
    sg_mul S (product_over S w (f r (cut_from support (mkRI a b t1))) (f r (cut_upto support (mkRI a b t1)))) (product_over S w (f r (cut_from support (mkRI b c t2))) (f r (cut_upto support (mkRI b c t2)))).
  Proof.
    intros Hab Hbc. unfold cut_from, cut_upto. cbn [ri_inf ri_sup]. set (lo := ri_inf support) in *. set (hi := ri_sup support) in *.
    destruct (later_le a lo) as [A1 A2], (later_le b lo) as [B1 B2], (earlier_le b hi) as [C1 C2], (earlier_le c hi) as [D1 D2].
    assert (La : (later a lo <= b)%Q \/ (b < lo)%Q) by (destruct (Qlt_le_dec b lo); [auto|left]; destruct (Qlt_le_dec a lo); [rewrite A1; lra|rewrite A2; lra]).
    destruct (Qlt_le_dec b lo) as [Lb|Lb].
    - rewrite (f_eq r _ _ (A1 ltac:(lra))), (f_eq r _ _ (B1 ltac:(lra))), (f_eq r _ _ (C1 ltac:(lra))). rewrite (over_empty w (f r lo) (f r b)) by (apply f_mono; lra). apply (sd_sym _ _ _ _ HS), (sd_one_l _ _ _ _ HS).
    - rewrite (f_eq r _ _ (B2 Lb)). destruct (Qlt_le_dec hi b) as [Hb|Hb].
      + rewrite (f_eq r (earlier b hi) hi) by (apply C2; lra). rewrite (f_eq r (earlier c hi) hi) by (apply D2; lra). rewrite (over_empty w (f r b) (f r hi)) by (apply f_mono; lra). apply (sd_sym _ _ _ _ HS), (sd_one_r _ _ _ _ HS).
      + rewrite (f_eq r _ _ (C1 Hb)). apply (product_split lie is_zero S ok ctx HS). split; apply f_mono; [destruct La; lra|]. destruct (Qlt_le_dec hi c); [rewrite D2; lra|rewrite D1; lra].
  Qed.
  Lemma combine_in {A B} (P : A -> B -> Prop) l l' : Forall2 P l l' -> forall a b, In (a, b) (combine l l') -> P a b.
  Proof. intros H. induction H as [|x y l l' Hxy H IH]; intros a b Hi; [destruct Hi|]. destruct Hi as [[= <- <-]|Hi]; auto. Qed.
  Theorem dyn_chen : DynSpec.splits S ok R -> forall k n qs xs, fits_history support res qs -> first_whole support k n qs -> dyn_answers is_zero cbh2 R g0 support ctx qs xs ->
    forall a b c t1 t2 t3 r x y z, (a <= b)%Q -> (b <= c)%Q ->
    In ((mkRI a b t1, r), x) (combine qs xs) -> In ((mkRI b c t2, r), y) (combine qs xs) -> In ((mkRI a c t3, r), z) (combine qs xs) -> sg_of S z === sg_mul S (sg_of S x) (sg_of S y).
  Proof.
    intros HR k n qs xs Hf Hw Ha a b c t1 t2 t3 r x y z Hab Hbc Ix Iy Iz. destruct (dyn_one_path lie st is_zero cbh2 R S ok ctx HS H2 support Hsup res g0 HR k n qs Hf Hw) as (xs' & w & Ha' & F). rewrite <- (answers_fun _ _ _ _ _ _ _ _ _ _ _ Ha Ha') in F.
    assert (Px := proj2 (combine_in _ _ _ F _ _ Ix)). assert (Py := proj2 (combine_in _ _ _ F _ _ Iy)). assert (Pz := proj2 (combine_in _ _ _ F _ _ Iz)). cbn [fst snd] in *.
    eapply (sd_trans _ _ _ _ HS); [exact Pz|]. eapply (sd_trans _ _ _ _ HS); [apply (chen_cells w a b c t1 t2 t3 r Hab Hbc)|]. apply (sd_mul _ _ _ _ HS); apply (sd_sym _ _ _ _ HS); auto.
  Qed.
  Theorem dyn_repeat : DynSpec.splits S ok R -> forall k n qs xs, fits_history support res qs -> first_whole support k n qs -> dyn_answers is_zero cbh2 R g0 support ctx qs xs ->
    forall q x y, In (q, x) (combine qs xs) -> In (q, y) (combine qs xs) -> sg_of S x === sg_of S y.
  Proof.
    intros HR k n qs xs Hf Hw Ha q x y Ix Iy. destruct (dyn_one_path lie st is_zero cbh2 R S ok ctx HS H2 support Hsup res g0 HR k n qs Hf Hw) as (xs' & w & Ha' & F). rewrite <- (answers_fun _ _ _ _ _ _ _ _ _ _ _ Ha Ha') in F.
    assert (Px := proj2 (combine_in _ _ _ F _ _ Ix)). assert (Py := proj2 (combine_in _ _ _ F _ _ Iy)). eapply (sd_trans _ _ _ _ HS); [exact Px|]. apply (sd_sym _ _ _ _ HS). exact Py.
  Qed.
  Lemma function_source G F : (forall a b, (a <= b)%Q -> ok (F a b) /\ sg_of S (F a b) === G a b) -> source_of S ok G (function_rule F).
  Proof.
    intros H. constructor; cbn [ru_root ru_neighbour ru_children function_rule fst]; intros; [..|split]; apply H; apply dy_same_le; cbn; lia.
  Qed.
  Theorem dyn_function : forall F G, path S G -> (forall a b, (a <= b)%Q -> ok (F a b) /\ sg_of S (F a b) === G a b) ->
    forall qs, fits_history support res qs -> one_sided support qs -> exists xs, dyn_answers is_zero cbh2 (function_rule F) tt support ctx qs xs /\
      Forall2 (fun q x => ok x /\ (meets support (fst q) -> sg_of S x === G (grid_floor (cut_from support (fst q)) (snd q)) (grid_floor (cut_upto support (fst q)) (snd q))) /\ (~ meets support (fst q) -> sg_of S x === sg_one S)) qs xs.
  Proof. intros F G HG HF. exact (dyn_exact lie _ is_zero cbh2 (function_rule F) S ok ctx HS H2 support Hsup res tt G HG (function_source G F HF)). Qed.
  Lemma brownian_splits half add sub (gauss : st -> Q -> lie * st) : DynSpec.linear S ok half add sub -> (forall g s, ok (fst (gauss g s))) -> DynSpec.splits S ok (brownian_rule half add sub gauss).
  Proof.
    intros L Hg. constructor; cbn [ru_root ru_neighbour ru_children brownian_rule]; auto. intros g k n v Ov. assert (Op := Hg g ((1 # 2) * Qpower 2 (di_n (mkDI (2 * k) (n + 1) Clopen)))%Q). destruct (gauss g _) as [p g1]. cbn [fst] in Op.
    destruct (ln_half _ _ _ _ _ L v Ov) as [Oh Eh]. destruct (ln_add _ _ _ _ _ L _ _ Oh Op) as [Oa Ea]. destruct (ln_sub _ _ _ _ _ L _ _ Oh Op) as [Os Es]. split; auto. split; auto.
    eapply (sd_trans _ _ _ _ HS); [apply (sd_mul _ _ _ _ HS); [exact Ea|apply (sd_refl _ _ _ _ HS)]|]. eapply (sd_trans _ _ _ _ HS); [apply (sd_assoc _ _ _ _ HS)|]. eapply (sd_trans _ _ _ _ HS); [|exact Eh]. apply (sd_mul _ _ _ _ HS); [apply (sd_refl _ _ _ _ HS)|]. eapply (sd_trans _ _ _ _ HS); [apply (ln_comm _ _ _ _ _ L)|exact Es].
  Qed.
  Theorem dyn_brownian : forall half add sub (gauss : st -> Q -> lie * st), DynSpec.linear S ok half add sub -> (forall g s, ok (fst (gauss g s))) ->
    forall k n qs, fits_history support res qs -> first_whole support k n qs -> exists xs w, dyn_answers is_zero cbh2 (brownian_rule half add sub gauss) g0 support ctx qs xs /\
      Forall2 (fun q x => ok x /\ sg_of S x === product_over S w (cell_at res (grid_floor (cut_from support (fst q)) (snd q))) (cell_at res (grid_floor (cut_upto support (fst q)) (snd q)))) qs xs.
  Proof. intros half add sub gauss L Hg. exact (dyn_one_path lie st is_zero cbh2 _ S ok ctx HS H2 support Hsup res g0 (brownian_splits _ _ _ _ L Hg)). Qed.
End Cor.
Theorem dyn_first : forall (lie st : Type) (is_zero : lie -> bool) cbh2 (R : rule lie st) ctx support g0, (ri_inf support <= ri_sup support)%Q ->
  forall i k n, (ri_inf i <= ri_sup i)%Q -> (cut_from support i == dy k n)%Q -> (cut_upto support i == dy (k + 1) n)%Q -> fits_query (cut_from support i) (cut_upto support i) n n ->
  let x := fst (ru_root R g0 (mkDI k n Clopen)) in dyn_answers is_zero cbh2 R g0 support ctx [(i, n)] [cx_cbh ctx (if is_zero x then [] else [x])].
Proof.
  intros lie st is_zero cbh2 R ctx support g0 Hsup i k n Hi Ef Eu Hfit x. destruct (ru_root R g0 (mkDI k n Clopen)) as [y g1] eqn:Er. cbn [fst] in x. subst x. exists 31%nat, [(mkDI k n Clopen, mkNode n y None None)], g1. intros fuel Hfu. cbn [dyn_all].
  unfold dn_log_signature_at. set (s0 := mkStream [] 0 ctx support). assert (M : (cut_from support i < cut_upto support i)%Q) by (rewrite Ef, Eu; apply dy_same_lt; lia).
  destruct (refine_spec s0 i Hi Hsup) as [(E & Le)|(q & R0 & E & Eq1 & Eq2 & Lt & _)]; [change (from s0 i) with (cut_from support i) in Le; change (upto s0 i) with (cut_upto support i) in Le; lra|]. rewrite E.
  change (from s0 i) with (cut_from support i) in *. change (upto s0 i) with (cut_upto support i) in *. rewrite Eq1, Eq2. unfold dn_stream_impl.
  assert (Gf := grid_self _ k n n (Z.le_refl n) Ef). assert (Gu := grid_self _ (k + 1) n n (Z.le_refl n) Eu). destruct (fits_piece _ _ n n k n Hfit (Z.le_refl n)) as [HC _]; [rewrite Gf; apply Qle_refl|rewrite Gu; apply Qle_refl|]. destruct (HC ltac:(lia)) as (C1 & C2 & C3). rewrite Z.sub_diag, Z.pow_0_r in *. destruct Hfit as (T1 & _).
  assert (ED := dissect_one k n 0). rewrite Z.add_0_r in ED. rewrite (ED ltac:(lia) T1 ltac:(rewrite Z.pow_0_r; lia) ltac:(rewrite Z.pow_0_r; lia) _ _ fuel) by auto.
  cbn [bind dn_pieces]. unfold dn_dyadic. cbn [cache_find bind dn_begin]. rewrite Er. unfold dn_insert_node. cbn [dn_insert bind dn_at di_n]. unfold key_eqb. cbn [di_k di_n di_t itype_eqb]. rewrite !Z.eqb_refl. cbn [andb bind dn_acc dn_lie]. rewrite (proj2 (Z.geb_le n n)) by lia. cbn [bind dn_at]. unfold key_eqb. cbn [di_k di_n di_t itype_eqb]. rewrite !Z.eqb_refl. reflexivity.
Qed.
