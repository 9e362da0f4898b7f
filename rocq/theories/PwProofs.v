(** Proofs about piecewise abelian streams. *)
From Coq Require Import QArith Lqa Field Lia.
From Verif Require Import PwSpec StreamProofs StreamProofs2 StreamProofs3 DyadicProofs DyadicProofs3 StreamLemmas.
From Verif Require IntervalProofs DyadicLemmas.
Open Scope Q_scope.

Section A.
  Context {lie : Type}.
  Variables (is_zero : lie -> bool) (S : sigs lie) (ok : lie -> Prop) (ctx : actx lie) (smul : Q -> lie -> lie).
  Variable SD : sound is_zero S ok ctx.
  Variable SC : scaling S ok smul.
  Notation "x === y" := (sg_eq S x y) (at level 70).
  Notation "x ** y" := (sg_mul S x y) (at level 40).
  Notation okd d := (Forall (fun p : lie_piece lie => ok (snd p)) d).

  Lemma prod_app l1 l2 : sg_prod S (l1 ++ l2) === sg_prod S l1 ** sg_prod S l2.
  Proof.
    induction l1 as [|x l1 IH]; cbn [app sg_prod fold_right].
    - apply (sd_sym _ _ _ _ SD), (sd_one_l _ _ _ _ SD).
    - eapply (sd_trans _ _ _ _ SD); [apply (sd_mul _ _ _ _ SD); [apply (sd_refl _ _ _ _ SD)|exact IH]|].
      apply (sd_sym _ _ _ _ SD), (sd_assoc _ _ _ _ SD).
  Qed.
  Lemma cprod_app l1 l2 : covered_prod S smul (l1 ++ l2) === covered_prod S smul l1 ** covered_prod S smul l2.
  Proof. unfold covered_prod. rewrite map_app. apply prod_app. Qed.

  Lemma loop_ok a b d : okd d -> Forall ok (pw_loop smul a b d).
  Proof.
    induction 1 as [|p d Hp _ IH]; cbn [pw_loop]; [constructor|].
    repeat match goal with |- context [if ?c then _ else _] => destruct c end; auto; constructor; auto; apply (sc_ok _ _ _ SC); auto.
  Qed.
  Lemma covered_cons a b (p : lie_piece lie) d : covered a b (p :: d) =
    (if qlt (later a (ri_inf (fst p))) (earlier b (ri_sup (fst p)))
     then [((earlier b (ri_sup (fst p)) - later a (ri_inf (fst p))) / (ri_sup (fst p) - ri_inf (fst p)), snd p)] else []) ++ covered a b d.
  Proof. unfold covered. cbn [filter]. destruct qlt; reflexivity. Qed.
  Lemma covered_app a b (d1 d2 : list (lie_piece lie)) : covered a b (d1 ++ d2) = covered a b d1 ++ covered a b d2.
  Proof. unfold covered. rewrite filter_app, map_app. reflexivity. Qed.
  Lemma later_cases a b : (later a b = a /\ b <= a) \/ (later a b = b /\ a < b).
  Proof. unfold later. destruct (Qle_bool b a) eqn:E; [left; apply Qle_bool_iff in E; auto|right]. split; auto. apply Qnot_le_lt. rewrite <- Qle_bool_iff. congruence. Qed.
  Lemma earlier_cases a b : (earlier a b = a /\ a <= b) \/ (earlier a b = b /\ b < a).
  Proof. unfold earlier. destruct (Qle_bool a b) eqn:E; [left; apply Qle_bool_iff in E; auto|right]. split; auto. apply Qnot_le_lt. rewrite <- Qle_bool_iff. congruence. Qed.

  Ltac ends :=
    repeat match goal with
    | H : context [later ?x ?y] |- _ => let X := fresh in destruct (later_cases x y) as [[X ?]|[X ?]]; rewrite X in *; clear X
    | H : context [earlier ?x ?y] |- _ => let X := fresh in destruct (earlier_cases x y) as [[X ?]|[X ?]]; rewrite X in *; clear X
    | |- context [later ?x ?y] => let X := fresh in destruct (later_cases x y) as [[X ?]|[X ?]]; rewrite X in *; clear X
    | |- context [earlier ?x ?y] => let X := fresh in destruct (earlier_cases x y) as [[X ?]|[X ?]]; rewrite X in *; clear X
    end; try lra.
  Lemma covered_past a b (d : list (lie_piece lie)) : in_order d -> (forall p, In p d -> b <= ri_inf (fst p)) -> covered a b d = [].
  Proof.
    intros [Hd _] H. induction d as [|p d IH]; [reflexivity|]. rewrite covered_cons, IH; [|inversion Hd; auto|intros; apply H; right; auto].
    specialize (H p (or_introl eq_refl)). inversion Hd; subst.
    destruct qlt eqn:E; [|reflexivity]. apply qlt_iff in E. ends.
  Qed.
  Lemma in_order_tail p (d : list (lie_piece lie)) : in_order (p :: d) -> in_order d.
  Proof. intros [H1 H2]. inversion H1; inversion H2; subst. split; auto. Qed.
  Lemma in_order_later p (d : list (lie_piece lie)) b : in_order (p :: d) -> b <= ri_sup (fst p) -> forall q, In q d -> b <= ri_inf (fst q).
  Proof. intros [_ H2] Hb q Hq. inversion H2; subst. rewrite Forall_forall in H3. specialize (H3 q Hq). cbn in H3. lra. Qed.

  (** One piece met by the query and not beyond its right end. *)
  Lemma frac_full pa pb a b : pa < pb -> a <= pa -> pb <= b -> (earlier b pb - later a pa) / (pb - pa) == 1.
  Proof.
    intros H Ha Hb. assert (E : later a pa == pa) by (destruct (later_cases a pa) as [[-> ?]|[-> ?]]; lra).
    assert (E2 : earlier b pb == pb) by (destruct (earlier_cases b pb) as [[-> ?]|[-> ?]]; lra). rewrite E, E2. field. lra.
  Qed.
  Lemma frac_left pa pb a b : a < pb -> pa < a -> pb <= b -> (earlier b pb - later a pa) / (pb - pa) == (pb - a) / (pb - pa).
  Proof.
    intros H Ha Hb. assert (E : later a pa == a) by (destruct (later_cases a pa) as [[-> ?]|[-> ?]]; lra).
    assert (E2 : earlier b pb == pb) by (destruct (earlier_cases b pb) as [[-> ?]|[-> ?]]; lra). rewrite E, E2. reflexivity.
  Qed.

  Lemma loop_exact a b d : in_order d -> outside d b -> sg_prod S (pw_loop smul a b d) === covered_prod S smul (covered a b d).
  Proof.
    induction d as [|p d IH]; intros HO HB; [apply (sd_refl _ _ _ _ SD)|].
    assert (HO' := in_order_tail _ _ HO). assert (Hp : ri_inf (fst p) < ri_sup (fst p)) by (destruct HO as [X _]; inversion X; auto).
    inversion HB as [|? ? Hb HB']; subst. specialize (IH HO' HB').
    cbn [pw_loop]. destruct (qle b (ri_inf (fst p))) eqn:E1.
    { apply qle_iff in E1. rewrite covered_past; [apply (sd_refl _ _ _ _ SD)|exact HO|].
      intros q [<-|Hq]; [exact E1|]. apply (in_order_later p d); auto. lra. }
    apply qle_niff in E1. assert (Eb : ri_sup (fst p) <= b) by lra. rewrite covered_cons.
    destruct (qle (ri_sup (fst p)) a) eqn:E2.
    { apply qle_iff in E2. destruct qlt eqn:E; [|exact IH]. apply qlt_iff in E. ends. }
    apply qle_niff in E2.
    assert (E : qlt (later a (ri_inf (fst p))) (earlier b (ri_sup (fst p))) = true).
    { apply qlt_iff. destruct (later_cases a (ri_inf (fst p))) as [[-> ?]|[-> ?]], (earlier_cases b (ri_sup (fst p))) as [[-> ?]|[-> ?]]; lra. }
    rewrite E. assert (Q1 : qle (ri_sup (fst p)) (ri_sup (fst p)) = true) by (apply qle_iff; lra).
    rewrite Q1. assert (Q2 : qle (ri_sup (fst p)) b = true) by (apply qle_iff; lra). rewrite Q2, Bool.andb_true_r.
    cbn [app]. unfold covered_prod. cbn [map fst snd].
    destruct (qle a (ri_inf (fst p))) eqn:E3; cbn [sg_prod fold_right]; apply (sd_mul _ _ _ _ SD); try exact IH.
    - apply qle_iff in E3. apply (sd_sym _ _ _ _ SD). eapply (sd_trans _ _ _ _ SD); [|apply (sc_one _ _ _ SC)]. apply (sc_eq _ _ _ SC), frac_full; auto.
    - apply qle_niff in E3. apply (sc_eq _ _ _ SC). symmetry. apply frac_left; auto.
  Qed.
  Lemma pw_exact a b t d : in_order d -> okd d -> outside d b -> sg_of S (pw_impl smul d ctx (mkRI a b t)) === covered_prod S smul (covered a b d).
  Proof.
    intros HO HK HB. unfold pw_impl. cbn [ri_inf ri_sup]. eapply (sd_trans _ _ _ _ SD); [apply (sd_cbh _ _ _ _ SD), loop_ok, HK|]. apply loop_exact; auto.
  Qed.

  (** A query ending strictly inside a piece. *)
  Lemma loop_app a b d1 d2 : (forall p, In p d1 -> ri_inf (fst p) < b) -> pw_loop smul a b (d1 ++ d2) = pw_loop smul a b d1 ++ pw_loop smul a b d2.
  Proof.
    induction d1 as [|p d1 IH]; intros H; [reflexivity|]. cbn [app pw_loop].
    assert (E : qle b (ri_inf (fst p)) = false) by (apply qle_niff, H; left; reflexivity). rewrite E, IH by (intros; apply H; right; auto).
    repeat match goal with |- context [if ?c then _ else _] => destruct c end; reflexivity.
  Qed.
  Lemma in_order_split d1 p (d2 : list (lie_piece lie)) : in_order (d1 ++ p :: d2) ->
    in_order d1 /\ in_order (p :: d2) /\ forall q, In q d1 -> ri_inf (fst q) < ri_sup (fst q) /\ ri_sup (fst q) <= ri_inf (fst p).
  Proof.
    induction d1 as [|q d1 IH]; cbn [app]; intros H.
    - split; [split; constructor|]. split; auto. intros ? [].
    - destruct (IH (in_order_tail _ _ H)) as (A & B & C). destruct H as [H1 H2]. apply Forall_cons_iff in H1 as [H3 H4]. apply StronglySorted_inv in H2 as [H5 H9].
      rewrite Forall_forall in H9. split; [|split; [exact B|]].
      + destruct A as [A1 A2]. split; constructor; auto. apply Forall_forall. intros r Hr. apply H9, in_or_app. left; auto.
      + intros r [<-|Hr]; [|apply C; auto]. split; [auto|]. apply H9, in_or_app. right; left; auto.
  Qed.
  Lemma pw_right_end a b t d1 pa pb tp x d2 : in_order (d1 ++ (mkRI pa pb tp, x) :: d2) -> okd (d1 ++ (mkRI pa pb tp, x) :: d2) ->
    a < b -> pa < b -> b < pb ->
    sg_of S (pw_impl smul (d1 ++ (mkRI pa pb tp, x) :: d2) ctx (mkRI a b t)) === covered_prod S smul (covered a b d1 ++ [((pb - a) / (pb - pa), x)]) /\
    covered a b (d1 ++ (mkRI pa pb tp, x) :: d2) = covered a b d1 ++ [((b - later a pa) / (pb - pa), x)] /\
    (b - later a pa) / (pb - pa) < (pb - a) / (pb - pa).
  Proof.
    intros HO HK Hab H1 H2. assert (HS := in_order_split _ _ _ HO). destruct HS as (A & B & C). split; [|split].
    - unfold pw_impl. cbn [ri_inf ri_sup]. eapply (sd_trans _ _ _ _ SD); [apply (sd_cbh _ _ _ _ SD), loop_ok, HK|].
      rewrite loop_app by (intros q Hq; destruct (C q Hq); cbn in *; lra).
      eapply (sd_trans _ _ _ _ SD); [apply prod_app|]. eapply (sd_trans _ _ _ _ SD); [|apply (sd_sym _ _ _ _ SD), cprod_app].
      apply (sd_mul _ _ _ _ SD).
      + apply loop_exact; auto. apply Forall_forall. intros q Hq. destruct (C q Hq). cbn in *. right. lra.
      + cbn [pw_loop fst snd ri_inf ri_sup]. assert (E1 : qle b pa = false) by (apply qle_niff; lra). assert (E2 : qle pb a = false) by (apply qle_niff; lra).
        assert (E3 : qle pb b = false) by (apply qle_niff; lra). assert (E4 : qle pb pb = true) by (apply qle_iff; lra). rewrite E1, E2, E3, E4, Bool.andb_false_r.
        assert (E5 : pw_loop smul a b d2 = []).
        { assert (L := in_order_later _ _ b B). cbn [fst ri_sup] in L. specialize (L ltac:(lra)).
          destruct d2 as [|q d2]; [reflexivity|]. cbn [pw_loop]. assert (E6 : qle b (ri_inf (fst q)) = true) by (apply qle_iff, L; left; auto). rewrite E6. reflexivity. }
        rewrite E5. cbn. apply (sd_refl _ _ _ _ SD).
    - rewrite covered_app, covered_cons. cbn [fst snd ri_inf ri_sup].
      assert (E : earlier b pb = b) by (destruct (earlier_cases b pb) as [[-> ?]|[-> ?]]; [reflexivity|lra]). rewrite E.
      assert (E' : qlt (later a pa) b = true) by (apply qlt_iff; destruct (later_cases a pa) as [[-> ?]|[-> ?]]; lra). rewrite E'.
      rewrite (covered_past a b d2); [reflexivity|apply (in_order_tail _ _ B)|]. apply (in_order_later _ _ b B). cbn. lra.
    - unfold Qdiv. apply Qmult_lt_compat_r; [apply Qinv_lt_0_compat; lra|]. destruct (later_cases a pa) as [[-> ?]|[-> ?]]; lra.
  Qed.

  (** Chen's identity. *)
  Lemma covered_split a m b d : in_order d -> outside d m -> a <= m -> m <= b ->
    covered_prod S smul (covered a b d) === covered_prod S smul (covered a m d) ** covered_prod S smul (covered m b d).
  Proof.
    induction d as [|p d IH]; intros HO HM Ham Hmb; [apply (sd_sym _ _ _ _ SD), (sd_one_l _ _ _ _ SD)|].
    assert (HO' := in_order_tail _ _ HO). assert (Hp : ri_inf (fst p) < ri_sup (fst p)) by (destruct HO as [X _]; inversion X; auto).
    inversion HM as [|? ? Hm HM']; subst. specialize (IH HO' HM' Ham Hmb).
    destruct Hm as [Hm|Hm].
    - (* the piece lies after m; nothing of the list lies before m *)
      rewrite (covered_past a m (p :: d)); [|exact HO|intros q [<-|Hq]; [exact Hm|apply (in_order_later p d); auto; lra]].
      eapply (sd_trans _ _ _ _ SD); [|apply (sd_sym _ _ _ _ SD), (sd_one_l _ _ _ _ SD)].
      rewrite (covered_past a m d) in IH; [|exact HO'|intros q Hq; apply (in_order_later p d); auto; lra].
      assert (IH2 : covered_prod S smul (covered a b d) === covered_prod S smul (covered m b d)).
      { eapply (sd_trans _ _ _ _ SD); [exact IH|]. apply (sd_one_l _ _ _ _ SD). }
      rewrite !covered_cons.
      assert (Ea : later a (ri_inf (fst p)) == ri_inf (fst p)) by (destruct (later_cases a (ri_inf (fst p))) as [[-> ?]|[-> ?]]; lra).
      assert (Em : later m (ri_inf (fst p)) == ri_inf (fst p)) by (destruct (later_cases m (ri_inf (fst p))) as [[-> ?]|[-> ?]]; lra).
      assert (Eq : qlt (later a (ri_inf (fst p))) (earlier b (ri_sup (fst p))) = qlt (later m (ri_inf (fst p))) (earlier b (ri_sup (fst p)))).
      { apply Bool.eq_iff_eq_true. rewrite !qlt_iff, Ea, Em. tauto. }
      rewrite Eq. clear Eq. destruct qlt; cbn [app]; [|exact IH2]. unfold covered_prod in *. cbn [map fst snd sg_prod fold_right].
      apply (sd_mul _ _ _ _ SD); [|exact IH2]. apply (sc_eq _ _ _ SC). rewrite Ea, Em. reflexivity.
    - (* the piece lies before m *)
      rewrite !covered_cons.
      assert (Em : qlt (later m (ri_inf (fst p))) (earlier b (ri_sup (fst p))) = false).
      { apply qlt_niff. destruct (later_cases m (ri_inf (fst p))) as [[-> ?]|[-> ?]], (earlier_cases b (ri_sup (fst p))) as [[-> ?]|[-> ?]]; lra. }
      rewrite Em. clear Em. cbn [app].
      assert (Eb : earlier b (ri_sup (fst p)) == ri_sup (fst p)) by (destruct (earlier_cases b (ri_sup (fst p))) as [[-> ?]|[-> ?]]; lra).
      assert (Eb' : earlier m (ri_sup (fst p)) == ri_sup (fst p)) by (destruct (earlier_cases m (ri_sup (fst p))) as [[-> ?]|[-> ?]]; lra).
      assert (Eq : qlt (later a (ri_inf (fst p))) (earlier b (ri_sup (fst p))) = qlt (later a (ri_inf (fst p))) (earlier m (ri_sup (fst p)))).
      { apply Bool.eq_iff_eq_true. rewrite !qlt_iff, Eb, Eb'. tauto. }
      rewrite Eq. clear Eq. destruct qlt; cbn [app]; [|exact IH]. unfold covered_prod in *. cbn [map fst snd sg_prod fold_right].
      eapply (sd_trans _ _ _ _ SD); [|apply (sd_sym _ _ _ _ SD), (sd_assoc _ _ _ _ SD)].
      apply (sd_mul _ _ _ _ SD); [|exact IH]. apply (sc_eq _ _ _ SC). rewrite Eb, Eb'. reflexivity.
  Qed.
  Lemma pw_chen a m b t1 t2 t3 d : in_order d -> okd d -> a <= m -> m <= b -> outside d m -> outside d b ->
    sg_of S (pw_impl smul d ctx (mkRI a b t1)) === sg_of S (pw_impl smul d ctx (mkRI a m t2)) ** sg_of S (pw_impl smul d ctx (mkRI m b t3)).
  Proof.
    intros HO HK H1 H2 HM HB. eapply (sd_trans _ _ _ _ SD); [apply pw_exact; auto|]. eapply (sd_trans _ _ _ _ SD); [apply (covered_split a m b); auto|].
    apply (sd_sym _ _ _ _ SD). apply (sd_mul _ _ _ _ SD); apply pw_exact; auto.
  Qed.

  (** A query at a resolution. *)
  Lemma covered_ends a a' b b' d : a == a' -> b == b' -> covered_prod S smul (covered a b d) === covered_prod S smul (covered a' b' d).
  Proof.
    intros Ha Hb. induction d as [|p d IH]; [apply (sd_refl _ _ _ _ SD)|]. rewrite !covered_cons.
    assert (E1 : later a (ri_inf (fst p)) == later a' (ri_inf (fst p))) by (destruct (later_cases a (ri_inf (fst p))) as [[-> ?]|[-> ?]], (later_cases a' (ri_inf (fst p))) as [[-> ?]|[-> ?]]; lra).
    assert (E2 : earlier b (ri_sup (fst p)) == earlier b' (ri_sup (fst p))) by (destruct (earlier_cases b (ri_sup (fst p))) as [[-> ?]|[-> ?]], (earlier_cases b' (ri_sup (fst p))) as [[-> ?]|[-> ?]]; lra).
    assert (Eq : qlt (later a (ri_inf (fst p))) (earlier b (ri_sup (fst p))) = qlt (later a' (ri_inf (fst p))) (earlier b' (ri_sup (fst p)))).
    { apply Bool.eq_iff_eq_true. rewrite !qlt_iff, E1, E2. tauto. }
    rewrite Eq. clear Eq. destruct qlt; cbn [app]; [|exact IH]. unfold covered_prod in *. cbn [map fst snd sg_prod fold_right].
    apply (sd_mul _ _ _ _ SD); [|exact IH]. apply (sc_eq _ _ _ SC). rewrite E1, E2. reflexivity.
  Qed.
  Lemma chain a b l d : in_order d -> end_to_end a b l -> Forall (fun c => outside d (dy (fst c + 1) (snd c))) l ->
    covered_prod S smul (covered a b d) === fold_right (fun c g => covered_prod S smul (covered (dy (fst c) (snd c)) (dy (fst c + 1) (snd c)) d) ** g) (sg_one S) l.
  Proof.
    intros HO. revert a. induction l as [|[k n] l IH]; cbn [end_to_end fold_right fst snd]; intros a HE HL.
    - assert (E : covered a b d = []).
      { clear -HE. induction d as [|p d' IHd]; [reflexivity|]. rewrite covered_cons, IHd. destruct qlt eqn:Q; [|reflexivity]. apply qlt_iff in Q. ends. }
      rewrite E. apply (sd_refl _ _ _ _ SD).
    - destruct HE as [E1 E2]. apply Forall_cons_iff in HL as [L1 L2]. cbn [fst snd] in L1.
      eapply (sd_trans _ _ _ _ SD); [apply (covered_split a (dy (k + 1) n) b); auto|].
      + rewrite E1. apply dy_same_le. lia.
      + clear -E2. revert E2. generalize (dy (k + 1) n). induction l as [|[k' n'] l IHl]; cbn [end_to_end]; intros u E; [rewrite E; apply Qle_refl|].
        destruct E as [X Y]. eapply Qle_trans; [|apply IHl, Y]. rewrite X. apply dy_same_le. lia.
      + apply (sd_mul _ _ _ _ SD); [|apply IH; auto]. apply covered_ends; [exact E1|reflexivity].
  Qed.
  Lemma to_param_dy k n : to_param (mkD k n) == dy k n.
  Proof. unfold to_param, dy. cbn. reflexivity. Qed.
  Lemma clopen_ends i : di_t i = Clopen -> (- 2 ^ 29 <= di_k i <= 2 ^ 29)%Z ->
    dinf i = Ok (mkD (di_k i) (di_n i)) /\ dsup i = Ok (mkD (di_k i + 1) (di_n i)).
  Proof.
    intros Ht Hk. unfold dinf, dsup, dexcluded, unit. rewrite Ht. cbn [unit_t]. split; [reflexivity|]. rewrite i32_ok by (unfold INT_MIN, INT_MAX; lia). reflexivity.
  Qed.
  Lemma pieces_ok d l : okd d -> Forall (fun i => di_t i = Clopen /\ (- 2 ^ 29 <= di_k i <= 2 ^ 29)%Z) l -> Forall (fun i => outside d (dy (di_k i + 1) (di_n i))) l -> in_order d ->
    exists xs, pw_pieces smul d ctx l = Ok xs /\ Forall ok xs /\
      sg_prod S xs === fold_right (fun c g => covered_prod S smul (covered (dy (fst c) (snd c)) (dy (fst c + 1) (snd c)) d) ** g) (sg_one S) (map (fun i => (di_k i, di_n i)) l).
  Proof.
    intros HK HT HL HO. induction l as [|i l IH]; cbn [pw_pieces map fold_right fst snd].
    - exists []. split; [reflexivity|]. split; [constructor|apply (sd_refl _ _ _ _ SD)].
    - apply Forall_cons_iff in HT as [[T1 T2] T3]. apply Forall_cons_iff in HL as [L1 L2]. destruct (IH T3 L2) as (xs & E & O & P).
      destruct (clopen_ends i T1 T2) as [D1 D2]. rewrite D1, D2, E. cbn [bind]. eexists. split; [reflexivity|]. split.
      + constructor; auto. apply (sd_cbh_ok _ _ _ _ SD), loop_ok, HK.
      + cbn [sg_prod fold_right]. apply (sd_mul _ _ _ _ SD); [|exact P].
        eapply (sd_trans _ _ _ _ SD); [apply pw_exact; auto|apply covered_ends; apply to_param_dy].
  Qed.
  Lemma cell_bound inf sup tol l : (tol <= 2 ^ 28)%Z -> window inf tol -> window sup tol -> end_to_end (grid_floor inf tol) (grid_floor sup tol) (map (fun i => (di_k i, di_n i)) l) ->
    Forall (fun i => di_t i = Clopen /\ (di_n i <= tol)%Z) l -> Forall (fun i => di_t i = Clopen /\ (- 2 ^ 29 <= di_k i <= 2 ^ 29)%Z) l.
  Proof.
    intros Ht W1 W2 HE HL. rewrite Forall_forall in *. intros i Hi. destruct (HL i Hi) as [T N]. split; [exact T|].
    destruct (end_to_end_in _ _ _ (di_k i) (di_n i) HE) as [X Y]; [apply (in_map (fun i => (di_k i, di_n i))) in Hi; exact Hi|].
    destruct (piece_bounds _ _ _ _ _ N X Y) as [P Q]. unfold window in *.
    assert (0 < 2 ^ (tol - di_n i))%Z by (apply Z.pow_pos_nonneg; lia). nia.
  Qed.
  Lemma pw_query_exact inf sup t tol d fuel : in_order d -> okd d -> inf <= sup -> (- 2 ^ 28 <= tol <= 2 ^ 28)%Z -> window inf tol -> window sup tol -> (31 <= fuel)%nat ->
    (forall k, outside d (dy k tol)) ->
    exists x, pw_query smul fuel d ctx (mkRI inf sup t) tol = Ok x /\ sg_of S x === covered_prod S smul (covered (grid_floor inf tol) (grid_floor sup tol) d).
  Proof.
    intros HO HK Hi Ht W1 W2 Hf HG. destruct (DyadicLemmas.dissection_thm inf sup tol Hi Ht W1 W2 fuel Hf) as (l & E & F & EE & _).
    unfold pw_query. cbn [ri_inf ri_sup]. rewrite E. cbn [bind].
    assert (HL : Forall (fun i => outside d (dy (di_k i + 1) (di_n i))) l).
    { eapply Forall_impl; [|exact F]. cbn beta. intros i [_ N]. specialize (HG ((di_k i + 1) * 2 ^ (tol - di_n i)))%Z. unfold outside in *. eapply Forall_impl; [|exact HG]. cbn beta.
      intros p. assert (X := dy_scale (di_k i + 1) (di_n i) (tol - di_n i) ltac:(lia)). replace (di_n i + (tol - di_n i))%Z with tol in X by lia. rewrite X. auto. }
    destruct (pieces_ok d l HK) as (xs & Ex & Ox & Px); auto. { apply (cell_bound inf sup tol); auto. lia. }
    rewrite Ex. cbn [bind]. eexists. split; [reflexivity|]. eapply (sd_trans _ _ _ _ SD); [apply (sd_cbh _ _ _ _ SD), Ox|].
    eapply (sd_trans _ _ _ _ SD); [exact Px|]. apply (sd_sym _ _ _ _ SD). apply chain; auto.
    rewrite Forall_forall in *. intros c Hc. apply in_map_iff in Hc. destruct Hc as (i & <- & Hi'). apply HL. exact Hi'.
  Qed.

  (** Splits inside a piece. *)
  Lemma chen_inside pa pb tp x a m b t1 t2 t3 : pa < pb -> ok x -> a < m -> pa < m -> m < pb -> pb <= b ->
    exists c1 c2 c3,
      pw_impl smul [(mkRI pa pb tp, x)] ctx (mkRI a m t1) = cx_cbh ctx [smul c1 x] /\
      pw_impl smul [(mkRI pa pb tp, x)] ctx (mkRI m b t2) = cx_cbh ctx [smul c2 x] /\
      sg_of S (pw_impl smul [(mkRI pa pb tp, x)] ctx (mkRI a b t3)) === sg_of S (cx_cbh ctx [smul c3 x]) /\ c3 < c1 + c2.
  Proof.
    intros H0 Hx H1 H2 H3 H4. exists ((pb - a) / (pb - pa)), ((pb - m) / (pb - pa)), (if qle a pa then 1 else (pb - a) / (pb - pa)).
    unfold pw_impl. cbn [pw_loop fst snd ri_inf ri_sup]. unfold to_multiplier_upper. cbn [ri_inf ri_sup].
    assert (E1 : qle m pa = false) by (apply qle_niff; lra). assert (E2 : qle pb a = false) by (apply qle_niff; lra). assert (E3 : qle pb m = false) by (apply qle_niff; lra).
    assert (E4 : qle pb pb = true) by (apply qle_iff; lra). assert (E5 : qle pb b = true) by (apply qle_iff; lra). assert (E6 : qle b pa = false) by (apply qle_niff; lra).
    rewrite E1, E2, E3, E4, E5, E6, !Bool.andb_false_r, !Bool.andb_false_l, Bool.andb_true_r.
    split; [reflexivity|]. split; [reflexivity|].
    assert (L : 0 < (pb - m) / (pb - pa)) by (unfold Qdiv; apply Qmult_lt_0_compat; [lra|apply Qinv_lt_0_compat; lra]).
    destruct (qle a pa) eqn:E7.
    - split.
      + eapply (sd_trans _ _ _ _ SD); [apply (sd_cbh _ _ _ _ SD); auto|]. apply (sd_sym _ _ _ _ SD). eapply (sd_trans _ _ _ _ SD); [apply (sd_cbh _ _ _ _ SD); constructor; auto; apply (sc_ok _ _ _ SC); auto|].
        cbn [sg_prod fold_right]. apply (sd_mul _ _ _ _ SD); [apply (sc_one _ _ _ SC)|apply (sd_refl _ _ _ _ SD)].
      + apply qle_iff in E7. assert (1 <= (pb - a) / (pb - pa)); [|lra]. apply Qle_shift_div_l; lra.
    - split; [apply (sd_refl _ _ _ _ SD)|]. lra.
  Qed.
  Lemma dropped p d a b t : b <= ri_inf (fst p) -> sg_of S (pw_impl smul (p :: d) ctx (mkRI a b t)) === sg_one S.
  Proof. intros H. unfold pw_impl. cbn [pw_loop ri_inf ri_sup]. apply qle_iff in H. rewrite H. apply (sd_cbh _ _ _ _ SD). constructor. Qed.
  (** A piece over an empty interval is in neither half of a query split at it. *)
  Lemma point_lost m tp x a b t1 t2 : a < m -> m < b -> ok x ->
    sg_of S (pw_impl smul [(mkRI m m tp, x)] ctx (mkRI a m t1)) === sg_one S /\
    sg_of S (pw_impl smul [(mkRI m m tp, x)] ctx (mkRI m b t2)) === sg_one S /\
    sg_of S (pw_impl smul [(mkRI m m tp, x)] ctx (mkRI a b t2)) === sg_of S x.
  Proof.
    intros H1 H2 Hx. unfold pw_impl. cbn [pw_loop fst snd ri_inf ri_sup].
    assert (E1 : qle m m = true) by (apply qle_iff; lra). assert (E2 : qle b m = false) by (apply qle_niff; lra). assert (E3 : qle m a = false) by (apply qle_niff; lra).
    assert (E4 : qle a m = true) by (apply qle_iff; lra). assert (E5 : qle m b = true) by (apply qle_iff; lra). rewrite E1, E2, E3, E4, E5. cbn [andb].
    split; [apply (sd_cbh _ _ _ _ SD); constructor|]. split; [apply (sd_cbh _ _ _ _ SD); constructor|].
    eapply (sd_trans _ _ _ _ SD); [apply (sd_cbh _ _ _ _ SD); auto|]. cbn. apply (sd_one_r _ _ _ _ SD).
  Qed.
End A.
