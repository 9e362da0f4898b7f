(** Proofs about monomials and polynomials. *)
From Coq Require Import ZifyBool Lia.
From Verif Require Import PolySpec.
Open Scope Z_scope.

(** ** Flat maps *)
Section FM.
  Context {K V : Type}.
  Variable lt : K -> K -> bool.
  Hypothesis irr : forall a, lt a a = false.
  Hypothesis trans : forall a b c, lt a b = true -> lt b c = true -> lt a c = true.
  Hypothesis total : forall a b, lt a b = false -> lt b a = false -> a = b.
  Definition sorted (m : fmap K V) : Prop := StronglySorted (fun s t : K * V => lt (fst s) (fst t) = true) m.
  Lemma sorted_nth m i j x y : sorted m -> (i < j)%nat -> nth_error m i = Some x -> nth_error m j = Some y -> lt (fst x) (fst y) = true.
  Proof.
    intros S. revert i j. induction S as [|z m S IH F]; intros i j Hij Ei Ej; [destruct i; discriminate|].
    destruct j as [|j]; [lia|]. cbn in Ej. destruct i as [|i].
    - cbn in Ei. injection Ei as <-. rewrite Forall_forall in F. apply F. eapply nth_error_In; eauto.
    - cbn in Ei. apply (IH i j); auto. lia.
  Qed.
  Lemma lb_loop m k : sorted m -> forall fuel first len, (len < fuel)%nat -> (first + len <= length m)%nat ->
    (forall i x, (i < first)%nat -> nth_error m i = Some x -> lt (fst x) k = true) ->
    (forall i x, (first + len <= i)%nat -> nth_error m i = Some x -> lt (fst x) k = false) ->
    exists i, lower_bound_loop lt fuel m k first len = Ok i /\ (i <= length m)%nat /\
      (forall j x, (j < i)%nat -> nth_error m j = Some x -> lt (fst x) k = true) /\ (forall j x, (i <= j)%nat -> nth_error m j = Some x -> lt (fst x) k = false).
  Proof.
    intros SS. induction fuel as [|fuel IH]; intros first len Hf Hl HL HR; [lia|]. cbn [lower_bound_loop]. destruct len as [|len].
    - exists first. split; auto. split; [lia|]. split; auto. intros j x Hj. apply HR. lia.
    - set (step := Nat.div2 (S len)). assert (Hs : (step < S len)%nat) by (apply Nat.lt_div2; lia).
      destruct (nth_error m (first + step)) as [x|] eqn:E; [|apply nth_error_None in E; lia]. destruct (lt (fst x) k) eqn:Ex.
      + apply IH; [lia|lia| |].
        * intros i y Hi Ey. destruct (Nat.eq_dec i (first + step)) as [->|N]; [congruence|]. apply (trans _ (fst x)); auto. apply (sorted_nth m i (first + step)); auto. lia.
        * intros i y Hi Ey. apply (HR i); auto. lia.
      + apply IH; [lia|lia|auto|]. intros i y Hi Ey. destruct (Nat.eq_dec i (first + step)) as [->|N]; [congruence|].
        destruct (lt (fst y) k) eqn:Ey2; auto. rewrite <- Ex. symmetry. apply (trans _ (fst y)); auto. apply (sorted_nth m (first + step) i); auto. lia.
  Qed.
  Lemma lb_ok m k : sorted m -> exists i, lower_bound lt m k = Ok i /\ (i <= length m)%nat /\
      (forall j x, (j < i)%nat -> nth_error m j = Some x -> lt (fst x) k = true) /\ (forall j x, (i <= j)%nat -> nth_error m j = Some x -> lt (fst x) k = false).
  Proof.
    intros S. apply lb_loop; auto; intros i x Hi E; [lia|]. assert (i < length m)%nat by (apply nth_error_Some; congruence). lia.
  Qed.
  Lemma sorted_app a b : sorted (a ++ b) <-> sorted a /\ sorted b /\ forall x y, In x a -> In y b -> lt (fst x) (fst y) = true.
  Proof.
    induction a as [|z a IH]; cbn.
    - split; [intros H; split; [constructor|split; [exact H|intros ? ? []]]|tauto].
    - split.
      + intros H. inversion H as [|? ? H1 H2]; subst. apply IH in H1 as (A & B & C). rewrite Forall_app in H2. destruct H2 as [F1 F2]. split; [constructor; auto|]. split; auto.
        intros x y [->|Hx] Hy; [rewrite Forall_forall in F2; apply F2; auto|auto].
      + intros (A & B & C). inversion A; subst. constructor; [apply IH; repeat split; auto|]. apply Forall_app. split; auto. apply Forall_forall. intros y Hy. apply C; auto.
  Qed.
  Lemma split_at (m : fmap K V) i : (i <= length m)%nat -> length (firstn i m) = i /\ m = firstn i m ++ skipn i m.
  Proof. intros H. rewrite firstn_length, firstn_skipn. split; [lia|auto]. Qed.
  Lemma skip_nth (m : fmap K V) i x : nth_error m i = Some x -> skipn i m = x :: skipn (S i) m.
  Proof. revert i. induction m as [|y m IH]; intros [|i] E; cbn in *; try discriminate; [congruence|]. rewrite (IH i E). destruct m; reflexivity. Qed.
  (** A key is either found, or inserted at the right place. *)
  Lemma find_cases m k : sorted m ->
    (exists a v b, m = a ++ (k, v) :: b /\ find lt m k = Ok (Some (length a)) /\ nth_error m (length a) = Some (k, v) /\ (forall w, assign m (length a) w = Ok (a ++ (k, w) :: b)) /\ forall w, erase (a ++ (k, w) :: b) (length a) = a ++ b) \/
    ((forall v, ~ In (k, v) m) /\ find lt m k = Ok None /\ exists a b, m = a ++ b /\ forall v, emplace lt m k v = Ok (a ++ (k, v) :: b) /\ sorted (a ++ (k, v) :: b)).
  Proof.
    intros SS. destruct (lb_ok m k SS) as (i & E & Hi & HL & HR). unfold find, emplace. rewrite E. cbn [bind]. destruct (split_at m i Hi) as [Li Em].
    assert (NI : nth_error m i = None \/ (exists x, nth_error m i = Some x /\ lt k (fst x) = true) -> (forall v, ~ In (k, v) m) /\ forall v, sorted (firstn i m ++ (k, v) :: skipn i m)).
    { intros HN. assert (SK : forall j x, (i <= j)%nat -> nth_error m j = Some x -> lt k (fst x) = true).
      { intros j x Hj Ex. destruct HN as [HN|(y & Ey & Hy)]. - apply nth_error_None in HN. assert (j < length m)%nat by (apply nth_error_Some; congruence). lia.
        - destruct (Nat.eq_dec i j) as [->|N]; [congruence|]. apply (trans _ (fst y)); auto. apply (sorted_nth m i j); auto. lia. }
      split.
      - intros v I. apply In_nth_error in I as [j Ej]. destruct (Nat.lt_ge_cases j i) as [L|G]; [apply (HL j) in Ej; auto|apply (SK j) in Ej; auto]; cbn in Ej; rewrite irr in Ej; discriminate.
      - intros v. rewrite Em in SS. apply sorted_app in SS as (A & B & C). apply sorted_app. split; auto.
        assert (SB : forall x, In x (skipn i m) -> lt k (fst x) = true).
        { intros x I. apply In_nth_error in I as [j Ej]. apply (SK (i + j)%nat); [lia|]. rewrite Em at 1. rewrite nth_error_app2 by lia. rewrite Li. replace (i + j - i)%nat with j by lia. auto. }
        split; [constructor; auto; apply Forall_forall; auto|]. intros x y Hx [<-|Hy]; [|auto]. cbn. apply In_nth_error in Hx as [j Ej].
        assert (j < i)%nat. { rewrite <- Li. apply nth_error_Some. congruence. }
        apply (HL j); auto. rewrite Em at 1. rewrite nth_error_app1 by lia. auto. }
    destruct (nth_error m i) as [x|] eqn:Ex.
    - destruct (lt k (fst x)) eqn:Ek.
      + right. destruct NI as [N1 N2]; [right; eauto|]. split; auto. split; auto. exists (firstn i m), (skipn i m). split; auto.
      + left. assert (fst x = k) by (apply total; auto; apply (HR i); auto). destruct x as [k' v]. cbn in *. subst k'. exists (firstn i m), v, (skipn (S i) m). rewrite Li.
        rewrite <- (skip_nth m i (k, v)) by auto. split; auto. split; auto. split; auto. split.
        * intros w. unfold assign. rewrite Ex. reflexivity.
        * intros w. unfold erase. rewrite firstn_app, skipn_app, Li, Nat.sub_diag. rewrite firstn_firstn, Nat.min_id, firstn_O, app_nil_r. replace (S i - i)%nat with 1%nat by lia. rewrite skipn_all2 by lia. reflexivity.
    - right. destruct NI as [N1 N2]; [auto|]. split; auto. split; auto. exists (firstn i m), (skipn i m). split; auto.
  Qed.
  Lemma sorted_find_total m k : sorted m -> exists r, find lt m k = Ok r.
  Proof. intros S. destruct (find_cases m k S) as [(a & v & b & _ & E & _)|(_ & E & _)]; eauto. Qed.
  Lemma sorted_swap a k v w b : sorted (a ++ (k, v) :: b) -> sorted (a ++ (k, w) :: b).
  Proof.
    intros S. apply sorted_app in S as (A & B & C). apply sorted_app. split; auto. inversion B; subst. split; [constructor; auto|]. intros x y Hx [<-|Hy]; [apply (C x (k, v)); cbn; auto|apply C; cbn; auto].
  Qed.
  Lemma sorted_remove a x b : sorted (a ++ x :: b) -> sorted (a ++ b).
  Proof. intros S. apply sorted_app in S as (A & B & C). apply sorted_app. inversion B; subst. split; auto. split; auto. intros; apply C; cbn; auto. Qed.
  Lemma sorted_fresh a k v b : sorted (a ++ (k, v) :: b) -> forall w, ~ In (k, w) (a ++ b).
  Proof.
    intros S w I. apply sorted_app in S as (A & B & C). apply in_app_iff in I as [I|I].
    - specialize (C _ (k, v) I ltac:(cbn; auto)). cbn in C. rewrite irr in C. discriminate.
    - inversion B as [|? ? ? F]; subst. rewrite Forall_forall in F. apply F in I. cbn in I. rewrite irr in I. discriminate.
  Qed.
End FM.

(** ** Order of monomials *)
Lemma pair_lt_spec a b : pair_lt a b = true <-> fst a < fst b \/ (fst a = fst b /\ snd a < snd b).
Proof. unfold pair_lt. lia. Qed.
Lemma pair_lt_irr a : pair_lt a a = false. Proof. unfold pair_lt. lia. Qed.
Lemma pair_total a b : pair_lt a b = false -> pair_lt b a = false -> a = b.
Proof. unfold pair_lt. destruct a as [x e], b as [y f]. cbn. intros. assert (x = y) by lia. assert (e = f) by lia. congruence. Qed.
Notation lex := (lexicographical_compare pair_lt).
Lemma lex_irr a : lex a a = false.
Proof. induction a as [|x a IH]; cbn; auto. rewrite !pair_lt_irr. auto. Qed.
Lemma lex_trans a : forall b c, lex a b = true -> lex b c = true -> lex a c = true.
Proof.
  induction a as [|x a IH]; intros [|y b] [|z c]; cbn; auto; try discriminate. intros H1 H2. destruct (pair_lt x y) eqn:Exy; [|destruct (pair_lt y x) eqn:Eyx; [discriminate|]].
  - destruct (pair_lt y z) eqn:Eyz; [|destruct (pair_lt z y) eqn:Ezy; [discriminate|]].
    + replace (pair_lt x z) with true by (symmetry; apply pair_lt_spec; apply pair_lt_spec in Exy, Eyz; lia). auto.
    + rewrite <- (pair_total y z Eyz Ezy), Exy. auto.
  - rewrite (pair_total x y Exy Eyx) in *. destruct (pair_lt y z); auto. destruct (pair_lt z y); [discriminate|]. eauto.
Qed.
Lemma lex_total a : forall b, lex a b = false -> lex b a = false -> a = b.
Proof.
  induction a as [|x a IH]; intros [|y b]; cbn; auto; try discriminate. destruct (pair_lt x y) eqn:E1; [discriminate|]. destruct (pair_lt y x) eqn:E2; [discriminate|]. intros A B. rewrite (pair_total x y E1 E2), (IH b A B). reflexivity.
Qed.
Lemma mono_lt_spec a b : mono_lt a b = true <-> degree a < degree b \/ (degree a = degree b /\ lex a b = true).
Proof. unfold mono_lt. destruct (degree a <? degree b) eqn:E1; [split; auto; lia|]. destruct (degree a =? degree b) eqn:E2; [|split; [discriminate|lia]]. split; [right; split; auto; lia|]. intros [?|[_ ?]]; [lia|auto]. Qed.
Lemma mono_lt_irr a : mono_lt a a = false.
Proof. destruct (mono_lt a a) eqn:E; auto. apply mono_lt_spec in E as [E|[_ E]]; [lia|]. rewrite lex_irr in E. discriminate. Qed.
Lemma mono_lt_trans a b c : mono_lt a b = true -> mono_lt b c = true -> mono_lt a c = true.
Proof. rewrite !mono_lt_spec. intros [A|[A A']] [B|[B B']]; try (left; lia). right. split; [lia|]. eapply lex_trans; eauto. Qed.
Lemma mono_lt_total a b : mono_lt a b = false -> mono_lt b a = false -> a = b.
Proof.
  unfold mono_lt. destruct (degree a <? degree b) eqn:E1; [discriminate|]. destruct (degree b <? degree a) eqn:E2; [discriminate|]. replace (degree a =? degree b) with true by lia. replace (degree b =? degree a) with true by lia. apply lex_total.
Qed.
Lemma mono_eqb_spec a b : mono_eqb a b = true <-> a = b.
Proof.
  assert (H : forall a b, length a = length b -> (std_equal a b = true <-> a = b)).
  { clear. induction a as [|[x e] a IH]; intros [|[y f] b] L; cbn in *; try discriminate; [tauto|]. unfold pair_eq. cbn. specialize (IH b ltac:(lia)). split; [intros H|intros [= -> -> ->]].
    - assert (a = b) by (apply IH; lia). assert (x = y) by lia. assert (e = f) by lia. congruence.
    - assert (std_equal b b = true) by (apply IH; auto). lia. }
  unfold mono_eqb. destruct (Nat.eqb (length a) (length b)) eqn:E; cbn [negb].
  - apply Nat.eqb_eq in E. auto.
  - apply Nat.eqb_neq in E. split; [discriminate|]. intros ->. congruence.
Qed.
Lemma mono_lt_trichotomy a b : (mono_lt a b = true /\ mono_eqb a b = false /\ mono_lt b a = false) \/ (mono_lt a b = false /\ mono_eqb a b = true /\ mono_lt b a = false) \/ (mono_lt a b = false /\ mono_eqb a b = false /\ mono_lt b a = true).
Proof.
  destruct (mono_eqb a b) eqn:E; [apply mono_eqb_spec in E; subst; rewrite mono_lt_irr; auto|].
  destruct (mono_lt a b) eqn:E1, (mono_lt b a) eqn:E2; auto.
  - exfalso. assert (X := mono_lt_trans _ _ _ E1 E2). rewrite mono_lt_irr in X. discriminate.
  - exfalso. rewrite (mono_lt_total a b E1 E2) in E. assert (mono_eqb b b = true) by (apply mono_eqb_spec; auto). congruence.
Qed.
Lemma mono_le_spec a b : mono_le a b = true <-> degree a < degree b \/ (degree a = degree b /\
  match a, b with [], [] => False | [], _ :: _ => True | _ :: _, [] => False | x :: _, y :: _ => fst x < fst y \/ (fst x = fst y /\ snd x <= snd y) end).
Proof.
  unfold mono_le. destruct (degree a <? degree b) eqn:E1; [split; auto; lia|]. destruct (degree a =? degree b) eqn:E2; [|split; [discriminate|lia]].
  destruct a as [|x a], b as [|y b]; cbn [lexicographical_compare].
  - split; [discriminate|lia].
  - split; [intros _; right; lia|auto].
  - split; [discriminate|lia].
  - unfold pair_le, pair_lt. destruct (negb ((fst y <? fst x) || negb (fst x <? fst y) && (snd y <? snd x))) eqn:P.
    + split; auto. intros _. right. split; lia.
    + destruct (negb ((fst x <? fst y) || negb (fst y <? fst x) && (snd x <? snd y))) eqn:P2; [split; [discriminate|lia]|lia].
Qed.
Lemma mono_lt_le a b : mono_lt a b = true -> mono_le a b = true.
Proof.
  rewrite mono_lt_spec, mono_le_spec. intros [A|[A B]]; [auto|right; split; auto]. destruct a as [|x a], b as [|y b]; cbn in B; auto; try discriminate.
  destruct (pair_lt x y) eqn:E; [apply pair_lt_spec in E; lia|]. destruct (pair_lt y x) eqn:E2; [discriminate|]. rewrite (pair_total x y E E2). lia.
Qed.
Lemma mono_le_refl a : mono_le a a = true <-> a <> [].
Proof. rewrite mono_le_spec. destruct a as [|x a]; [split; [lia|congruence]|]. split; [discriminate|]. intros _. right. lia. Qed.
(** Same degree and same first factor: each is at most the other. *)
Lemma mono_le_both x a b : degree (x :: a) = degree (x :: b) -> mono_le (x :: a) (x :: b) = true /\ mono_le (x :: b) (x :: a) = true.
Proof. intros H. rewrite !mono_le_spec. split; right; split; auto; lia. Qed.

(** ** Products of monomials *)
Lemma ltb_irr a : (a <? a) = false. Proof. lia. Qed.
Lemma ltb_trans a b c : (a <? b) = true -> (b <? c) = true -> (a <? c) = true. Proof. lia. Qed.
Lemma ltb_total a b : (a <? b) = false -> (b <? a) = false -> a = b. Proof. lia. Qed.
Lemma mono_ok_sorted m : mono_ok m <-> sorted Z.ltb m.
Proof. unfold mono_ok, sorted. split; induction 1; constructor; auto; eapply Forall_impl; try eassumption; cbn; intros; lia. Qed.
Lemma expo_app a b x : expo (a ++ b) x = expo a x + expo b x.
Proof. induction a as [|[y e] a IH]; cbn; [reflexivity|]. lia. Qed.
Lemma expo_absent m x : ~ occurs m x -> expo m x = 0.
Proof. induction m as [|[y e] m IH]; cbn; intros H; [auto|]. destruct (x =? y) eqn:E; [exfalso; apply H; exists e; cbn; left; f_equal; lia|]. rewrite IH; [lia|]. intros [f Hf]. apply H. exists f. cbn. auto. Qed.
Lemma occurs_app a b x : occurs (a ++ b) x <-> occurs a x \/ occurs b x.
Proof. unfold occurs. split; [intros [e H]; apply in_app_iff in H as [H|H]; eauto|intros [[e H]|[e H]]; exists e; apply in_app_iff; auto]. Qed.
Lemma occurs_cons y e m x : occurs ((y, e) :: m) x <-> x = y \/ occurs m x.
Proof. unfold occurs. cbn. split; [intros [f [H|H]]; [left; congruence|eauto]|intros [->|[f H]]; eauto]. Qed.
(** The loop of operator*=. *)
Definition mloop := fix loop (rhs : mono) (lhs : mono) (ok : bool) : outcome (mono * bool) :=
    match rhs with
    | [] => Ok (lhs, ok)
    | (ind, pow) :: rhs =>
        let! it := find Z.ltb lhs ind in
        if negb ok then UB else
        match it with
        | Some i => let! e := deref lhs i in let! lhs := assign lhs i (snd e + pow) in loop rhs lhs ok
        | None => let! lhs := emplace Z.ltb lhs ind pow in loop rhs lhs false
        end
    end.
Lemma mloop_stale t rhs lhs : sorted Z.ltb lhs -> mloop (t :: rhs) lhs false = UB.
Proof. intros S. destruct t as [k v]. cbn [mloop]. destruct (sorted_find_total Z.ltb ltb_irr ltb_trans ltb_total lhs k S) as [r ->]. reflexivity. Qed.
Lemma removelast_cons {A} (x : A) l : l <> [] -> removelast (x :: l) = x :: removelast l.
Proof. destruct l; [congruence|reflexivity]. Qed.
Lemma mloop_ok rhs : forall lhs, sorted Z.ltb lhs -> sorted Z.ltb rhs ->
  (mono_safe lhs rhs -> exists m ok, mloop rhs lhs true = Ok (m, ok) /\ is_product lhs rhs m) /\ (~ mono_safe lhs rhs -> mloop rhs lhs true = UB).
Proof.
  induction rhs as [|[k v] rhs IH]; intros lhs SL SR.
  - split; [intros _; exists lhs, true; split; auto; split; [apply mono_ok_sorted; auto|]; split; [intros x; unfold occurs; cbn; firstorder|intros; cbn; lia]|]. intros N. exfalso. apply N. intros x e [].
  - assert (SR' : sorted Z.ltb rhs) by (inversion SR; auto). assert (HK : forall x e, In (x, e) rhs -> k < x) by (intros x e I; inversion SR as [|? ? ? F]; subst; rewrite Forall_forall in F; apply F in I; cbn in I; lia).
    cbn [mloop]. destruct (find_cases Z.ltb ltb_irr ltb_trans ltb_total lhs k SL) as [(a & w & b & E & -> & En & EA & _)|(NI & -> & a & b & E & EE)]; cbn [bind negb].
    + unfold deref. rewrite En. cbn [bind snd]. rewrite EA. cbn [bind].
      assert (S' : sorted Z.ltb (a ++ (k, w + v) :: b)) by (eapply sorted_swap; rewrite E in SL; exact SL).
      assert (OC : forall x, occurs (a ++ (k, w + v) :: b) x <-> occurs lhs x) by (intros x; rewrite E, !occurs_app, !occurs_cons; tauto).
      assert (SF : mono_safe lhs ((k, v) :: rhs) <-> mono_safe (a ++ (k, w + v) :: b) rhs).
      { unfold mono_safe. destruct rhs as [|t r]; [cbn; split; intros _ x e []|]. rewrite removelast_cons by discriminate. split; intros H x e I.
        - apply OC. apply (H x e). right. auto.
        - destruct I as [[= <- <-]|I]; [exists w; rewrite E; apply in_app_iff; cbn; auto|]. apply OC. apply (H x e). auto. }
      destruct (IH _ S' SR') as [I1 I2]. split.
      * intros H. apply SF in H. destruct (I1 H) as (m & ok & Em & P1 & P2 & P3). exists m, ok. split; auto. split; auto. split.
        -- intros x. rewrite P2, OC, occurs_cons. split; [tauto|]. intros [?|[->|?]]; auto. left. exists w. rewrite E. apply in_app_iff. cbn. auto.
        -- intros x. rewrite P3, E, !expo_app. cbn [expo]. destruct (x =? k); lia.
      * intros H. apply I2. intros H2. apply H. apply SF. auto.
    + destruct (EE v) as [Ee Se]. rewrite Ee. cbn [bind]. destruct rhs as [|t r].
      * cbn [mloop]. split; [|intros H; exfalso; apply H; intros x e []]. intros _. exists (a ++ (k, v) :: b), false. split; auto. split; [apply mono_ok_sorted; auto|]. split.
        -- intros x. rewrite E, !occurs_app, !occurs_cons. assert (N : ~ occurs [] x) by (intros [? []]). tauto.
        -- intros x. rewrite E, !expo_app. cbn [expo]. destruct (x =? k); lia.
      * rewrite mloop_stale by auto. split; [|auto]. intros H. exfalso. destruct (H k v) as [e He]; [rewrite removelast_cons by discriminate; cbn; auto|]. apply (NI e). auto.
Qed.
Lemma mono_mul_ok a b : mono_ok a -> mono_ok b ->
  (mono_safe a b -> exists m, mono_mul_inplace a b = Ok m /\ is_product a b m) /\ (~ mono_safe a b -> mono_mul_inplace a b = UB).
Proof.
  rewrite !mono_ok_sorted. intros A B. destruct (mloop_ok b a A B) as [H1 H2]. split.
  - intros H. destruct (H1 H) as (m & ok & E & P). exists m. split; auto. unfold mono_mul_inplace. fold mloop. rewrite E. reflexivity.
  - intros H. unfold mono_mul_inplace. fold mloop. rewrite (H2 H). reflexivity.
Qed.
(** Products are unique. *)
Lemma sorted_head x e m y : mono_ok ((x, e) :: m) -> occurs m y -> x < y.
Proof. intros H [f I]. inversion H as [|? ? ? F]; subst. rewrite Forall_forall in F. apply F in I. exact I. Qed.
Lemma mono_ext a : forall b, mono_ok a -> mono_ok b -> (forall x, occurs a x <-> occurs b x) -> (forall x, expo a x = expo b x) -> a = b.
Proof.
  induction a as [|[x e] a IH]; intros [|[y f] b] A B O X; auto.
  - exfalso. assert (Q : occurs [] y) by (apply O, occurs_cons; auto). destruct Q as [? []].
  - exfalso. assert (Q : occurs [] x) by (apply O, occurs_cons; auto). destruct Q as [? []].
  - assert (x = y).
    { assert (H1 : x = y \/ occurs b x) by (apply (occurs_cons y f b x), O, occurs_cons; auto). assert (H2 : y = x \/ occurs a y) by (apply (occurs_cons x e a y), O, occurs_cons; auto).
      destruct H1 as [?|H1]; auto. destruct H2 as [?|H2]; auto. apply (sorted_head _ _ _ _ B) in H1. apply (sorted_head _ _ _ _ A) in H2. lia. }
    subst y. assert (NA : ~ occurs a x) by (intros H; apply (sorted_head _ _ _ _ A) in H; lia). assert (NB : ~ occurs b x) by (intros H; apply (sorted_head _ _ _ _ B) in H; lia).
    assert (e = f). { specialize (X x). cbn in X. rewrite Z.eqb_refl, !expo_absent in X by auto. lia. }
    subst f. f_equal. apply IH; [inversion A; auto|inversion B; auto| |].
    + intros z. specialize (O z). rewrite !occurs_cons in O. destruct (Z.eq_dec z x) as [->|N]; [tauto|]. tauto.
    + intros z. specialize (X z). cbn in X. lia.
Qed.
Lemma mtimes_product a : forall b, mono_ok a -> mono_ok b -> is_product a b (mtimes a b).
Proof.
  induction a as [|[x e] a IHa]; intros b A B.
  - cbn [mtimes]. split; auto. split; [intros z; assert (N : ~ occurs [] z) by (intros [? []]); tauto|auto].
  - assert (A' : mono_ok a) by (inversion A; auto). induction b as [|[y f] b IHb].
    + cbn [mtimes]. split; auto. split; [intros z; assert (N : ~ occurs [] z) by (intros [? []]); tauto|]. intros; cbn [expo]; ring.
    + assert (B' : mono_ok b) by (inversion B; auto). cbn [mtimes]. destruct (x <? y) eqn:E1; [|destruct (y <? x) eqn:E2].
      * destruct (IHa ((y, f) :: b) A' B) as (P1 & P2 & P3). split; [|split].
        -- constructor; auto. apply Forall_forall. intros [z g] I. cbn. assert (O : occurs (mtimes a ((y, f) :: b)) z) by (exists g; auto). apply P2 in O as [O|O]; [apply (sorted_head _ _ _ _ A O)|]. apply occurs_cons in O as [->|O]; [lia|]. apply (sorted_head _ _ _ _ B) in O. lia.
        -- intros z. rewrite occurs_cons, P2, !occurs_cons. tauto.
        -- intros z. cbn [expo]. rewrite P3. cbn [expo]. ring.
      * destruct (IHb B') as (P1 & P2 & P3). change ((fix merge (b0 : mono) : mono := match b0 with [] => (x, e) :: a | (y0, f0) :: b' => if x <? y0 then (x, e) :: mtimes a ((y0, f0) :: b') else if y0 <? x then (y0, f0) :: merge b' else (x, e + f0) :: mtimes a b' end) b) with (mtimes ((x, e) :: a) b). split; [|split].
        -- constructor; auto. apply Forall_forall. intros [z g] I. cbn. assert (O : occurs (mtimes ((x, e) :: a) b) z) by (exists g; auto). apply P2 in O as [O|O]; [|apply (sorted_head _ _ _ _ B O)]. apply occurs_cons in O as [->|O]; [lia|]. apply (sorted_head _ _ _ _ A) in O. lia.
        -- intros z. rewrite occurs_cons, P2, !occurs_cons. tauto.
        -- intros z. cbn [expo]. rewrite P3. cbn [expo]. ring.
      * assert (x = y) by lia. subst y. destruct (IHa b A' B') as (P1 & P2 & P3). split; [|split].
        -- constructor; auto. apply Forall_forall. intros [z g] I. cbn. assert (O : occurs (mtimes a b) z) by (exists g; auto). apply P2 in O as [O|O]; [apply (sorted_head _ _ _ _ A O)|apply (sorted_head _ _ _ _ B O)].
        -- intros z. rewrite occurs_cons, P2, !occurs_cons. tauto.
        -- intros z. cbn [expo]. rewrite P3. destruct (z =? x); lia.
Qed.
Lemma product_unique a b m : mono_ok a -> mono_ok b -> is_product a b m -> m = mtimes a b.
Proof. intros A B (P1 & P2 & P3). destruct (mtimes_product a b A B) as (Q1 & Q2 & Q3). apply mono_ext; auto; intros x; [rewrite P2, Q2; tauto|rewrite P3, Q3; reflexivity]. Qed.
