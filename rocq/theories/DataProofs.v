(** Proofs about data arguments: plain Python data. *)
From Verif Require Export DataSpec.
Open Scope Z_scope.

Section Plain.
  Variable V : Type.
  Variable of_int : Z -> V.
  Variable conv : stype -> V -> option V.
  Variable zero : stype -> V.
  Notation pyval := (pyval V).
  Notation convert_scalar := (convert_scalar of_int conv).
  Notation number := (number of_int conv).

  Fixpoint mapM {A B} (g : A -> outcome B) (l : list A) : outcome (list B) :=
    match l with [] => Ok [] | a :: l' => let! b := g a in let! r := mapM g l' in Ok (b :: r) end.
  Lemma mapM_ok {A B} (g : A -> outcome B) l xs : mapM g l = Ok xs <-> Forall2 (fun a x => g a = Ok x) l xs.
  Proof.
    revert xs; induction l as [|a l IH]; intros xs; simpl.
    - split; [intros [= <-]; constructor | intros H; inversion H; reflexivity].
    - split.
      + intros H. apply bind_ok in H as (b & Hb & H). apply bind_ok in H as (r & Hr & H). injection H as <-. constructor; [exact Hb|]. apply IH; exact Hr.
      + intros H. inversion H as [|? x ? xs' Hx Hl]; subst. rewrite Hx. simpl. apply IH in Hl. rewrite Hl. reflexivity.
  Qed.
  Definition good {A} (x : outcome A) : Prop := x <> UB /\ x <> NoFuel.
  Lemma good_ok {A} (a : A) : good (Ok a). Proof. split; discriminate. Qed.
  Lemma good_throw {A} : good (@Throw A). Proof. split; discriminate. Qed.
  Lemma good_bind {A B} (x : outcome A) (f : A -> outcome B) : good x -> (forall a, x = Ok a -> good (f a)) -> good (bind x f).
  Proof. intros Hx Hf. destruct x; simpl; [apply Hf; reflexivity|apply good_throw|destruct Hx; congruence|destruct Hx; congruence]. Qed.
  Lemma good_mapM {A B} (g : A -> outcome B) l : (forall a, In a l -> good (g a)) -> good (mapM g l).
  Proof.
    induction l as [|a l IH]; intros H; simpl; [apply good_ok|].
    apply good_bind; [apply H; left; reflexivity|]. intros b _. apply good_bind; [apply IH; intros; apply H; right; assumption|]. intros; apply good_ok.
  Qed.

  (** *** Scalars and keys *)
  Lemma convert_scalar_ok t v x : convert_scalar t v = Ok x <-> number t v x.
  Proof.
    destruct v; cbn [DataModel.convert_scalar DataSpec.number]; try (split; [discriminate|intros []]).
    - destruct ((- 2 ^ 63 <=? z) && (z <? 2 ^ 63)) eqn:E.
      + apply andb_true_iff in E as [E1 E2]. apply Z.leb_le in E1. apply Z.ltb_lt in E2. destruct (conv t (of_int z)) eqn:Ec.
        * split; [intros H; injection H as <-; split; [lia|reflexivity]|intros [_ H]; injection H as <-; reflexivity].
        * split; [discriminate|intros [_ H]; discriminate].
      + split; [discriminate|]. intros [H _]. apply andb_false_iff in E as [E|E]; [apply Z.leb_gt in E|apply Z.ltb_ge in E]; lia.
    - destruct (conv t v); split; try discriminate; intros H; injection H as <-; reflexivity.
  Qed.
  Lemma convert_scalar_good t v : good (convert_scalar t v).
  Proof. destruct v; simpl; try apply good_throw; [destruct (_ && _); [destruct conv|]|destruct conv]; first [apply good_ok|apply good_throw]. Qed.
  Lemma convert_key_ok o (v : pyval) k : convert_key o v = Ok k <-> key (o_alt o) v k.
  Proof.
    destruct v; cbn [DataModel.convert_key DataSpec.key]; try (split; [discriminate|intros []]).
    - destruct ((0 <=? z) && (z <? 2 ^ 64)) eqn:E.
      + apply andb_true_iff in E as [E1 E2]. apply Z.leb_le in E1. apply Z.ltb_lt in E2. split; [intros [= <-]; split; [lia|reflexivity]|intros [_ ->]; reflexivity].
      + split; [discriminate|]. intros [H _]. apply andb_false_iff in E as [E|E]; [apply Z.leb_gt in E|apply Z.ltb_ge in E]; lia.
    - destruct (o_alt o); split; try discriminate; [intros [= <-]; auto|intros [_ ->]; reflexivity|intros [H _]; discriminate].
  Qed.
  Lemma convert_key_good o (v : pyval) : good (convert_key o v).
  Proof. destruct v; simpl; try apply good_throw; [destruct (_ && _)|destruct (o_alt o)]; first [apply good_ok|apply good_throw]. Qed.
  Lemma is_scalar_iff (v : pyval) : is_scalar v = true <-> a_number v.
  Proof. clear of_int conv zero. destruct v; simpl; intuition discriminate. Qed.
  Lemma is_key_iff o (v : pyval) : is_key o v = true <-> a_key (o_alt o) v.
  Proof. clear of_int conv zero. destruct v; simpl; intuition discriminate. Qed.
  Lemma type_info_iff (v : pyval) i : type_info_from v = Ok i <-> known_type v i.
  Proof. destruct v as [[]| [|] | | | | | | | | | | |]; simpl; try (split; [discriminate|intros []]); split; intros H; first [injection H as <-; reflexivity|subst; reflexivity]. Qed.
  Lemma type_info_good (v : pyval) : good (type_info_from v).
  Proof. destruct v as [[]| [|] | | | | | | | | | | |]; simpl; first [apply good_ok|apply good_throw]. Qed.
  Lemma number_a t v x : number t v x -> a_number v.
  Proof. destruct v; simpl; auto; intros []. Qed.
  Lemma key_a b (v : pyval) k : key b v k -> a_key b v.
  Proof. destruct v; simpl; auto; intros []; auto. Qed.

  (** *** Filling *)
  Lemma set_nth_app {A} (l1 l2 : list A) x y : set_nth (length l1) x (l1 ++ y :: l2) = l1 ++ x :: l2.
  Proof. induction l1; simpl; [reflexivity|f_equal; assumption]. Qed.
  Lemma pushes_vals {A} (step : A -> fill V -> outcome (fill V)) (g : A -> outcome V) :
    (forall a f, step a f = let! x := g a in push x f) ->
    forall l pre post ks, (length l <= length post)%nat ->
    pushes step l (pre ++ post, ks, length pre) = let! xs := mapM g l in Ok (pre ++ xs ++ skipn (length l) post, ks, (length pre + length l)%nat).
  Proof.
    intros Hs. induction l as [|a l IH]; intros pre post ks Hl; simpl.
    - rewrite Nat.add_0_r. reflexivity.
    - rewrite Hs. destruct (g a) as [x| | |]; simpl; try reflexivity.
      destruct post as [|y post]; [simpl in Hl; lia|].
      destruct (length pre <? length (pre ++ y :: post))%nat eqn:E; [|apply Nat.ltb_ge in E; rewrite app_length in E; simpl in E; lia].
      simpl. rewrite set_nth_app. replace (pre ++ x :: post) with ((pre ++ [x]) ++ post) by (rewrite <- app_assoc; reflexivity).
      replace (S (length pre)) with (length (pre ++ [x])) by (rewrite app_length; simpl; lia).
      rewrite IH by (simpl in Hl; lia). destruct (mapM g l); simpl; try reflexivity.
      rewrite <- app_assoc. simpl. rewrite app_length. simpl. f_equal. f_equal. lia.
  Qed.
  Lemma pushes_keys {A} (step : A -> fill V -> outcome (fill V)) (g : A -> outcome (Z * V)) :
    (forall a f, step a f = let! x := g a in push_key (fst x) (snd x) f) ->
    forall l pre post kpre kpost, (length l <= length post)%nat -> length kpre = length pre -> length kpost = length post ->
    pushes step l (pre ++ post, Some (kpre ++ kpost), length pre) =
      let! xs := mapM g l in Ok (pre ++ map snd xs ++ skipn (length l) post, Some (kpre ++ map fst xs ++ skipn (length l) kpost), (length pre + length l)%nat).
  Proof.
    intros Hs. induction l as [|a l IH]; intros pre post kpre kpost Hl Hk Hk2; simpl.
    - rewrite Nat.add_0_r. reflexivity.
    - rewrite Hs. destruct (g a) as [[k x]| | |]; simpl; try reflexivity.
      destruct post as [|y post]; [simpl in Hl; lia|]. destruct kpost as [|ky kpost]; [discriminate|]. injection Hk2 as Hk2.
      rewrite !app_length. simpl.
      destruct (length pre <? length kpre + S (length kpost))%nat eqn:E; [|apply Nat.ltb_ge in E; lia].
      rewrite ?app_length; simpl. destruct (length pre <? length pre + S (length post))%nat eqn:E2; [|apply Nat.ltb_ge in E2; lia].
      simpl. rewrite set_nth_app. rewrite <- Hk at 1. rewrite set_nth_app.
      replace (pre ++ x :: post) with ((pre ++ [x]) ++ post) by (rewrite <- app_assoc; reflexivity).
      replace (kpre ++ k :: kpost) with ((kpre ++ [k]) ++ kpost) by (rewrite <- app_assoc; reflexivity).
      replace (S (length pre)) with (length (pre ++ [x])) by (rewrite app_length; simpl; lia).
      rewrite IH; [|simpl in Hl; lia|rewrite !app_length; simpl; lia|assumption].
      destruct (mapM g l); simpl; try reflexivity.
      rewrite <- !app_assoc. simpl. rewrite app_length. simpl. f_equal. f_equal. lia.
  Qed.
  Lemma pushes_vals0 {A} (step : A -> fill V -> outcome (fill V)) (g : A -> outcome V) l n z ks :
    (forall a f, step a f = let! x := g a in push x f) -> n = length l ->
    pushes step l (repeat z n, ks, O) = let! xs := mapM g l in Ok (xs, ks, length l).
  Proof.
    intros Hs ->. pose proof (pushes_vals step g Hs l [] (repeat z (length l)) ks) as H. simpl in H. rewrite H by (rewrite repeat_length; lia).
    rewrite skipn_all2 by (rewrite repeat_length; lia). destruct (mapM g l); simpl; try reflexivity. rewrite app_nil_r. reflexivity.
  Qed.
  Lemma pushes_keys0 {A} (step : A -> fill V -> outcome (fill V)) (g : A -> outcome (Z * V)) l n z :
    (forall a f, step a f = let! x := g a in push_key (fst x) (snd x) f) -> n = length l ->
    pushes step l (repeat z n, Some (repeat 0 n), O) = let! xs := mapM g l in Ok (map snd xs, Some (map fst xs), length l).
  Proof.
    intros Hs ->. pose proof (pushes_keys step g Hs l [] (repeat z (length l)) [] (repeat 0 (length l))) as H. simpl in H.
    rewrite H; rewrite ?repeat_length; try lia; try reflexivity.
    rewrite !skipn_all2 by (rewrite repeat_length; lia). destruct (mapM g l); simpl; try reflexivity. rewrite !app_nil_r. reflexivity.
  Qed.

  (** *** The scan of a sequence *)
  Lemma a_pair_iff o (v : pyval) : a_pair (o_alt o) v <-> exists k s, v = PTuple [k; s] /\ is_scalar s && is_key o k = true.
  Proof.
    split.
    - intros H. destruct v; try contradiction. destruct l as [|k [|s [|]]]; try contradiction. exists k, s. split; [reflexivity|]. destruct H as [H1 H2].
      apply is_key_iff in H1. apply is_scalar_iff in H2. rewrite H1, H2. reflexivity.
    - intros (k & s & -> & H). apply andb_true_iff in H as [H1 H2]. split; [apply is_key_iff|apply is_scalar_iff]; assumption.
  Qed.
  Lemma scan_true_vals o (l : list pyval) e : e <> Some VKeyVal -> Forall a_number l -> scan o l e = Ok (true, match l with [] => e | _ => Some VVal end).
  Proof.
    revert e. induction l as [|x l IH]; intros e He H; [reflexivity|]. inversion H as [|? ? Hx Hl]; subst.
    assert (Hs : scan o (x :: l) e = scan o l (Some VVal)). { simpl. destruct x; try contradiction; destruct e as [[]|]; try reflexivity; congruence. }
    rewrite Hs, (IH (Some VVal)) by (first [discriminate|assumption]). destruct l; reflexivity.
  Qed.
  Lemma scan_true_pairs o (l : list pyval) e : e <> Some VVal -> Forall (a_pair (o_alt o)) l -> scan o l e = Ok (true, match l with [] => e | _ => Some VKeyVal end).
  Proof.
    revert e. induction l as [|x l IH]; intros e He H; [reflexivity|]. inversion H as [|? ? Hx Hl]; subst.
    apply a_pair_iff in Hx as (k & s & -> & Hks).
    assert (Hs : scan o (PTuple [k; s] :: l) e = scan o l (Some VKeyVal)). { simpl. rewrite Hks. destruct e as [[]|]; try reflexivity; congruence. }
    rewrite Hs, (IH (Some VKeyVal)) by (first [discriminate|assumption]). destruct l; reflexivity.
  Qed.
  (** Results of the scan from a state. *)
  Lemma scan_inv o (l : list pyval) e b e' : scan o l e = Ok (b, e') ->
    (b = true /\ l = [] /\ e' = e) \/
    (b = true /\ l <> [] /\ e <> Some VKeyVal /\ Forall a_number l /\ e' = Some VVal) \/
    (b = true /\ l <> [] /\ e <> Some VVal /\ Forall (a_pair (o_alt o)) l /\ e' = Some VKeyVal) \/
    (b = false /\ e <> Some VKeyVal /\ exists l1 y l2, l = l1 ++ y :: l2 /\ Forall a_number l1 /\ ~ a_number y /\ (forall m, y <> PTuple m) /\ y <> PStr) \/
    (b = false /\ e <> Some VVal /\ exists l1 y l2, l = l1 ++ y :: l2 /\ Forall (a_pair (o_alt o)) l1 /\ ~ a_pair (o_alt o) y /\ (exists m, y = PTuple m)).
  Proof.
    revert e b e'. induction l as [|x l IH]; intros e b e' H.
    - simpl in H. injection H as <- <-. left. auto.
    - right. destruct (is_scalar x) eqn:Ex.
      + assert (He : e <> Some VKeyVal) by (intros ->; destruct x; discriminate).
        assert (Hs : scan o l (Some VVal) = Ok (b, e')) by (destruct x; try discriminate; destruct e as [[]|]; simpl in H; try exact H; congruence).
        assert (Hx : a_number x) by (apply is_scalar_iff; exact Ex).
        destruct (IH _ _ _ Hs) as [(-> & -> & ->)|[(-> & _ & _ & Hf & ->)|[(_ & _ & Hc & _)|[(-> & _ & l1 & y & l2 & -> & H1 & H2)|(_ & Hc & _)]]]]; try congruence.
        * left. repeat split; auto; discriminate.
        * left. repeat split; auto; discriminate.
        * right. right. left. repeat split; auto. exists (x :: l1), y, l2. repeat split; auto; apply H2.
      + destruct x as [| | | | | | m | | | | | |]; try discriminate;
          try (assert (C : b = false /\ e <> Some VKeyVal) by (simpl in H; destruct e as [[]|]; try discriminate H; injection H as <- <-; (split; [reflexivity|discriminate]));
               right; right; left; destruct C as [C1 C2]; split; [exact C1|split; [exact C2|]];
               match goal with |- exists l1 y l2, ?a :: ?r = _ /\ _ => exists [], a, r end; split; [reflexivity|split; [constructor|split; [intros []|split; [intros ?; discriminate|discriminate]]]]).
        (* tuple *)
        assert (He : e <> Some VVal) by (intros ->; simpl in H; discriminate).
        destruct (match m with [k; s] => is_scalar s && is_key o k | _ => false end) eqn:Ep.
        * destruct m as [|k [|s [|]]]; try discriminate.
          assert (Hs : scan o l (Some VKeyVal) = Ok (b, e')) by (simpl in H; rewrite Ep in H; destruct e as [[]|]; try exact H; congruence).
          assert (Hx : a_pair (o_alt o) (PTuple [k; s])) by (apply a_pair_iff; eauto).
          destruct (IH _ _ _ Hs) as [(-> & -> & ->)|[(_ & _ & Hc & _)|[(-> & _ & _ & Hf & ->)|[(_ & Hc & _)|(-> & _ & l1 & y & l2 & -> & H1 & H2)]]]]; try congruence.
          -- right. left. repeat split; auto; discriminate.
          -- right. left. repeat split; auto; discriminate.
          -- right. right. right. repeat split; auto. exists (PTuple [k; s] :: l1), y, l2. repeat split; auto; apply H2.
        * assert (Hb : b = false).
          { simpl in H. destruct m as [|k [|s [|]]]; try rewrite Ep in H; destruct e as [[]|]; congruence. }
          subst b. right. right. right. split; [reflexivity|]. split; [exact He|]. exists [], (PTuple m), l. repeat split; [constructor| |eauto].
          intros Hp. apply a_pair_iff in Hp as (k & s & [= ->] & Hks). congruence.
  Qed.
  Lemma scan_false_vals o (l1 l2 : list pyval) y : Forall a_number l1 -> ~ a_number y -> (forall m, y <> PTuple m) -> y <> PStr ->
    scan o (l1 ++ y :: l2) None = Ok (false, Some VVal).
  Proof.
    intros H1 H2 H3 H4. assert (G : forall e, e <> Some VKeyVal -> scan o (l1 ++ y :: l2) e = Ok (false, Some VVal)).
    { induction l1 as [|x l1 IH]; intros e He; simpl.
      - destruct y; try (exfalso; apply H2; exact I); try congruence; try (exfalso; eapply H3; reflexivity); simpl; destruct e as [[]|]; congruence.
      - inversion H1 as [|? ? Hx Hl]; subst. destruct x; try contradiction; destruct e as [[]|]; try congruence; simpl; apply IH; first [assumption|discriminate]. }
    apply G. discriminate.
  Qed.
  Lemma scan_false_pairs o (l1 l2 : list pyval) m : Forall (a_pair (o_alt o)) l1 -> ~ a_pair (o_alt o) (PTuple m) ->
    scan o (l1 ++ PTuple m :: l2) None = Ok (false, Some VKeyVal).
  Proof.
    intros H1 H2. assert (G : forall e, e <> Some VVal -> scan o (l1 ++ PTuple m :: l2) e = Ok (false, Some VKeyVal)).
    { induction l1 as [|x l1 IH]; intros e He; simpl.
      - destruct e as [[]|]; try congruence; destruct m as [|k [|s [|]]]; try reflexivity;
          (destruct (is_scalar s && is_key o k) eqn:E; [exfalso; apply H2; apply a_pair_iff; eauto|reflexivity]).
      - inversion H1 as [|? ? Hx Hl]; subst. apply a_pair_iff in Hx as (k & s & -> & Hks). rewrite Hks. destruct e as [[]|]; try congruence; apply IH; first [assumption|discriminate]. }
    apply G. discriminate.
  Qed.
  Lemma scan_good o (l : list pyval) e : good (scan o l e).
  Proof.
    revert e. induction l as [|x l IH]; intros e; simpl; [apply good_ok|].
    destruct x as [| | | | | | m | | | | | |]; try apply good_throw; destruct e as [[]|]; simpl; try apply good_throw; try apply good_ok; try apply IH;
      (destruct m as [|k [|s [|]]]; try apply good_ok; destruct (is_scalar s && is_key o k); [apply IH|apply good_ok]).
  Qed.
End Plain.
