(** Proofs about the entries the construction helper builds. *)
From Coq Require Import ZArith List Bool Ascii String Lia Sorted Ring.
Import ListNotations.
From Verif Require Import Outcome Alg SchemaModel SchemaProofs.
Open Scope nat_scope.
Open Scope list_scope.

(** RPY_UNREACHABLE is not reached: a label that matches leaves nothing, a NUL or a colon *)
Lemma go_rest : forall a l, compare_go a l = true -> exists b, l = (a ++ b)%string /\ match b with EmptyString => True | String c _ => c = NUL \/ c = colon end.
Proof.
  induction a as [|x a IH]; intros [|y l] H; simpl in *; try discriminate.
  - now exists ""%string.
  - exists (String y l). split; auto. apply orb_true_iff in H as [H|H]; apply Ascii.eqb_eq in H; auto.
  - destruct (Ascii.eqb_spec y x) as [->|]; [|discriminate]. destruct (IH l H) as (b & -> & Hb). now exists b.
Qed.
Lemma find_go_some : forall l i t c, find_go l i t = Some c -> exists x, i <= c /\ nth_error l (c - i) = Some x /\ compare_labels (fst x) t = true.
Proof.
  induction l as [|y l IH]; intros i t c H; simpl in H; [discriminate|]. destruct compare_labels eqn:E.
  - injection H as <-. exists y. rewrite Nat.sub_diag. auto.
  - destruct (IH _ _ _ H) as (x & Hi & Hn & Hx). exists x. replace (c - i) with (S (c - S i)) by lia. repeat split; auto; lia.
Qed.
Lemma find_some s t c : find s t = Some c -> exists x, nth_error (chans s) c = Some x /\ compare_labels (fst x) t = true.
Proof. intros H. destruct (find_go_some _ _ _ _ H) as (x & _ & Hn & Hx). rewrite Nat.sub_0_r in Hn. eauto. Qed.
Lemma vid_bound c l v : variant_id_of_label c l = Ok v -> v < num_variants c \/ (v = 0 /\ num_variants c = 1).
Proof.
  destruct c as [[]|[]|vs|]; simpl; intros H.
  - destruct String.eqb; [injection H as <-; lia|]. destruct String.eqb; injection H as <-; lia.
  - injection H as <-; auto.
  - destruct String.eqb; [injection H as <-; lia|]. destruct String.eqb; injection H as <-; lia.
  - injection H as <-; auto.
  - destruct index_of eqn:E; [|discriminate]. injection H as <-. apply index_of_some in E. left. apply nth_error_Some. congruence.
  - injection H as <-. auto.
Qed.
Lemma vid_lt c l v : variant_id_of_label c l = Ok v -> v < num_variants c.
Proof. intros H. apply vid_bound in H. lia. Qed.
Lemma vid_def c l : exists v, variant_id_of_label c l = Ok v \/ variant_id_of_label c l = Throw.
Proof.
  destruct c as [[]|[]|vs|]; simpl; try (exists 0; tauto).
  - destruct String.eqb; [exists 0; tauto|]. destruct String.eqb; [exists 1|exists 0]; tauto.
  - destruct String.eqb; [exists 0; tauto|]. destruct String.eqb; [exists 1|exists 0]; tauto.
  - destruct index_of as [i|]; [exists i|exists 0]; tauto.
Qed.
Theorem label_defined s l : label_to_stream_dim s l = Throw \/ exists d, label_to_stream_dim s l = Ok d.
Proof.
  unfold label_to_stream_dim. destruct (find s l) as [c|] eqn:F; auto. destruct (find_some s l c F) as (x & -> & Hx).
  unfold compare_labels in Hx. destruct (_ <? _)%nat; [discriminate|]. destruct String.eqb; [discriminate|]. destruct (String.eqb (fst x) ""); [discriminate|].
  apply go_rest in Hx as (b & -> & Hb). rewrite sdrop_app. destruct b as [|a b]; [eauto|]. destruct (Ascii.eqb_spec a NUL); [eauto|].
  destruct Hb as [Hb|Hb]; [contradiction|]. subst a. rewrite Ascii.eqb_refl. destruct (vid_def (snd x) b) as [v [->| ->]]; simpl; eauto.
Qed.

Lemma wsum_nth : forall l c x, nth_error l c = Some x -> wsum (firstn c l) + num_variants (snd x) <= wsum l.
Proof.
  induction l as [|y l IH]; intros [|c] x H; simpl in *; try discriminate; unfold wsum in *; simpl.
  - injection H as ->. lia.
  - specialize (IH c x H). lia.
Qed.
Lemma width_ge s c x : nth_error (chans s) c = Some x -> width_to s c + num_variants (snd x) <= width s.
Proof.
  intros H. unfold width, width_without_param, size. rewrite !width_to_sum, firstn_all. pose proof (wsum_nth _ _ _ H). lia.
Qed.

Section Helper.
Variable R : cring.
Add Ring rr : (rth R).
Local Open Scope cr_scope.

(** the sum of the amounts put on a coordinate up to a time *)
Fixpoint total (T : Z) (key : nat) (l : list (Z * (nat * R))) : R :=
  match l with [] => r0 | (t, (k, x)) :: l => (if ((t <=? T)%Z && Nat.eqb k key)%bool then x else r0) + total T key l end.
Lemma total_entry T key : forall l t k x, total T key (entry R l t (k, x)) = (if ((t <=? T)%Z && Nat.eqb k key)%bool then x else r0) + total T key l.
Proof.
  induction l as [|[t' [k' x']] l IH]; intros t k x; simpl; auto. destruct (t <? t')%Z; simpl; auto. rewrite IH.
  destruct (((t <=? T)%Z && Nat.eqb k key)%bool), (((t' <=? T)%Z && Nat.eqb k' key)%bool); ring.
Qed.
Lemma entry_sorted : forall l t x, StronglySorted Z.le (map fst l) -> StronglySorted Z.le (map fst (entry R l t x)).
Proof.
  induction l as [|y l IH]; intros t x H; simpl in *.
  - repeat constructor.
  - inversion H as [|? ? Hs Hf]; subst. destruct (Z.ltb_spec t (fst y)); simpl.
    + constructor; [now constructor|]. constructor; [lia|]. eapply Forall_impl; [|exact Hf]. simpl. lia.
    + constructor; [now apply IH|]. clear IH Hs H. induction l as [|z l IHl]; simpl; [constructor; auto|].
      inversion Hf; subst. destruct (t <? fst z)%Z; simpl; [constructor; auto|constructor; auto]. 
Qed.
(** entries at one time stay in the order of the calls *)
Lemma entry_stable : forall l t x u, StronglySorted Z.le (map fst l) ->
  filter (fun e => Z.eqb (fst e) u) (entry R l t x) = filter (fun e => Z.eqb (fst e) u) l ++ (if Z.eqb t u then [(t, x)] else []).
Proof.
  induction l as [|y l IH]; intros t x u H; simpl in *.
  - now destruct (Z.eqb t u).
  - inversion H as [|? ? Hs Hf]; subst. destruct (Z.ltb_spec t (fst y)); simpl.
    + destruct (Z.eqb_spec t u) as [->|]; [|now rewrite app_nil_r]. replace (Z.eqb (fst y) u) with false by (symmetry; apply Z.eqb_neq; lia).
      assert (E : filter (fun e => Z.eqb (fst e) u) l = []).
      { assert (Q : Forall (fun a => (u < a)%Z) (map fst l)) by (eapply Forall_impl; [|exact Hf]; simpl; lia). clear -Q.
        induction l as [|z l IHl]; simpl; auto. inversion Q; subst. replace (Z.eqb (fst z) u) with false by (symmetry; apply Z.eqb_neq; lia). now apply IHl. }
      now rewrite E.
    + rewrite IH by auto. now destruct (Z.eqb (fst y) u).
Qed.

Lemma upd_len {A} : forall (l : list A) n x, List.length (upd l n x) = List.length l.
Proof. induction l; intros [|n] x; simpl; auto. Qed.
Lemma upd_same {A} : forall (l : list A) n x, n < List.length l -> nth_error (upd l n x) n = Some x.
Proof. induction l; intros [|n] x H; simpl in *; try lia; auto. apply IHl. lia. Qed.
Lemma upd_other {A} : forall (l : list A) n m x, n <> m -> nth_error (upd l n x) m = nth_error l m.
Proof. induction l; intros [|n] [|m] x H; simpl in *; try lia; auto. Qed.

Definition op_time (o : hop R) : Z :=
  match o with HCatII _ t _ _ | HCatLI _ t _ _ | HCatIL _ t _ _ | HCatLL _ t _ _ | HIncI _ t _ _ | HIncL _ t _ _ | HValI _ t _ _ | HValL _ t _ _ => t end.

(** ** No call is undefined, whatever the history *)
Lemma add_ll_defined h t a b x : a < List.length (prev R h) -> b < List.length (prev R h) ->
  exists h', add_lead_lag R h t a b x = Ok h' /\ List.length (prev R h') = List.length (prev R h) /\
    (StronglySorted Z.le (map fst (entries R h)) -> StronglySorted Z.le (map fst (entries R h'))).
Proof.
  intros Ha Hb. unfold add_lead_lag. destruct (nth_error (prev R h) a) eqn:Ea; [|apply nth_error_None in Ea; lia].
  destruct (nth_error (prev R h) b) eqn:Eb; [|apply nth_error_None in Eb; lia]. eexists. split; [reflexivity|]. simpl. rewrite !upd_len. split; auto.
  intros H. now repeat apply entry_sorted.
Qed.
Lemma bind_def {A B} (m : outcome A) (f : A -> outcome B) : (m = Throw \/ exists x, m = Ok x /\ (f x = Throw \/ exists y, f x = Ok y)) ->
  bind m f = Throw \/ exists y, bind m f = Ok y.
Proof. intros [->|(x & -> & [H|[y H]])]; simpl; eauto. Qed.
Definition fine (w : nat) (h : helper R) : Prop := List.length (prev R h) = w /\ StronglySorted Z.le (map fst (entries R h)).
Lemma h_step_fine s o h : fine (width s) h -> h_step R s o h = Throw \/ exists h', h_step R s o h = Ok h' /\ fine (width s) h'.
Proof.
  intros [Hl Hs].
  assert (A : forall t k x, fine (width s) (add_entry R h t k x)).
  { intros t k x. split; auto. simpl. now apply entry_sorted. }
  assert (B : forall t a b x, a < width s -> b < width s -> exists h', add_lead_lag R h t a b x = Ok h' /\ fine (width s) h').
  { intros t a b x Ha Hb. rewrite <- Hl in Ha, Hb. destruct (add_ll_defined h t a b x Ha Hb) as (h' & E & L & Q). exists h'. split; auto. split; auto. lia. }
  destruct o as [t c v|t c v|t c v|t c v|t c x|t c x|t c x|t c x]; simpl.
  - unfold cat_ii, channel_variant_to_stream_dim. destruct nth_error as [y|]; simpl; auto. destruct (_ <? _)%nat; simpl; eauto.
  - unfold cat_li, find_mut. destruct (final s); simpl; auto. destruct find as [i|]; simpl; auto. destruct nth_error; simpl; auto. destruct (_ <? _)%nat; simpl; eauto.
  - unfold cat_il, channel_variant_to_stream_dim. destruct nth_error as [y|]; simpl; auto. destruct index_of; simpl; auto. destruct (_ <? _)%nat; simpl; eauto.
  - unfold cat_ll. destruct (label_defined s (c ++ ":" ++ v)) as [->|[d ->]]; simpl; eauto.
  - unfold inc_i, channel_to_stream_dim. destruct (_ <? _)%nat; simpl; eauto.
  - unfold inc_l. destruct (label_defined s c) as [->|[d ->]]; simpl; eauto.
  - unfold val_i, channel_variant_to_stream_dim. destruct (nth_error (chans s) c) as [y|] eqn:E; simpl; auto.
    pose proof (width_ge s c y E) as W. destruct (num_variants (snd y)) as [|[|m]]; simpl; auto. right. apply B; lia.
  - unfold val_l, find_mut. destruct (final s); simpl; auto. destruct (find s c) as [i|] eqn:F; simpl; auto.
    destruct (nth_error (chans s) i) as [y|] eqn:E; auto. pose proof (width_ge s i y E) as W.
    destruct (variant_id_of_label (snd y) "lead") as [a| | |] eqn:Ea; simpl; auto; try (destruct (vid_def (snd y) "lead") as [? [?|?]]; congruence).
    destruct (variant_id_of_label (snd y) "lag") as [b| | |] eqn:Eb; simpl; auto; try (destruct (vid_def (snd y) "lag") as [? [?|?]]; congruence).
    apply vid_lt in Ea, Eb. right. apply B; lia.
Qed.
Lemma new_fine s : fine (width s) (new_helper R s).
Proof. split; simpl; [apply repeat_length|constructor]. Qed.
Theorem run_defined s : forall l h, fine (width s) h -> h_run R s l h = Throw \/ exists h', h_run R s l h = Ok h' /\ fine (width s) h'.
Proof.
  induction l as [|o l IH]; intros h H; simpl; eauto. destruct (h_step_fine s o h H) as [->|(h' & -> & H')]; simpl; auto.
Qed.

(** ** Values telescope *)
Definition by_index (s : schema) (c : nat) (o : hop R) : Prop :=
  match o with
  | HCatII _ _ c' _ => c' <> c
  | HIncI _ _ c' _ => c' <> c /\ exists x, nth_error (chans s) c' = Some x /\ 0 < num_variants (snd x)
  | HValI _ _ _ _ => True
  | _ => False
  end.
Fixpoint last_value (c : nat) (l : list (hop R)) (x : R) : R :=
  match l with [] => x | HValI _ _ c' y :: l => last_value c l (if Nat.eqb c' c then y else x) | _ :: l => last_value c l x end.
Definition on_side (T : Z) (l : list (hop R)) (b : bool) : Prop := forall o, In o l -> (op_time o <=? T)%Z = b.

Lemma dims_apart s c c' x y v v' : c <> c' -> nth_error (chans s) c = Some x -> nth_error (chans s) c' = Some y ->
  v < num_variants (snd x) -> v' < num_variants (snd y) -> (width_to s c + v <> width_to s c' + v')%nat.
Proof.
  intros Hn Hx Hy Hv Hv' E.
  assert (A : channel_variant_to_stream_dim s c v = Ok (width_to s c + v)%nat) by (unfold channel_variant_to_stream_dim; rewrite Hx; apply Nat.ltb_lt in Hv; now rewrite Hv).
  assert (B : channel_variant_to_stream_dim s c' v' = Ok (width_to s c' + v')%nat) by (unfold channel_variant_to_stream_dim; rewrite Hy; apply Nat.ltb_lt in Hv'; now rewrite Hv').
  apply inverse in A, B. rewrite E in A. congruence.
Qed.

Section One.
Variables (s : schema) (c : nat) (n : string) (k : channel).
Hypothesis Hc : nth_error (chans s) c = Some (n, k).
Hypothesis Hk : 2 <= num_variants k.
Variable v : nat.
Hypothesis Hv : v < 2.
Let dim := (width_to s c + v)%nat.

Definition tracks (T : Z) (h : helper R) (p x : R) : Prop := fine (width s) h /\ nth_error (prev R h) dim = Some p /\ total T (dim + 1)%nat (entries R h) = x.

Lemma dim_lt : dim < width s.
Proof. unfold dim. pose proof (width_ge s c (n, k) Hc). simpl in *. lia. Qed.
Lemma add_other T h t d x p tot : d <> dim -> tracks T h p tot -> tracks T (add_entry R h t (d + 1)%nat x) p tot.
Proof.
  intros Hd ((Hl & Hs) & Hp & Ht). unfold add_entry. split; [split; simpl; auto; now apply entry_sorted|]. split; auto. simpl. rewrite total_entry.
  replace (Nat.eqb (d + 1)%nat (dim + 1)%nat) with false by (symmetry; apply Nat.eqb_neq; lia). rewrite andb_false_r, Ht. ring.
Qed.
Lemma add_same T h t x p tot : tracks T h p tot -> tracks T (add_entry R h t (dim + 1)%nat x) p (if (t <=? T)%Z then x + tot else tot).
Proof.
  intros ((Hl & Hs) & Hp & Ht). unfold add_entry. split; [split; simpl; auto; now apply entry_sorted|]. split; auto. simpl. rewrite total_entry.
  rewrite Nat.eqb_refl, andb_true_r, Ht. destruct (t <=? T)%Z; ring.
Qed.
Lemma tracks_prev T h p tot a x : tracks T h p tot -> a < width s -> tracks T (mkH R (upd (prev R h) a x) (entries R h)) (if Nat.eqb a dim then x else p) tot.
Proof.
  intros ((Hl & Hs) & Hp & Ht) Ha. split; [split; simpl; auto; now rewrite upd_len|]. split; auto. simpl. destruct (Nat.eqb_spec a dim) as [->|N].
  - apply upd_same. lia.
  - now rewrite upd_other.
Qed.
Lemma step_tracks T o h h' p tot : by_index s c o -> tracks T h p tot -> h_step R s o h = Ok h' ->
  exists p' tot', tracks T h' p' tot' /\ p' = last_value c [o] p /\ tot' = (if (op_time o <=? T)%Z then tot + (p' - p) else tot).
Proof.
  intros Ho Ht E.
  assert (Z0 : forall b : bool, tot = if b then tot + (p - p) else tot) by (intros []; ring).
  destruct o as [t c' w|t c' w|t c' w|t c' w|t c' x|t c' x|t c' x|t c' x]; simpl in Ho; try contradiction; simpl in E.
  - unfold cat_ii, channel_variant_to_stream_dim in E. destruct (nth_error (chans s) c') as [y|] eqn:Ey; [|discriminate].
    destruct (Nat.ltb_spec w (num_variants (snd y))); [|discriminate]. simpl in E. injection E as <-.
    exists p, tot. split; [|simpl; auto]. apply add_other; auto. unfold dim. apply (dims_apart s c' c y (n, k)); auto. simpl. lia.
  - unfold inc_i, channel_to_stream_dim in E. destruct (_ <? _)%nat; [|discriminate]. simpl in E. injection E as <-.
    destruct Ho as (Hn & y & Hy & Hp). exists p, tot. split; [|simpl; auto]. apply add_other; auto. unfold dim.
    rewrite <- (Nat.add_0_r (width_to s c')). apply (dims_apart s c' c y (n, k)); auto. simpl. lia.
  - unfold val_i, channel_variant_to_stream_dim in E. destruct (nth_error (chans s) c') as [y|] eqn:Ey; [|discriminate].
    destruct (num_variants (snd y)) as [|[|m]] eqn:Em; try discriminate. simpl in E.
    unfold add_lead_lag in E. set (a := (width_to s c' + 0)%nat) in *. set (b := (width_to s c' + 1)%nat) in *.
    pose proof (width_ge s c' y Ey) as W. rewrite Em in W.
    destruct (nth_error (prev R h) a) as [pa|] eqn:Ea; [|discriminate]. destruct (nth_error (prev R h) b) as [pb|] eqn:Eb; [|discriminate].
    simpl op_time. simpl last_value.
    assert (Ha : a < width s) by (unfold a; lia). assert (Hb : b < width s) by (unfold b; lia).
    injection E as <-.
    destruct (Nat.eqb_spec c' c) as [->|Hn].
    + rewrite Hc in Ey. injection Ey as <-.
      assert (Ev : v = 0%nat \/ v = 1%nat) by lia. destruct Ev as [Ev|Ev].
      * (* lead *)
        assert (Da : dim = a) by (unfold dim, a; lia). assert (Db : b <> dim) by (unfold dim, b; lia).
        assert (pa = p) as -> by (destruct Ht as (_ & Hp & _); rewrite Da in Hp; congruence).
        pose proof (add_same T h t (x - p) p tot Ht) as T1. rewrite Da in T1.
        pose proof (add_other T _ t b (x - pb) _ _ Db T1) as T2.
        pose proof (tracks_prev T _ _ _ a x T2 Ha) as T3. pose proof (tracks_prev T _ _ _ b x T3 Hb) as T4. simpl in T4.
        replace (Nat.eqb a dim) with true in T4 by (symmetry; apply Nat.eqb_eq; lia).
        replace (Nat.eqb b dim) with false in T4 by (symmetry; apply Nat.eqb_neq; lia).
        eexists _, _. split; [exact T4|]. split; auto. destruct (t <=? T)%Z; ring.
      * assert (Da : a <> dim) by (unfold dim, a; lia). assert (Db : dim = b) by (unfold dim, b; lia).
        assert (pb = p) as -> by (destruct Ht as (_ & Hp & _); rewrite Db in Hp; congruence).
        pose proof (add_other T h t a (x - pa) _ _ Da Ht) as T1.
        pose proof (add_same T _ t (x - p) p tot T1) as T2. rewrite Db in T2.
        pose proof (tracks_prev T _ _ _ a x T2 Ha) as T3. pose proof (tracks_prev T _ _ _ b x T3 Hb) as T4. simpl in T4.
        replace (Nat.eqb b dim) with true in T4 by (symmetry; apply Nat.eqb_eq; lia).
        eexists _, _. split; [exact T4|]. split; auto. destruct (t <=? T)%Z; ring.
    + assert (Da : a <> dim). { unfold a, dim. apply (dims_apart s c' c y (n, k)); auto; simpl; lia. }
      assert (Db : b <> dim). { unfold b, dim. apply (dims_apart s c' c y (n, k)); auto; simpl; lia. }
      pose proof (add_other T _ t a (x - pa) _ _ Da Ht) as T1.
      pose proof (add_other T _ t b (x - pb) _ _ Db T1) as T2.
      pose proof (tracks_prev T _ _ _ a x T2 Ha) as T3. pose proof (tracks_prev T _ _ _ b x T3 Hb) as T4. simpl in T4.
      replace (Nat.eqb a dim) with false in T4 by (symmetry; apply Nat.eqb_neq; lia).
      replace (Nat.eqb b dim) with false in T4 by (symmetry; apply Nat.eqb_neq; lia).
      exists p, tot. split; [exact T4|]. split; auto.
Qed.
Lemma last_one o p : forall l, last_value c (o :: l) p = last_value c l (last_value c [o] p).
Proof. intros l. destruct o; reflexivity. Qed.
Lemma run_tracks T b : forall l h h' p tot, (forall o, In o l -> by_index s c o) -> on_side T l b -> tracks T h p tot -> h_run R s l h = Ok h' ->
  tracks T h' (last_value c l p) (if b then tot + (last_value c l p - p) else tot).
Proof.
  induction l as [|o l IH]; intros h h' p tot Hb Hs Ht E; simpl h_run in E.
  - injection E as <-. simpl. replace (if b then tot + (p - p) else tot) with tot by (destruct b; ring). auto.
  - destruct (h_step R s o h) as [h1| | |] eqn:E1; try discriminate. simpl in E.
    destruct (step_tracks T o h h1 p tot) as (p' & tot' & T1 & -> & ->); auto; [apply Hb; simpl; auto|].
    rewrite (Hs o) in T1 by (simpl; auto).
    assert (Q := IH h1 h' _ _ (fun o H => Hb o (or_intror H)) (fun o H => Hs o (or_intror H)) T1 E).
    rewrite last_one. destruct b; [|exact Q].
    match type of Q with tracks _ _ _ ?u => replace (tot + (last_value c l (last_value c [o] p) - p)) with u by ring end. exact Q.
Qed.
Theorem values_telescope l1 l2 T h :
  (forall o, In o (l1 ++ l2) -> by_index s c o) -> on_side T l1 true -> on_side T l2 false ->
  h_run R s (l1 ++ l2) (new_helper R s) = Ok h -> total T (width_to s c + v + 1)%nat (entries R h) = last_value c l1 r0.
Proof.
  intros Hb H1 H2 E.
  assert (T0 : tracks T (new_helper R s) r0 r0).
  { split; [apply new_fine|]. split; auto. simpl. rewrite (nth_error_nth' _ r0) by (rewrite repeat_length; apply dim_lt). f_equal. apply nth_repeat. }
  assert (Sp : exists h1, h_run R s l1 (new_helper R s) = Ok h1 /\ h_run R s l2 h1 = Ok h).
  { clear -E. revert E. generalize (new_helper R s). induction l1 as [|o l IH]; intros h0 E; simpl in *; eauto.
    destruct (h_step R s o h0); try discriminate. simpl in *. now apply IH. }
  destruct Sp as (h1 & E1 & E2).
  pose proof (run_tracks T true l1 _ h1 _ _ (fun o H => Hb o (in_or_app _ _ _ (or_introl H))) H1 T0 E1) as T1.
  pose proof (run_tracks T false l2 _ h _ _ (fun o H => Hb o (in_or_app _ _ _ (or_intror H))) H2 T1 E2) as (_ & _ & Q).
  fold dim. rewrite Q. ring.
Qed.
End One.
End Helper.
