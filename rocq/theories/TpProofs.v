(** Proofs about the parser of tick data. *)
From Coq Require Import ZArith QArith List Bool Ascii String Lia.
Import ListNotations.
From Verif Require Import Outcome SchemaModel PsModel PsProofs PtModel TpModel TpSpec.
Open Scope nat_scope.
Open Scope list_scope.

Fixpoint go_tuple (b l : list tdata) {struct l} : outcome (list (list tdata)) :=
  if List.length b + List.length l =? 4 then Ok [b ++ l]
  else if List.length b =? 4 then Throw
  else match l with
    | [] => Throw
    | [y; z] => visit (b ++ [y]) z
    | y :: l => go_tuple (b ++ [y]) l
    end.
Lemma visit_tuple b l : visit b (DTuple l) = go_tuple b l.
Proof. reflexivity. Qed.

Section Ind.
  Variable P : tdata -> Prop.
  Hypothesis Hs : forall x, single x -> P x.
  Hypothesis Hd : forall d, Forall (fun e => P (snd e)) d -> P (DDict d).
  Hypothesis Hl : forall l, Forall P l -> P (DList l).
  Hypothesis Ht : forall l, Forall P l -> P (DTuple l).
  Fixpoint tdata_all (x : tdata) : P x :=
    match x with
    | DDict d => Hd d ((fix go (d : list (tdata * tdata)) : Forall (fun e => P (snd e)) d := match d with [] => Forall_nil _ | e :: d => Forall_cons e (tdata_all (snd e)) (go d) end) d)
    | DList l => Hl l ((fix go (l : list tdata) : Forall P l := match l with [] => Forall_nil _ | e :: l => Forall_cons e (tdata_all e) (go l) end) l)
    | DTuple l => Ht l ((fix go (l : list tdata) : Forall P l := match l with [] => Forall_nil _ | e :: l => Forall_cons e (tdata_all e) (go l) end) l)
    | x => Hs x I
    end.
End Ind.

Lemma key_true k x : key_is k x = true <-> x = DStr k.
Proof. destruct x; cbn; split; try discriminate; [intros H; apply String.eqb_eq in H; congruence|intros [= ->]; apply String.eqb_refl]. Qed.
Lemma lookup_has k v : forall d, lookup d k = Some v <-> has k v d.
Proof.
  induction d as [|[x w] d IH]; cbn [lookup]; [split; [discriminate|intros H; inversion H]|]. destruct (key_is k x) eqn:E.
  - apply key_true in E. subst x. split; [intros [= ->]; constructor|]. intros H. inversion H; subst; auto. contradiction.
  - assert (N : x <> DStr k) by (intros ->; cbn in E; rewrite String.eqb_refl in E; discriminate). rewrite IH. split; [now constructor|]. intros H. inversion H; subst; auto. contradiction.
Qed.
Lemma lookup_lacks k : forall d, lookup d k = None <-> lacks d k.
Proof.
  unfold lacks. induction d as [|[x w] d IH]; cbn; [tauto|]. destruct (key_is k x) eqn:E.
  - apply key_true in E. subst x. split; [discriminate|tauto].
  - assert (N : x <> DStr k) by (intros ->; cbn in E; rewrite String.eqb_refl in E; discriminate). tauto.
Qed.
Lemma lookups_has d : forall ks vs, lookups d ks = Some vs <-> Forall2 (fun k v => has k v d) ks vs.
Proof.
  induction ks as [|k ks IH]; intros vs; cbn [lookups].
  - split; [intros [= <-]; constructor|]. intros H. inversion H. auto.
  - destruct (lookup d k) as [v|] eqn:L.
    + apply lookup_has in L. destruct (lookups d ks) as [ws|].
      * split; [intros [= <-]; constructor; auto; now apply IH|]. intros H. inversion H as [|a v' c ws' H1 H2]; subst. apply lookup_has in H1, L. apply IH in H2. congruence.
      * split; [discriminate|]. intros H. inversion H as [|a v' c ws' H1 H2]; subst. apply IH in H2. discriminate.
    + split; [discriminate|]. intros H. inversion H as [|a v' c ws' H1 H2]; subst. apply lookup_has in H1. congruence.
Qed.
Lemma lookups_none d : forall ks, lookups d ks = None <-> ~ all_named ks d.
Proof.
  intros ks. assert (K : (exists vs, lookups d ks = Some vs) <-> all_named ks d).
  { unfold all_named. induction ks as [|k ks IH]; cbn [lookups].
    - split; [intros _ k []|eauto].
    - destruct (lookup d k) as [v|] eqn:L; [destruct (lookups d ks) as [vs|] eqn:Q|].
      + split; [|eauto]. intros _ k' [<-|Hk] Hl; [apply lookup_lacks in Hl; congruence|]. revert Hl. apply IH; eauto.
      + split; [intros [vs H]; discriminate|]. intros H. exfalso. destruct IH as [_ IH]. destruct IH as [vs E]; [intros k' Hk; apply H; now right|congruence].
      + split; [intros [vs H]; discriminate|]. intros H. exfalso. apply (H k (or_introl eq_refl)). now apply lookup_lacks. }
  rewrite <- K. destruct (lookups d ks) as [vs|]; split; try discriminate; auto; [intros H; destruct H; eauto|intros _ [vs H]; discriminate].
Qed.
Lemma remaining_3 b : List.length b = 3 -> remaining b = ["data"%string].
Proof. unfold remaining. now intros ->. Qed.
Lemma rem_eq b : remaining b = skipn (List.length b) field_names.
Proof. reflexivity. Qed.

(** ** All that is read is said *)
Lemma concat_each b : forall l, Forall (fun x => forall b r, List.length b <= 4 -> visit b x = Ok r -> says b x r) l -> List.length b <= 4 -> forall r, concat_map (fun y => visit b y) l = Ok r -> says_each b l r.
Proof.
  intros l H Hb. induction H as [|x l Hx _ IH]; intros r; cbn [concat_map]; [intros [= <-]; constructor|]. destruct (visit b x) as [r1| | |] eqn:V; cbn [bind]; try discriminate.
  fold (concat_map (fun y => visit b y)). destruct (concat_map (fun y => visit b y) l) as [r2| | |]; cbn [bind]; try discriminate. intros [= <-]. constructor; auto.
Qed.
Lemma concat_values b : forall d, Forall (fun e => forall b r, List.length b <= 4 -> visit b (snd e) = Ok r -> says b (snd e) r) d -> List.length b < 4 ->
  forall r, concat_map (fun e : tdata * tdata => let (k, v) := e in visit (b ++ [k]) v) d = Ok r -> says_values b d r.
Proof.
  intros l H Hb. induction H as [|[k v] l Hx _ IH]; intros r; cbn [concat_map]; [intros [= <-]; constructor|]. destruct (visit (b ++ [k]) v) as [r1| | |] eqn:V; cbn [bind]; try discriminate.
  match goal with |- bind ?e _ = _ -> _ => destruct e as [r2| | |] end; cbn [bind]; try discriminate. intros [= <-]. constructor; [apply Hx; auto; rewrite app_length; cbn; lia|auto].
Qed.
Lemma visit_says : forall x b r, List.length b <= 4 -> visit b x = Ok r -> says b x r.
Proof.
  apply (tdata_all (fun x => forall b r, List.length b <= 4 -> visit b x = Ok r -> says b x r)).
  - intros x Hx b r Hb. assert (E : visit b x = handle_any b x) by (destruct x; try contradiction; reflexivity). rewrite E. unfold handle_any.
    destruct (List.length b) as [|[|[|[|n]]]] eqn:L; try discriminate.
    + destruct x; try discriminate; intros [= <-]; try (now apply sy_string); apply sy_number; auto; exact I.
    + intros [= <-]. now apply sy_data.
  - intros d Hd b r Hb. cbn [visit]. destruct (lookups d (remaining b)) as [vs|] eqn:L.
    + intros [= <-]. apply sy_fields. now apply lookups_has.
    + destruct (List.length b =? 3) eqn:L3.
      * apply Nat.eqb_eq in L3. intros [= <-]. apply sy_dict_data; auto. rewrite (remaining_3 b L3) in L. cbn [lookups] in L. apply lookup_lacks. destruct (lookup d "data"); [discriminate|auto].
      * apply Nat.eqb_neq in L3. assert (List.length b <> 4) by (intros L4; unfold remaining in L; rewrite L4 in L; discriminate). intros H1. apply sy_keys; [lia|now apply lookups_none|]. apply concat_values; auto. lia.
  - intros l Hl b r Hb. cbn [visit]. destruct (List.length b =? 4) eqn:L4; [discriminate|]. apply Nat.eqb_neq in L4. destruct (List.length b =? 3) eqn:L3.
    + apply Nat.eqb_eq in L3. intros [= <-]. now apply sy_list_data.
    + apply Nat.eqb_neq in L3. intros H. apply sy_list; [lia|]. now apply concat_each.
  - intros l Hl b r Hb. rewrite visit_tuple. revert b r Hb. induction Hl as [|y l Hy Hl IH]; intros b r Hb; cbn [go_tuple].
    + destruct (List.length b + List.length [] =? 4) eqn:E; [apply Nat.eqb_eq in E; intros [= <-]; now apply sy_tuple|]. destruct (List.length b =? 4); discriminate.
    + destruct (List.length b + List.length (y :: l) =? 4) eqn:E; [apply Nat.eqb_eq in E; intros [= <-]; now apply sy_tuple|]. apply Nat.eqb_neq in E. cbn [List.length] in E.
      destruct (List.length b =? 4) eqn:L4; [discriminate|]. apply Nat.eqb_neq in L4.
      assert (Lb : List.length (b ++ [y]) <= 4) by (rewrite app_length; cbn; lia).
      destruct l as [|z [|z' l]].
      * intros H. cbn [List.length] in E. apply sy_tail; cbn [List.length]; try lia. apply IH; auto.
      * intros H. cbn [List.length] in E. apply sy_pair; try lia. inversion Hl as [|a c Hz _]; subst. apply Hz; auto.
      * intros H. cbn [List.length] in E. apply sy_tail; cbn [List.length]; try lia. apply IH; auto.
Qed.

(** ** All that is said is read *)
Scheme says_m := Minimality for says Sort Prop with each_m := Minimality for says_each Sort Prop with values_m := Minimality for says_values Sort Prop.
Combined Scheme says_mutual from says_m, each_m, values_m.
Lemma says_visit_all :
  (forall b x r, says b x r -> visit b x = Ok r) /\
  (forall b l r, says_each b l r -> concat_map (fun y => visit b y) l = Ok r) /\
  (forall b d r, says_values b d r -> concat_map (fun e : tdata * tdata => let (k, v) := e in visit (b ++ [k]) v) d = Ok r).
Proof.
  apply says_mutual.
  - intros b d vs H. cbn [visit]. rewrite rem_eq. apply lookups_has in H. now rewrite H.
  - intros b d r Hb Hn _ IH. cbn [visit]. rewrite rem_eq. apply lookups_none in Hn. rewrite Hn. replace (List.length b =? 3) with false by (symmetry; apply Nat.eqb_neq; lia). exact IH.
  - intros b d Hb Hl. cbn [visit]. rewrite (remaining_3 b Hb). cbn [lookups]. apply lookup_lacks in Hl. now rewrite Hl, Hb.
  - intros b l r Hb _ IH. cbn [visit]. replace (List.length b =? 4) with false by (symmetry; apply Nat.eqb_neq; lia). replace (List.length b =? 3) with false by (symmetry; apply Nat.eqb_neq; lia). exact IH.
  - intros b l Hb. cbn [visit]. now rewrite Hb.
  - intros b l Hb. rewrite visit_tuple. destruct l; cbn [go_tuple]; rewrite Hb; reflexivity.
  - intros b y z r Hb Hn _ IH. rewrite visit_tuple. cbn [go_tuple List.length]. replace (List.length b + 2 =? 4) with false by (symmetry; apply Nat.eqb_neq; lia).
    replace (List.length b =? 4) with false by (symmetry; apply Nat.eqb_neq; lia). exact IH.
  - intros b y l r Hb Hl Hn _ IH. rewrite visit_tuple in *. cbn [go_tuple]. replace (List.length b + List.length (y :: l) =? 4) with false by (symmetry; apply Nat.eqb_neq; cbn; lia).
    replace (List.length b =? 4) with false by (symmetry; apply Nat.eqb_neq; lia). destruct l as [|z [|z' l]]; [exact IH|cbn in Hl; lia|exact IH].
  - intros b x Hb Hx. assert (E : visit b x = handle_any b x) by (destruct x; try contradiction; reflexivity). rewrite E. unfold handle_any. now rewrite Hb.
  - intros b x Hb Hx. destruct x; try contradiction; cbn [visit]; unfold handle_any; now rewrite Hb.
  - intros b s Hb. cbn [visit]. unfold handle_any. now rewrite Hb.
  - reflexivity.
  - intros b x l r rs _ H1 _ H2. cbn [concat_map]. rewrite H1. cbn [bind]. fold (concat_map (fun y => visit b y)). now rewrite H2.
  - reflexivity.
  - intros b k v d r rs _ H1 _ H2. cbn [concat_map]. rewrite H1. cbn [bind]. first [now rewrite H2|fold (concat_map (fun e : tdata * tdata => let (k, v) := e in visit (b ++ [k]) v)); now rewrite H2].
Qed.
Theorem visit_iff x r : visit [] x = Ok r <-> says [] x r.
Proof. split; [apply visit_says; cbn; lia|apply says_visit_all]. Qed.
(** items have four fields *)
Lemma has_len d : forall ks vs, Forall2 (fun k v => has k v d) ks vs -> List.length vs = List.length ks.
Proof. induction 1; cbn; auto. Qed.
Lemma says_four :
  (forall b x r, says b x r -> List.length b <= 4 -> Forall (fun i => List.length i = 4) r) /\
  (forall b l r, says_each b l r -> List.length b <= 4 -> Forall (fun i => List.length i = 4) r) /\
  (forall b d r, says_values b d r -> List.length b < 4 -> Forall (fun i => List.length i = 4) r).
Proof.
  apply says_mutual; intros; try apply Forall_nil; try (apply Forall_app; split);
    try (match goal with H : _ -> Forall _ ?r |- Forall _ ?r => apply H; rewrite ?app_length; cbn [List.length] in *; lia end);
    (apply Forall_cons; [rewrite app_length; cbn [List.length] in *|apply Forall_nil]); try lia.
  match goal with H : Forall2 _ _ _ |- _ => rewrite (has_len _ _ _ H), skipn_length end. change (List.length field_names) with 4. lia.
Qed.
(** never anything but items or an error *)
Lemma concat_plain {A} (f : A -> outcome (list (list tdata))) : forall l, Forall (fun x => plain_out (f x)) l -> plain_out (concat_map f l).
Proof. intros l H. induction H as [|x l Hx _ IH]; cbn [concat_map]; [exact I|]. apply plain_bind; auto. intros r. apply plain_bind; [exact IH|intros; exact I]. Qed.
Lemma visit_plain : forall x b, plain_out (visit b x).
Proof.
  apply (tdata_all (fun x => forall b, plain_out (visit b x))).
  - intros x Hx b. assert (E : visit b x = handle_any b x) by (destruct x; try contradiction; reflexivity). rewrite E. unfold handle_any. destruct (List.length b) as [|[|[|[|n]]]]; try exact I. destruct x; exact I.
  - intros d Hd b. cbn [visit]. destruct lookups; [exact I|]. destruct (_ =? 3); [exact I|]. apply concat_plain. eapply Forall_impl; [|exact Hd]. intros [k v] H. apply H.
  - intros l Hl b. cbn [visit]. destruct (_ =? 4); [exact I|]. destruct (_ =? 3); [exact I|]. apply concat_plain. eapply Forall_impl; [|exact Hl]. auto.
  - intros l Hl b. rewrite visit_tuple. revert b. induction Hl as [|y l Hy Hl IH]; intros b; cbn [go_tuple]; destruct (_ =? 4); try exact I; destruct (_ =? 4); try exact I.
    destruct l as [|z [|z' l]]; try apply IH. inversion Hl; subst; auto.
Qed.
(** ** Calls *)
Lemma convert_says x t : convert_channel_type x = Ok (Some t) <-> type_says x t.
Proof.
  unfold type_says. destruct x; cbn; try (split; [discriminate|intuition congruence]).
  - destruct (String.eqb_spec s "increment"); [subst; split; [intros [= <-]; auto|intuition congruence]|]. destruct (String.eqb_spec s "value"); [subst; split; [intros [= <-]; auto|intuition congruence]|].
    destruct (String.eqb_spec s "categorical"); [subst; split; [intros [= <-]; auto 6|intuition congruence]|]. split; [discriminate|intuition congruence].
  - split; [intros [= <-]; auto|intuition congruence].
Qed.
Lemma item_iff i c : insert_item i = Ok c <-> item_calls i c.
Proof.
  split.
  - destruct i as [|ts [|l [|ty [|x [|]]]]]; cbn; try discriminate. destruct (convert_channel_type ty) as [[t|]| | |] eqn:C; cbn [bind]; try discriminate.
    + apply convert_says in C. destruct t; try (destruct l; try discriminate; intros [= <-]; apply ic_call; [exact C|discriminate]). intros [= <-]. apply ic_dropped. left.
      destruct C as [C|[[_ C]|[[_ C]|[_ C]]]]; congruence.
    + intros [= <-]. apply ic_dropped. right. destruct ty; cbn in C; try discriminate. exists s. split; auto.
      destruct (String.eqb_spec s "increment"); [discriminate|]. destruct (String.eqb_spec s "value"); [discriminate|]. destruct (String.eqb_spec s "categorical"); [discriminate|]. auto.
  - intros H. destruct H as [ts s ty t x Hs Ht|ts l ty x [->|(s & -> & N1 & N2 & N3)]]; cbn.
    + apply convert_says in Hs. rewrite Hs. cbn [bind or_else]. destruct t; auto. contradiction.
    + reflexivity.
    + destruct (String.eqb_spec s "increment"); [contradiction|]. destruct (String.eqb_spec s "value"); [contradiction|]. destruct (String.eqb_spec s "categorical"); [contradiction|]. reflexivity.
Qed.
Lemma items_iff : forall l c, insert_items l = Ok c <-> exists cs, Forall2 item_calls l cs /\ c = List.concat cs.
Proof.
  induction l as [|i l IH]; intros c; cbn [insert_items].
  - split; [intros [= <-]; exists []; split; [constructor|auto]|]. intros (cs & H & ->). inversion H. reflexivity.
  - destruct (insert_item i) as [a| | |] eqn:A; cbn [bind].
    + apply item_iff in A. destruct (insert_items l) as [r| | |]; cbn [bind].
      * split.
        -- intros [= <-]. destruct (proj1 (IH r) eq_refl) as (cs & H & ->). exists (a :: cs). split; [constructor; auto|reflexivity].
        -- intros (cs & H & ->). inversion H as [|i' a' l' cs' H1 H2]; subst. apply item_iff in H1, A. rewrite A in H1. injection H1 as <-. cbn. destruct (IH (List.concat cs')) as [_ K]. f_equal. f_equal. assert (E : Ok r = Ok (List.concat cs')) by (apply K; eauto). congruence.
      * split; [discriminate|]. intros (cs & H & ->). inversion H as [|i' a' l' cs' H1 H2]; subst. destruct (IH (List.concat cs')) as [_ K]. discriminate (K (ex_intro _ cs' (conj H2 eq_refl))).
      * split; [discriminate|]. intros (cs & H & ->). inversion H as [|i' a' l' cs' H1 H2]; subst. destruct (IH (List.concat cs')) as [_ K]. discriminate (K (ex_intro _ cs' (conj H2 eq_refl))).
      * split; [discriminate|]. intros (cs & H & ->). inversion H as [|i' a' l' cs' H1 H2]; subst. destruct (IH (List.concat cs')) as [_ K]. discriminate (K (ex_intro _ cs' (conj H2 eq_refl))).
    + split; [discriminate|]. intros (cs & H & ->). inversion H as [|i' a' l' cs' H1 H2]; subst. apply item_iff in H1. congruence.
    + split; [discriminate|]. intros (cs & H & ->). inversion H as [|i' a' l' cs' H1 H2]; subst. apply item_iff in H1. congruence.
    + split; [discriminate|]. intros (cs & H & ->). inversion H as [|i' a' l' cs' H1 H2]; subst. apply item_iff in H1. congruence.
Qed.
Theorem parse_iff x c : parse_data x = Ok c <-> exists items cs, says [] x items /\ Forall2 item_calls items cs /\ c = List.concat cs.
Proof.
  unfold parse_data. destruct (visit [] x) as [items| | |] eqn:V; cbn [bind].
  - apply visit_iff in V. rewrite items_iff. split; [intros (cs & H); eauto|]. intros (items' & cs & H1 & H2 & H3). apply visit_iff in V, H1. assert (items' = items) as -> by congruence. eauto.
  - split; [discriminate|]. intros (items' & cs & H1 & _). apply visit_iff in H1. congruence.
  - split; [discriminate|]. intros (items' & cs & H1 & _). apply visit_iff in H1. congruence.
  - split; [discriminate|]. intros (items' & cs & H1 & _). apply visit_iff in H1. congruence.
Qed.
Theorem parse_plain_out x : plain_out (parse_data x).
Proof.
  unfold parse_data. apply plain_bind; [apply visit_plain|]. induction a as [|i l IH]; cbn [insert_items]; [exact I|]. apply plain_bind; [|intros c; apply plain_bind; [exact IH|intros; exact I]].
  destruct i as [|ts [|la [|ty [|d [|]]]]]; try exact I. cbn. destruct ty; cbn; try exact I.
  - destruct (String.eqb _ _); [destruct la; exact I|]. destruct (String.eqb _ _); [destruct la; exact I|]. destruct (String.eqb _ _); [destruct la; exact I|exact I].
  - destruct t; try exact I; destruct la; exact I.
Qed.
