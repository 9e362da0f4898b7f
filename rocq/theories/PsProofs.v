(** Proofs about schemas and metadata given from Python. *)
From Coq Require Import ZArith List Bool Ascii String Lia.
Import ListNotations.
From Verif Require Import Outcome SchemaModel SchemaProofs PsModel PsSpec.
Open Scope nat_scope.
Open Scope list_scope.

(** ** Types *)
Lemma to_lower_same a : same_letter a (to_lower a).
Proof.
  unfold to_lower. destruct (65 <=? nat_of_ascii a) eqn:E1; cbn [andb]; [|now left]. destruct (nat_of_ascii a <=? 90) eqn:E2; [|now left].
  apply Nat.leb_le in E1, E2. right. exists (nat_of_ascii a - 65). rewrite nat_ascii_embedding by lia. lia.
Qed.
Lemma to_lower_of a b : same_letter a b -> (nat_of_ascii b < 65 \/ 90 < nat_of_ascii b) -> to_lower a = b.
Proof.
  unfold to_lower. intros [->|(k & Hk & Ha & Hb)] H.
  - destruct (65 <=? nat_of_ascii b) eqn:E1; cbn [andb]; auto. destruct (nat_of_ascii b <=? 90) eqn:E2; auto. apply Nat.leb_le in E1, E2. lia.
  - rewrite Ha. replace (65 <=? 65 + k) with true by (symmetry; apply Nat.leb_le; lia). replace (65 + k <=? 90) with true by (symmetry; apply Nat.leb_le; lia).
    cbn [andb]. replace (65 + k + 32) with (nat_of_ascii b) by lia. apply ascii_nat_embedding.
Qed.
Lemma lower_any s : any_case s (lower s).
Proof. induction s as [|a s IH]; cbn [lower]; constructor; auto. apply to_lower_same. Qed.
Fixpoint no_upper (t : string) : Prop := match t with EmptyString => True | String b t => (nat_of_ascii b < 65 \/ 90 < nat_of_ascii b) /\ no_upper t end.
Lemma any_lower s t : any_case s t -> no_upper t -> lower s = t.
Proof. induction 1; cbn [lower no_upper]; auto. intros [H1 H2]. f_equal; auto. now apply to_lower_of. Qed.
Lemma name_no_upper t : no_upper (type_name t).
Proof. assert (H : forall n, n <? 65 = true \/ 90 <? n = true -> n < 65 \/ 90 < n) by (intros n [H|H]; apply Nat.ltb_lt in H; auto).
  destruct t; cbn [type_name no_upper]; repeat split; apply H; right; reflexivity. Qed.
Lemma name_any s t : any_case s (type_name t) <-> lower s = type_name t.
Proof. split; [intros H; apply any_lower; auto; apply name_no_upper|intros <-; apply lower_any]. Qed.
Lemma string_type s t : string_to_channel_type s = Ok t <-> any_case s (type_name t).
Proof.
  rewrite name_any. unfold string_to_channel_type. split.
  - destruct (String.eqb_spec (lower s) "increment"); [intros [= <-]; auto|]. destruct (String.eqb_spec (lower s) "value"); [intros [= <-]; auto|].
    destruct (String.eqb_spec (lower s) "categorical"); [intros [= <-]; auto|]. destruct (String.eqb_spec (lower s) "lie"); [intros [= <-]; auto|discriminate].
  - intros ->. destruct t; reflexivity.
Qed.
Lemma type_iff o t : py_to_channel_type o = Ok t <-> says_type o t.
Proof.
  split.
  - destruct o; cbn [py_to_channel_type]; try discriminate; [intros H; constructor; now apply string_type|intros [= <-]; constructor].
  - intros []; cbn [py_to_channel_type]; auto. now apply string_type.
Qed.
Lemma any_len s t : any_case s t -> String.length s = String.length t.
Proof. induction 1; simpl; congruence. Qed.
Lemma letter_no_type a t : ~ says_type (PStr (String a EmptyString)) t.
Proof. intros H. inversion H as [|s' t' H1]; subst. apply any_len in H1. destruct t; discriminate. Qed.

(** ** Labels *)
Lemma go_takes : forall a b, compare_go a b = true <-> takes a b.
Proof.
  intros a b. split.
  - revert b. induction a as [|x a IH]; intros [|y b]; cbn [compare_go]; try discriminate.
    + intros _. now left.
    + intros H. right. exists b. apply orb_true_iff in H as [H|H]; apply Ascii.eqb_eq in H; subst; [right|left]; reflexivity.
    + destruct (Ascii.eqb_spec y x) as [->|]; [|discriminate]. intros H. apply IH in H as [->|(r & [->| ->])]; [now left|right; exists r; now left|right; exists r; now right].
  - intros [->|(r & [->| ->])].
    + pose proof (go_app a "") as H. now rewrite sapp_nil in H.
    + rewrite go_app. reflexivity.
    + rewrite go_app. reflexivity.
Qed.
Lemma labels_takes a b : a <> ""%string -> compare_labels a b = true <-> takes a b.
Proof.
  intros Ha. rewrite <- go_takes. unfold compare_labels. destruct (String.eqb_spec a ""); [contradiction|]. destruct (_ <? _)%nat eqn:E.
  - split; [discriminate|]. intros H. apply go_takes in H. apply Nat.ltb_lt in E. destruct H as [->|(r & [->| ->])]; rewrite ?slen_app in E; lia.
  - destruct (String.eqb_spec b ""); [|reflexivity]. subst. split; [discriminate|]. destruct a; [contradiction|discriminate].
Qed.
Lemma find_free : forall l i x, (forall y, In y (names l) -> y <> ""%string /\ ~ takes y x) -> find_go l i x = None.
Proof.
  induction l as [|[y c] l IH]; intros i x H; cbn [find_go fst]; auto. destruct (compare_labels y x) eqn:E; [|apply IH; intros z Hz; apply H; now right].
  destruct (H y (or_introl eq_refl)) as [H1 H2]. apply labels_takes in E; auto. contradiction.
Qed.
Definition fits (s : schema) (x : string) : Prop := final s = false /\ x <> ""%string /\ forall y, In y (names (chans s)) -> y <> ""%string /\ ~ takes y x.
Lemma insert_fits s x c : fits s x -> insert s x c = Ok (mkSch (chans s ++ [(x, c)]) false (time s), List.length (chans s)).
Proof.
  intros (Hf & Hx & H). unfold insert, find_mut, find. rewrite Hf. destruct (String.eqb_spec x ""); [contradiction|]. rewrite find_free by auto. reflexivity.
Qed.
Lemma upd_last {A} : forall (l : list A) x y, upd (l ++ [x]) (List.length l) y = l ++ [y].
Proof. induction l as [|z l IH]; intros x y; simpl; auto. now rewrite IH. Qed.
Lemma nth_last {A} : forall (l : list A) x, nth_error (l ++ [x]) (List.length l) = Some x.
Proof. induction l; simpl; auto. Qed.
Lemma on_last l x c f tm c' : f c = Ok c' -> on_channel (mkSch (l ++ [(x, c)]) false tm) (List.length l) f = Ok (mkSch (l ++ [(x, c')]) false tm).
Proof. intros H. unfold on_channel. cbn [chans final time]. rewrite nth_last. cbn [snd fst]. rewrite H. cbn [bind]. now rewrite upd_last. Qed.

(** ** Options *)
Lemma named_step vs x r : named vs (x :: r) = match insert_variant (Categorical vs) x with Categorical vs' => named vs' r | _ => [] end.
Proof.
  cbn [named insert_variant]. destruct (String.eqb_spec x "") as [->|N].
  - destruct (string_dec "" "") as [_|]; [|contradiction]. destruct (in_dec string_dec (to_string (List.length vs)) vs) as [I|I].
    + destruct (index_of (to_string (List.length vs)) vs) eqn:E; auto. now apply index_of_none in E.
    + rewrite (proj2 (index_of_none _ _) I). reflexivity.
  - destruct (string_dec x ""); [contradiction|]. destruct (in_dec string_dec x vs) as [I|I].
    + destruct (index_of x vs) eqn:E; auto. now apply index_of_none in E.
    + rewrite (proj2 (index_of_none _ _) I). reflexivity.
Qed.
Lemma variant_cat vs x : exists vs', insert_variant (Categorical vs) x = Categorical vs'.
Proof. cbn [insert_variant]. destruct index_of; eauto. Qed.
Lemma categories_last : forall r l x vs tm,
  insert_categories (mkSch (l ++ [(x, Categorical vs)]) false tm) (List.length l) (map PStr r) = Ok (mkSch (l ++ [(x, Categorical (named vs r))]) false tm).
Proof.
  induction r as [|y r IH]; intros l x vs tm; cbn [map insert_categories]; auto. cbn [cast_string bind]. destruct (variant_cat vs y) as [vs' E].
  rewrite (on_last l x (Categorical vs) _ tm (Categorical vs')) by now rewrite E. cbn [bind]. rewrite IH, named_step, E. reflexivity.
Qed.
Lemma categories_inv : forall l s c s', insert_categories s c l = Ok s' -> exists r, l = map PStr r.
Proof.
  induction l as [|o l IH]; intros s c s'; cbn [insert_categories]; [intros _; exists []; reflexivity|].
  destruct o; cbn [cast_string bind]; try discriminate. destruct on_channel; cbn [bind]; try discriminate. intros H. apply IH in H as [r ->]. exists (s0 :: r). reflexivity.
Qed.
Lemma letters_map s : letters s = map PStr (map (fun a => String a EmptyString) (list_ascii_of_string s)).
Proof. induction s; simpl; congruence. Qed.
Lemma names_iff o r : says_names o r <-> iterate o = Ok (map PStr r).
Proof.
  split.
  - intros [l|d l H|s]; cbn [iterate as_seq]; [reflexivity|now rewrite H|now rewrite letters_map].
  - assert (J : forall a b : list string, map PStr a = map PStr b -> a = b).
    { induction a as [|x a IH]; intros [|y b]; try discriminate; auto. cbn [map]. intros [= -> H]. f_equal. auto. }
    destruct o; cbn [iterate as_seq]; try discriminate.
    + rewrite letters_map. intros [= H]. apply J in H. subst. constructor.
    + intros [= H]. now constructor.
    + intros [= ->]. constructor.
Qed.
Lemma item_ok s x t d c : fits s x -> says_channel t d c -> insert_item s x t d = Ok (mkSch (chans s ++ [(x, c)]) false (time s)).
Proof.
  intros Hs H. unfold insert_item. rewrite insert_fits by auto. cbn [bind]. destruct H; cbn [new_channel]; auto.
  - now rewrite H.
  - rewrite H. cbn [cast_bool bind]. now apply on_last.
  - now rewrite H.
  - rewrite H. apply names_iff in H0. rewrite H0. cbn [bind]. apply categories_last.
Qed.
Lemma item_inv s x t d s' : insert_item s x t d = Ok s' -> exists c, says_channel t d c.
Proof.
  unfold insert_item. destruct insert as [[s1 i]| | |]; cbn [bind]; try discriminate. destruct t.
  - intros _. eexists. constructor.
  - destruct (get d "lead_lag") as [o|] eqn:E; [|intros _; eexists; now constructor]. destruct o; cbn [cast_bool bind]; try discriminate. intros _. eexists. eapply sc_lead_lag; eauto.
  - destruct (get d "categories") as [o|] eqn:E; [|intros _; eexists; now apply sc_no_categories]. destruct (iterate o) as [l| | |] eqn:I; cbn [bind]; try discriminate.
    intros H. apply categories_inv in H as [r ->]. eexists. exact (sc_categories d o r E (proj2 (names_iff o r) I)).
  - intros _. eexists. constructor.
Qed.
Lemma get_del d k k' : k <> k' -> get (del d k) k' = get d k'.
Proof.
  intros N. induction d as [|[a v] d IH]; cbn [del filter get fst]; auto. fold (del d k). destruct (is_key k a) eqn:E; cbn [negb].
  - rewrite IH. destruct a; cbn [is_key] in *; try discriminate. apply String.eqb_eq in E as ->. destruct (String.eqb_spec k k'); [contradiction|reflexivity].
  - cbn [get]. now rewrite IH.
Qed.
Lemma channel_del t d k c : k <> "lead_lag"%string -> k <> "categories"%string -> says_channel t (del d k) c <-> says_channel t d c.
Proof.
  intros N1 N2. assert (G1 := get_del d k "lead_lag" N1). assert (G2 := get_del d k "categories" N2).
  split; intros H; inversion H; subst; rewrite ?G1, ?G2 in *;
    first [apply sc_increment|apply sc_lie|apply sc_value; congruence|apply sc_lead_lag; congruence|apply sc_no_categories; congruence|eapply sc_categories; eauto; congruence].
Qed.

(** ** Items *)
Lemma seq_item_ok s x o t d c : fits s x -> says_type o t -> says_channel t d c -> handle_seq_item s x [o; PDict d] = Ok (mkSch (chans s ++ [(x, c)]) false (time s)).
Proof. intros Hs Ht Hc. unfold handle_seq_item. cbn [List.length negb Nat.ltb Nat.leb]. apply type_iff in Ht. rewrite Ht. cbn [bind]. now apply item_ok. Qed.
Lemma seq_item_inv s x l s' : handle_seq_item s x l = Ok s' -> exists o t d c, l = [o; PDict d] /\ says_type o t /\ says_channel t d c.
Proof.
  unfold handle_seq_item. destruct l as [|o [|p [|q l]]]; cbn [List.length negb Nat.ltb Nat.leb]; try discriminate.
  - destruct (py_to_channel_type o) as [t| | |] eqn:E; cbn [bind]; try discriminate. destruct p; try discriminate. intros H. apply item_inv in H as [c H].
    exists o, t, d, c. repeat split; auto. now apply type_iff.
  - destruct py_to_channel_type; cbn [bind]; try discriminate. destruct p; discriminate.
Qed.
Lemma dict_item_ok s x o t d c : fits s x -> get d "type" = Some o -> says_type o t -> says_channel t d c -> handle_dict_item s x d = Ok (mkSch (chans s ++ [(x, c)]) false (time s)).
Proof.
  intros Hs Ho Ht Hc. unfold handle_dict_item. rewrite Ho. apply type_iff in Ht. rewrite Ht. cbn [bind]. apply item_ok; auto. apply channel_del; auto; discriminate.
Qed.
Lemma dict_item_inv s x d s' : handle_dict_item s x d = Ok s' -> exists o t c, get d "type" = Some o /\ says_type o t /\ says_channel t d c.
Proof.
  unfold handle_dict_item. destruct get as [o|]; [|discriminate]. destruct (py_to_channel_type o) as [t| | |] eqn:E; cbn [bind]; try discriminate.
  intros H. apply item_inv in H as [c H]. apply channel_del in H; try discriminate. exists o, t, c. repeat split; auto. now apply type_iff.
Qed.

Definition rest_fits (s : schema) (l : list (string * channel)) : Prop :=
  final s = false /\ free_labels (names l) /\ (forall y, In y (names (chans s)) -> y <> ""%string /\ forall x, In x (names l) -> ~ takes y x).
Lemma rest_cons s x c l : rest_fits s ((x, c) :: l) -> fits s x /\ rest_fits (mkSch (chans s ++ [(x, c)]) false (time s)) l.
Proof.
  intros (Hf & (Hx & Hn & Hl) & H). split.
  - repeat split; auto; try (now apply H). intros Q. destruct (H y H0) as [_ Q']. apply (Q' x); auto. now left.
  - split; [reflexivity|]. split; [exact Hl|]. cbn [chans]. unfold names. rewrite map_app. intros y Hy. apply in_app_iff in Hy as [Hy|[<-|[]]].
    + destruct (H y Hy) as [H1 H2]. split; auto. intros z Hz. apply H2. now right.
    + cbn [fst]. auto.
Qed.
Lemma app_cons {A} (a : list A) x l : (a ++ [x]) ++ l = a ++ x :: l.
Proof. now rewrite <- app_assoc. Qed.
Lemma dict_schema_ok : forall d l s, Forall2 says_entry d l -> rest_fits s l -> handle_dict_schema s d = Ok (mkSch (chans s ++ l) false (time s)).
Proof.
  intros d l s H. revert s. induction H as [|e [x c] d l He _ IH]; intros s Hs.
  - cbn [handle_dict_schema]. rewrite app_nil_r. destruct s, Hs as [Hf _]; cbn in *; now subst.
  - apply rest_cons in Hs as [Hx Hr]. inversion He as [label dd o t c0 Ho Ht Hc|label o t dd c0 Ht Hc]; subst; cbn [handle_dict_schema as_seq cast_string bind].
    + rewrite (dict_item_ok s x o t dd c) by auto. cbn [bind]. rewrite IH by auto. cbn [chans time]. now rewrite app_cons.
    + rewrite (seq_item_ok s x o t dd c) by auto. cbn [bind]. rewrite IH by auto. cbn [chans time]. now rewrite app_cons.
Qed.
Lemma seq_schema_ok : forall d l s, Forall2 says_item d l -> rest_fits s l -> handle_seq_schema s d = Ok (mkSch (chans s ++ l) false (time s)).
Proof.
  intros d l s H. revert s. induction H as [|e [x c] d l He _ IH]; intros s Hs.
  - cbn [handle_seq_schema]. rewrite app_nil_r. destruct s, Hs as [Hf _]; cbn in *; now subst.
  - apply rest_cons in Hs as [Hx Hr]. inversion He as [label dd o t c0 Hl Ho Ht Hc|label o t dd c0 Ht Hc]; subst; cbn [handle_seq_schema as_seq].
    + unfold handle_dict_item_no_label. rewrite Hl. cbn [cast_string bind]. rewrite (dict_item_ok s x o t _ c); auto.
      * cbn [bind]. rewrite IH by auto. cbn [chans time]. now rewrite app_cons.
      * now rewrite get_del.
      * apply channel_del; auto; discriminate.
    + unfold handle_seq_item_no_label. cbn [List.length negb Nat.ltb Nat.leb cast_string bind]. rewrite (seq_item_ok s x o t dd c) by auto.
      cbn [bind]. rewrite IH by auto. cbn [chans time]. now rewrite app_cons.
Qed.
Theorem parse_ok data l : says_schema data l -> free_labels (names l) -> parse_schema data = Ok (mkSch l false false).
Proof.
  intros H Hl. assert (Hr : rest_fits empty_schema l) by (split; [reflexivity|]; split; [auto|intros y []]).
  destruct H as [d l H|d l H|]; cbn [parse_schema as_seq letters].
  - now rewrite (dict_schema_ok d l).
  - now rewrite (seq_schema_ok d l).
  - reflexivity.
Qed.
(** Only these forms are accepted. *)
Lemma letters_item_inv s x t s' : handle_seq_item s x (letters t) = Ok s' -> False.
Proof.
  intros H. apply seq_item_inv in H as (o & ty & d & c & E & Ht & _). destruct t as [|a [|b t]]; try discriminate.
Qed.
Lemma dict_schema_inv : forall d s s', handle_dict_schema s d = Ok s' -> exists l, Forall2 says_entry d l.
Proof.
  induction d as [|[a item] d IH]; intros s s'; cbn [handle_dict_schema]; [intros _; exists []; constructor|].
  destruct item as [t|t|b|dd|l|]; cbn [as_seq]; try discriminate.
  - destruct (cast_string a) as [x| | |]; cbn [bind]; try discriminate. destruct handle_seq_item eqn:E; cbn [bind]; try discriminate. now apply letters_item_inv in E.
  - destruct a; cbn [cast_string bind]; try discriminate. destruct handle_dict_item eqn:E; cbn [bind]; try discriminate. intros H. apply IH in H as [l Hl].
    apply dict_item_inv in E as (o & t & c & H1 & H2 & H3). exists ((s0, c) :: l). constructor; auto. econstructor; eauto.
  - destruct a; cbn [cast_string bind]; try discriminate. destruct handle_seq_item eqn:E; cbn [bind]; try discriminate. intros H. apply IH in H as [r Hr].
    apply seq_item_inv in E as (o & t & dd & c & -> & H2 & H3). exists ((s0, c) :: r). constructor; auto. econstructor; eauto.
Qed.
Lemma seq_schema_inv : forall d s s', handle_seq_schema s d = Ok s' -> exists l, Forall2 says_item d l.
Proof.
  induction d as [|item d IH]; intros s s'; cbn [handle_seq_schema]; [intros _; exists []; constructor|].
  destruct item as [t|t|b|dd|l|]; cbn [as_seq]; try discriminate.
  - destruct (handle_seq_item_no_label s (letters t)) eqn:E; cbn [bind]; try discriminate. exfalso. unfold handle_seq_item_no_label in E.
    destruct negb; [discriminate|]. destruct t as [|a0 t]; cbn [letters] in E; [discriminate|]. cbn [cast_string bind] in E. now apply letters_item_inv in E.
  - destruct (handle_dict_item_no_label s dd) eqn:E; cbn [bind]; try discriminate. intros H. apply IH in H as [l Hl]. unfold handle_dict_item_no_label in E.
    destruct (get dd "label") as [[x| | | | |]|] eqn:G; try discriminate. cbn [cast_string bind] in E. apply dict_item_inv in E as (o & t & c & H1 & H2 & H3).
    rewrite get_del in H1 by discriminate. apply channel_del in H3; try discriminate. exists ((x, c) :: l). constructor; auto. econstructor; eauto.
  - destruct (handle_seq_item_no_label s l) eqn:E; cbn [bind]; try discriminate. intros H. apply IH in H as [r Hr]. unfold handle_seq_item_no_label in E.
    destruct negb; [discriminate|]. destruct l as [|[x| | | | |] l]; try discriminate. cbn [cast_string bind] in E.
    apply seq_item_inv in E as (o & t & dd & c & -> & H2 & H3). exists ((x, c) :: r). constructor; auto. econstructor; eauto.
Qed.
Theorem parse_inv data s : parse_schema data = Ok s -> exists l, says_schema data l.
Proof.
  unfold parse_schema. destruct data as [t|t|b|d|l|]; cbn [as_seq]; try discriminate.
  - intros H. apply seq_schema_inv in H as [l Hl]. destruct t as [|a t]; [exists []; constructor|]. cbn [letters] in Hl. inversion Hl as [|? ? ? ? Hi]; subst. inversion Hi.
  - intros H. apply dict_schema_inv in H as [l Hl]. exists l. now constructor.
  - intros H. apply seq_schema_inv in H as [r Hr]. exists r. now constructor.
Qed.
(** What a description says is unique. *)
Lemma type_fun o t t' : says_type o t -> says_type o t' -> t = t'.
Proof. rewrite <- !type_iff. congruence. Qed.
Lemma names_fun o r r' : says_names o r -> says_names o r' -> r = r'.
Proof.
  rewrite !names_iff. intros H1 H2. rewrite H1 in H2. injection H2 as H. clear H1. revert r' H. induction r as [|x r IH]; intros [|y r']; try discriminate; auto. cbn [map]. intros [= -> H]. f_equal. auto.
Qed.
Lemma channel_fun t d c c' : says_channel t d c -> says_channel t d c' -> c = c'.
Proof.
  intros H1 H2. destruct H1; inversion H2; subst; try congruence. replace l0 with l; auto. replace o0 with o in * by congruence. eapply names_fun; eauto.
Qed.
Lemma entry_fun e p p' : says_entry e p -> says_entry e p' -> p = p'.
Proof.
  intros H1 H2. destruct H1; inversion H2; subst; f_equal.
  - replace o0 with o in * by congruence. assert (t0 = t) by (eapply type_fun; eauto). subst. eapply channel_fun; eauto.
  - assert (t0 = t) by (eapply type_fun; eauto). subst. eapply channel_fun; eauto.
Qed.
Lemma item_fun e p p' : says_item e p -> says_item e p' -> p = p'.
Proof.
  intros H1 H2. destruct H1; inversion H2; subst; f_equal.
  - congruence.
  - replace o0 with o in * by congruence. assert (t0 = t) by (eapply type_fun; eauto). subst. eapply channel_fun; eauto.
  - assert (t0 = t) by (eapply type_fun; eauto). subst. eapply channel_fun; eauto.
Qed.
Lemma forall2_fun {A B} (R : A -> B -> Prop) : (forall a b b', R a b -> R a b' -> b = b') -> forall l m m', Forall2 R l m -> Forall2 R l m' -> m = m'.
Proof. intros HR l m m' H. revert m'. induction H; intros m' H'; inversion H'; subst; auto. f_equal; eauto. Qed.
Theorem schema_fun data l l' : says_schema data l -> says_schema data l' -> l = l'.
Proof.
  intros H1 H2. destruct H1; inversion H2; subst; auto; [eapply forall2_fun; [apply entry_fun| |]; eauto|eapply forall2_fun; [apply item_fun| |]; eauto].
Qed.
(** Every description is accepted or refused. *)
Definition plain_out {A} (o : outcome A) : Prop := match o with Ok _ | Throw => True | _ => False end.
Lemma plain_bind {A B} (o : outcome A) (f : A -> outcome B) : plain_out o -> (forall a, plain_out (f a)) -> plain_out (bind o f).
Proof. destruct o; cbn [bind plain_out]; auto. Qed.
Lemma type_plain o : plain_out (py_to_channel_type o).
Proof. destruct o; cbn; auto. unfold string_to_channel_type. repeat (destruct String.eqb; cbn; auto). Qed.
Lemma string_plain o : plain_out (cast_string o).
Proof. now destruct o. Qed.
Lemma insert_plain s x c : plain_out (insert s x c).
Proof. unfold insert, find_mut. destruct (final s); cbn; auto. destruct find; cbn; auto. Qed.
Lemma on_plain s c f : (forall x, plain_out (f x)) -> plain_out (on_channel s c f).
Proof. intros H. unfold on_channel. destruct nth_error; cbn; auto. apply plain_bind; [auto|intros; exact I]. Qed.
Lemma cats_plain : forall l s c, plain_out (insert_categories s c l).
Proof. induction l as [|o l IH]; intros s c; cbn [insert_categories]; [exact I|]. apply plain_bind; [apply string_plain|]. intros a. apply plain_bind; [apply on_plain; intros; exact I|auto]. Qed.
Lemma item_plain s x t d : plain_out (insert_item s x t d).
Proof.
  unfold insert_item. apply plain_bind; [apply insert_plain|]. intros [s' c]. destruct t; cbn; auto.
  - destruct get as [o|]; cbn; auto. apply plain_bind; [now destruct o|]. intros b. apply on_plain. intros; exact I.
  - destruct get as [o|]; cbn; auto. apply plain_bind; [now destruct o|]. intros b. apply cats_plain.
Qed.
Lemma seq_item_plain s x l : plain_out (handle_seq_item s x l).
Proof.
  unfold handle_seq_item. destruct negb; cbn; auto. destruct l as [|o r]; cbn; auto. apply plain_bind; [apply type_plain|]. intros t. destruct r as [|p [|q r]]; [apply item_plain| |].
  - destruct p; cbn; auto. apply item_plain.
  - destruct p; exact I.
Qed.
Lemma dict_item_plain s x d : plain_out (handle_dict_item s x d).
Proof. unfold handle_dict_item. destruct get; cbn; auto. apply plain_bind; [apply type_plain|]. intros. apply item_plain. Qed.
Theorem parse_plain data : plain_out (parse_schema data).
Proof.
  assert (D : forall d s, plain_out (handle_dict_schema s d)).
  { induction d as [|[a i] d IH]; intros s; cbn [handle_dict_schema]; [exact I|]. apply plain_bind; auto.
    destruct i; cbn [as_seq]; try exact I; (apply plain_bind; [apply string_plain|]); intros; try apply seq_item_plain. apply dict_item_plain. }
  assert (Q : forall d s, plain_out (handle_seq_schema s d)).
  { assert (N : forall s l, plain_out (handle_seq_item_no_label s l)).
    { intros s l. unfold handle_seq_item_no_label. destruct negb; cbn; auto. destruct l; cbn; auto. apply plain_bind; [apply string_plain|]. intros; apply seq_item_plain. }
    induction d as [|i d IH]; intros s; cbn [handle_seq_schema]; [exact I|]. apply plain_bind; auto.
    destruct i; cbn [as_seq]; try exact I; auto. unfold handle_dict_item_no_label. destruct get; cbn; auto. apply plain_bind; [apply string_plain|]. intros; apply dict_item_plain. }
  unfold parse_schema. destruct data; cbn [as_seq]; auto; exact I.
Qed.
(** Categories without empty names *)
Lemma named_first : forall l vs, ~ In ""%string l -> named vs l = vs ++ filter (fun x => if in_dec string_dec x vs then false else true) (first_of_each l).
Proof.
  assert (FR : forall (p : string -> bool) x D, p x = false -> filter p (remove string_dec x D) = filter p D).
  { intros p x D Hp. induction D as [|y D IH]; cbn [remove filter]; auto. destruct (string_dec x y) as [<-|]; [now rewrite Hp|]. cbn [filter]. now rewrite IH. }
  assert (FS : forall vs x D, filter (fun z => if in_dec string_dec z (vs ++ [x]) then false else true) D = filter (fun z => if in_dec string_dec z vs then false else true) (remove string_dec x D)).
  { intros vs x D. induction D as [|y D IH]; cbn [remove filter]; auto. destruct (string_dec x y) as [<-|N].
    - destruct (in_dec string_dec x (vs ++ [x])) as [_|Q]; [auto|]. exfalso. apply Q, in_app_iff. right. now left.
    - cbn [filter]. destruct (in_dec string_dec y (vs ++ [x])) as [Q|Q], (in_dec string_dec y vs) as [P|P]; auto.
      + apply in_app_iff in Q as [Q|[Q|[]]]; contradiction.
      + exfalso. apply Q, in_app_iff. now left.
      + now rewrite IH. }
  induction l as [|x l IH]; intros vs H; cbn [named first_of_each filter]; [now rewrite app_nil_r|].
  destruct (string_dec x "") as [->|_]; [exfalso; apply H; now left|]. assert (H' : ~ In ""%string l) by (intros Q; apply H; now right).
  destruct (in_dec string_dec x vs) as [I|I].
  - rewrite IH, FR; auto. destruct (in_dec string_dec x vs); auto. contradiction.
  - rewrite IH by auto. rewrite FS. now rewrite app_cons.
Qed.
Theorem named_distinct l : ~ In ""%string l -> named [] l = first_of_each l.
Proof. intros H. rewrite named_first by auto. cbn [app]. clear H. induction (first_of_each l) as [|x r IH]; cbn [filter]; auto. destruct (in_dec string_dec x []) as [[]|]. now rewrite IH. Qed.
