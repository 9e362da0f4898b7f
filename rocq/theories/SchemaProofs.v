(** Proofs about schemas: layout, labels, finalisation. *)
From Coq Require Import ZArith List Bool Ascii String DecimalString DecimalNat DecimalFacts Lia.
Import ListNotations.
From Verif Require Import Outcome SchemaModel.
Open Scope nat_scope.

(** ** Layout *)
(** the channel and variant of every coordinate, in order *)
Fixpoint addresses_from (l : list (string * channel)) (c : nat) : list (nat * nat) :=
  match l with [] => [] | x :: l => map (fun v => (c, v)) (seq 0 (num_variants (snd x))) ++ addresses_from l (S c) end.
Definition addresses (s : schema) : list (nat * nat) := addresses_from (chans s) 0.

Definition wsum (l : list (string * channel)) : nat := list_sum (map (fun x => num_variants (snd x)) l).
Lemma fold_w : forall l a, fold_left (fun a c => a + num_variants (snd c)) l a = a + wsum l.
Proof. induction l as [|x l IH]; intros a; unfold wsum in *; simpl; [lia|]. rewrite IH. lia. Qed.
Lemma width_to_sum s n : width_to s n = wsum (firstn n (chans s)).
Proof. unfold width_to. now rewrite fold_w. Qed.
Lemma wsum_app a b : wsum (a ++ b) = wsum a + wsum b.
Proof. unfold wsum. now rewrite map_app, list_sum_app. Qed.
Lemma addresses_len : forall l c, List.length (addresses_from l c) = wsum l.
Proof. induction l as [|x l IH]; intros c; unfold wsum in *; simpl; auto. now rewrite app_length, map_length, seq_length, IH. Qed.
Lemma wop s : width_without_param s = List.length (addresses s).
Proof. unfold width_without_param, addresses, size. now rewrite width_to_sum, firstn_all, addresses_len. Qed.

Lemma dim_go : forall l i d, stream_dim_go l i d = match nth_error (addresses_from l i) d with Some p => Ok p | None => Throw end.
Proof.
  induction l as [|x l IH]; intros i d; simpl; [now destruct d|].
  destruct (Nat.ltb_spec d (num_variants (snd x))) as [H|H].
  - rewrite nth_error_app1 by now rewrite map_length, seq_length.
    rewrite (map_nth_error _ d (seq 0 (num_variants (snd x))) (d:=d)); auto.
    rewrite (nth_error_nth' _ 0) by now rewrite seq_length. now rewrite seq_nth.
  - rewrite nth_error_app2 by now rewrite map_length, seq_length.
    now rewrite map_length, seq_length, IH.
Qed.
Lemma addr_at : forall l i c v d, nth_error (addresses_from l i) d = Some (c, v) <->
  exists x, i <= c /\ nth_error l (c - i) = Some x /\ v < num_variants (snd x) /\ d = wsum (firstn (c - i) l) + v.
Proof.
  induction l as [|x l IH]; intros i c v d; simpl.
  { split; [now destruct d|]. intros (x & _ & H & _). now destruct (c - i). }
  destruct (Nat.ltb_spec d (num_variants (snd x))) as [H|H].
  - rewrite nth_error_app1 by now rewrite map_length, seq_length.
    rewrite (map_nth_error _ d (seq 0 (num_variants (snd x))) (d:=d))
      by (rewrite (nth_error_nth' _ 0) by (now rewrite seq_length); now rewrite seq_nth).
    split.
    + intros E. injection E as <- <-. exists x. rewrite Nat.sub_diag. simpl. unfold wsum. simpl. repeat split; auto.
    + intros (y & Hi & Hn & Hv & Hd). destruct (c - i) as [|k] eqn:E.
      * simpl in *. injection Hn as <-. assert (c = i) as -> by lia. unfold wsum in Hd. simpl in Hd. now rewrite Hd.
      * exfalso. simpl in Hd. unfold wsum in Hd. simpl in Hd. lia.
  - rewrite nth_error_app2 by now rewrite map_length, seq_length.
    rewrite map_length, seq_length, IH. split.
    + intros (y & Hi & Hn & Hv & Hd). exists y. replace (c - i) with (S (c - S i)) by lia. simpl. unfold wsum in *. simpl.
      repeat split; auto; lia.
    + intros (y & Hi & Hn & Hv & Hd). exists y. destruct (c - i) as [|k] eqn:E.
      * exfalso. simpl in *. injection Hn as <-. unfold wsum in Hd. simpl in Hd. lia.
      * replace (c - S i) with k by lia. simpl in *. unfold wsum in *. simpl in Hd. repeat split; auto; lia.
Qed.

Theorem layout s c v d :
  stream_dim_to_channel s d = Ok (c, v) <-> nth_error (addresses s) d = Some (c, v).
Proof. unfold stream_dim_to_channel, addresses. rewrite dim_go. destruct nth_error; split; congruence. Qed.
Theorem layout_inv s c v d :
  channel_variant_to_stream_dim s c v = Ok d <-> nth_error (addresses s) d = Some (c, v).
Proof.
  unfold addresses. rewrite addr_at. unfold channel_variant_to_stream_dim. rewrite Nat.sub_0_r, width_to_sum. split.
  - destruct (nth_error (chans s) c) as [x|] eqn:E; [|discriminate].
    destruct (Nat.ltb_spec v (num_variants (snd x))); [|discriminate]. intros [= <-]. exists x. repeat split; auto; lia.
  - intros (x & _ & -> & Hv & ->). apply Nat.ltb_lt in Hv. now rewrite Hv.
Qed.
Theorem layout_total s d :
  (d < width_without_param s -> exists c v, stream_dim_to_channel s d = Ok (c, v)) /\
  (width_without_param s <= d -> stream_dim_to_channel s d = Throw).
Proof.
  rewrite wop. unfold stream_dim_to_channel, addresses. rewrite dim_go. split; intros H.
  - apply nth_error_Some in H. destruct nth_error as [[c v]|]; [|congruence]. now exists c, v.
  - apply nth_error_None in H. now rewrite H.
Qed.
Theorem layout_throw s c v : 
  (forall x, nth_error (chans s) c = Some x -> num_variants (snd x) <= v) -> channel_variant_to_stream_dim s c v = Throw.
Proof.
  intros H. unfold channel_variant_to_stream_dim. destruct nth_error as [x|]; auto. specialize (H x eq_refl).
  apply Nat.ltb_ge in H. now rewrite H.
Qed.
Theorem inverse s c v d :
  stream_dim_to_channel s d = Ok (c, v) <-> channel_variant_to_stream_dim s c v = Ok d.
Proof. now rewrite layout, layout_inv. Qed.

(** ** Labels *)
Fixpoint chars (t : string) : list ascii := match t with EmptyString => [] | String a t => a :: chars t end.
Definition clean (t : string) : Prop := ~ In ":"%char (chars t) /\ ~ In Ascii.zero (chars t).

Lemma go_app : forall a b, compare_go a (a ++ b) = match b with EmptyString => true | String c _ => Ascii.eqb c NUL || Ascii.eqb c colon end.
Proof. induction a as [|x a IH]; intros b; simpl; [now destruct b|]. now rewrite Ascii.eqb_refl, IH. Qed.
Lemma clean_tail a t : clean (String a t) -> a <> colon /\ a <> NUL /\ clean t.
Proof. intros [H1 H2]. simpl in *. repeat split; tauto. Qed.
(** a clean name matches a clean label followed by nothing or by a colon exactly when they are the same *)
Definition sep_tail (b : string) : Prop := match b with EmptyString => True | String c _ => c = colon end.
Lemma go_clean : forall a t b, clean a -> clean t -> sep_tail b -> compare_go a (t ++ b) = true -> a = t.
Proof.
  induction a as [|x a IH]; intros t b Ha Ht Hb H; destruct t as [|y t]; simpl in *; auto.
  - apply clean_tail in Ht as (h1 & h2 & _). exfalso. apply orb_true_iff in H as [H|H]; apply Ascii.eqb_eq in H; congruence.
  - apply clean_tail in Ha as (h1 & h2 & Ha). destruct b as [|c b]; [discriminate|]. simpl in Hb. subst c.
    destruct (Ascii.eqb_spec colon x); congruence.
  - apply clean_tail in Ha as (_ & _ & Ha). apply clean_tail in Ht as (_ & _ & Ht).
    destruct (Ascii.eqb_spec y x) as [->|]; [|discriminate]. f_equal. eauto.
Qed.
Lemma slen_app : forall a b, String.length (a ++ b) = String.length a + String.length b.
Proof. induction a; intros; simpl; auto. Qed.
Lemma cmp_self a b : a <> ""%string -> sep_tail b -> compare_labels a (a ++ b) = true.
Proof.
  intros Ha Hb. unfold compare_labels. rewrite slen_app.
  replace (String.length a + String.length b <? String.length a) with false by (symmetry; apply Nat.ltb_ge; lia).
  destruct (String.eqb_spec (a ++ b) ""); [destruct a; [congruence|discriminate]|].
  destruct (String.eqb_spec a ""); [congruence|]. rewrite go_app. destruct b; auto. simpl in Hb. subst. now rewrite Ascii.eqb_refl, orb_true_r.
Qed.
Lemma cmp_clean a t b : clean a -> clean t -> sep_tail b -> compare_labels a (t ++ b) = true -> a = t.
Proof.
  unfold compare_labels. intros Ha Ht Hb. destruct (_ <? _)%nat; [discriminate|]. destruct String.eqb; [discriminate|].
  destruct (String.eqb a ""); [discriminate|]. now apply go_clean.
Qed.
Lemma sapp_nil : forall a, (a ++ "")%string = a.
Proof. induction a; simpl; congruence. Qed.
Lemma sdrop_app : forall a b, sdrop (String.length a) (a ++ b) = b.
Proof. induction a; simpl; auto. Qed.

Definition names (l : list (string * channel)) : list string := map fst l.
Definition good (s : schema) : Prop :=
  NoDup (names (chans s)) /\ (forall x, In x (names (chans s)) -> clean x /\ x <> ""%string) /\
  (forall n vs, In (n, Categorical vs) (chans s) -> NoDup vs).

Lemma find_go_at : forall l i c x b,
  (forall y, In y (names l) -> clean y) -> NoDup (names l) ->
  nth_error l c = Some x -> fst x <> ""%string -> sep_tail b ->
  find_go l i (fst x ++ b) = Some (i + c).
Proof.
  induction l as [|y l IH]; intros i c x b Hc Hd Hn Hx Hb; [now destruct c|].
  simpl. inversion Hd as [|? ? Hin Hd']; subst. destruct c as [|c]; simpl in Hn.
  - injection Hn as ->. rewrite cmp_self by auto. f_equal. lia.
  - assert (Inx : In (fst x) (names l)). { apply in_map. eapply nth_error_In; eauto. }
    destruct compare_labels eqn:E.
    + exfalso. apply cmp_clean in E; auto; [|apply Hc; simpl; auto|apply Hc; simpl; auto]. congruence.
    + rewrite (IH (S i) c x b); auto; [f_equal; lia|]. intros z Hz. apply Hc. simpl. auto.
Qed.
Lemma find_at s c x b : good s -> nth_error (chans s) c = Some x -> sep_tail b -> find s (fst x ++ b) = Some c.
Proof.
  intros (Hd & Hc & _) Hn Hb. unfold find. apply (find_go_at (chans s) 0 c x b); auto.
  - intros y Hy. now apply Hc.
  - apply Hc. apply in_map. eapply nth_error_In; eauto.
Qed.
Lemma index_of_nth : forall l v x, NoDup l -> nth_error l v = Some x -> index_of x l = Some v.
Proof.
  induction l as [|y l IH]; intros v x Hd Hn; [now destruct v|]. inversion Hd as [|? ? Hin Hd']; subst. simpl.
  destruct v as [|v]; simpl in Hn. { injection Hn as ->. now rewrite String.eqb_refl. }
  destruct (String.eqb_spec x y) as [->|]. { exfalso. apply Hin. eapply nth_error_In; eauto. } now rewrite (IH v x).
Qed.
Lemma index_of_none : forall l x, index_of x l = None <-> ~ In x l.
Proof.
  induction l as [|y l IH]; intros x; simpl; [tauto|]. destruct (String.eqb_spec x y) as [->|H].
  - split; [discriminate|]. tauto.
  - specialize (IH x). destruct (index_of x l); split; try discriminate; intuition congruence.
Qed.
Lemma index_of_some : forall l v x, index_of x l = Some v -> nth_error l v = Some x.
Proof.
  induction l as [|y l IH]; intros v x; simpl; [discriminate|]. destruct (String.eqb_spec x y) as [->|H]; [now intros [= <-]|].
  destruct (index_of x l) eqn:E; [|discriminate]. intros [= <-]. simpl. now apply IH.
Qed.

(** the label of a channel and variant, in words *)
Definition variant_name (c : channel) (v : nat) : option string :=
  match c with
  | Increment ll | Value ll => if ll then nth_error ["lead"%string; "lag"%string] v else if v =? 0 then Some ""%string else None
  | Categorical vs => nth_error vs v
  | LieCh => if v =? 0 then Some ""%string else None
  end.
Definition has_variants (c : channel) : bool := match c with Increment ll | Value ll => ll | Categorical _ => true | LieCh => false end.
Definition full_label (n : string) (c : channel) (v : string) : string := if has_variants c then (n ++ ":" ++ v)%string else n.

Lemma variant_exists c v : v < num_variants c <-> exists x, variant_name c v = Some x.
Proof.
  destruct c as [[]|[]|vs|]; simpl.
  - destruct v as [|[|[|v]]]; simpl; split; try lia; eauto; intros [x H]; discriminate.
  - destruct v as [|v]; simpl; split; try lia; eauto; intros [x H]; discriminate.
  - destruct v as [|[|[|v]]]; simpl; split; try lia; eauto; intros [x H]; discriminate.
  - destruct v as [|v]; simpl; split; try lia; eauto; intros [x H]; discriminate.
  - split; [intros H; destruct (nth_error vs v) eqn:E; eauto; apply nth_error_None in E; lia|].
    intros [x H]. apply nth_error_Some. congruence.
  - destruct v as [|v]; simpl; split; try lia; eauto; intros [x H]; discriminate.
Qed.
Lemma suffix_ok c v x : variant_name c v = Some x -> label_suffix c v = Ok (if has_variants c then (":" ++ x)%string else ""%string).
Proof.
  destruct c as [[]|[]|vs|]; simpl; auto.
  - destruct v as [|[|[|v]]]; simpl; intros H; try discriminate; now injection H as <-.
  - destruct v as [|[|[|v]]]; simpl; intros H; try discriminate; now injection H as <-.
  - now intros ->.
Qed.
Lemma vid_ok c v x : (forall vs, c = Categorical vs -> NoDup vs) -> has_variants c = true -> variant_name c v = Some x -> variant_id_of_label c x = Ok v.
Proof.
  intros Hn Hh. destruct c as [[]|[]|vs|]; simpl in *; try discriminate; intros H.
  - destruct v as [|[|[|v]]]; simpl in H; try discriminate; now injection H as <-.
  - destruct v as [|[|[|v]]]; simpl in H; try discriminate; now injection H as <-.
  - now rewrite (index_of_nth vs v x) by auto.
Qed.
Lemma no_variants_0 c v x : has_variants c = false -> variant_name c v = Some x -> v = 0.
Proof. destruct c as [[]|[]|vs|]; simpl; try discriminate; intros _; destruct v; auto; discriminate. Qed.

Theorem label_of s d c v n k x : 
  nth_error (addresses s) d = Some (c, v) -> nth_error (chans s) c = Some (n, k) -> variant_name k v = Some x ->
  label_of_stream_dim s d = Ok (full_label n k x) /\ label_of_channel_variant s c v = Ok (full_label n k x).
Proof.
  intros Ha Hc Hx. apply layout in Ha. unfold stream_dim_to_channel in Ha. unfold label_of_stream_dim. rewrite Ha. simpl.
  unfold label_of_channel_variant. rewrite Hc. simpl. rewrite (suffix_ok k v x Hx). unfold full_label. simpl.
  destruct (has_variants k); rewrite ?sapp_nil; auto.
Qed.
Theorem label_total s d : d < width_without_param s -> exists c v n k x,
  nth_error (addresses s) d = Some (c, v) /\ nth_error (chans s) c = Some (n, k) /\ variant_name k v = Some x.
Proof.
  rewrite wop. intros H. destruct (nth_error (addresses s) d) as [[c v]|] eqn:E; [|apply nth_error_None in E; lia].
  pose proof E as E'. unfold addresses in E'. apply addr_at in E' as (x & _ & Hn & Hv & _). rewrite Nat.sub_0_r in Hn.
  destruct x as [n k]. apply variant_exists in Hv as [y Hy]. exists c, v, n, k, y. auto.
Qed.
Theorem to_dim s d c v n k x : good s ->
  nth_error (addresses s) d = Some (c, v) -> nth_error (chans s) c = Some (n, k) -> variant_name k v = Some x ->
  label_to_stream_dim s (full_label n k x) = Ok d.
Proof.
  intros G Ha Hc Hx. pose proof Ha as Ha'. unfold addresses in Ha'. apply addr_at in Ha' as (y & _ & Hn & Hv & Hd).
  rewrite Nat.sub_0_r in *. rewrite Hc in Hn. injection Hn as <-. rewrite <- width_to_sum in Hd.
  unfold label_to_stream_dim, full_label. destruct (has_variants k) eqn:E.
  - pose proof (find_at s c (n, k) (":" ++ x) G Hc eq_refl) as F. change (fst (n, k)) with n in F. rewrite F, Hc. simpl fst. rewrite sdrop_app. simpl.
    rewrite (vid_ok k v x); auto; [simpl; now rewrite Hd|]. intros vs ->. apply (proj2 (proj2 G) n). eapply nth_error_In; eauto.
  - assert (F : find s n = Some c). { rewrite <- (sapp_nil n). apply (find_at s c (n, k) ""); simpl; auto. }
    rewrite F, Hc. simpl fst. rewrite <- (sapp_nil n) at 2. rewrite sdrop_app. apply no_variants_0 in Hx; auto. subst v. f_equal. lia.
Qed.
Theorem round_trip s d l : good s -> d < width_without_param s -> label_of_stream_dim s d = Ok l -> label_to_stream_dim s l = Ok d.
Proof.
  intros G H E. destruct (label_total s d H) as (c & v & n & k & x & Ha & Hc & Hx).
  destruct (label_of s d c v n k x Ha Hc Hx) as [E' _]. rewrite E' in E. injection E as <-. eapply to_dim; eauto.
Qed.
(** the bare name of a channel gives its first coordinate *)
Theorem name_dim s c n k : good s -> nth_error (chans s) c = Some (n, k) -> label_to_stream_dim s n = Ok (width_to s c).
Proof.
  intros G Hc. unfold label_to_stream_dim.
  assert (F : find s n = Some c). { rewrite <- (sapp_nil n). apply (find_at s c (n, k) ""); simpl; auto. }
  rewrite F, Hc. simpl fst. rewrite <- (sapp_nil n) at 2. now rewrite sdrop_app.
Qed.
(** a clean label that is no channel name is refused *)
Lemma find_go_none : forall l i t b, (forall y, In y (names l) -> clean y) -> clean t -> sep_tail b -> ~ In t (names l) -> find_go l i (t ++ b) = None.
Proof.
  induction l as [|x l IH]; intros i t b Hc Ht Hb Hn; simpl; auto. destruct compare_labels eqn:E.
  - apply cmp_clean in E; auto; [|apply Hc; simpl; auto]. exfalso. apply Hn. simpl. auto.
  - apply IH; auto; [intros; apply Hc; simpl; auto|]. intros H. apply Hn. simpl. auto.
Qed.
Theorem unknown_label s t b : good s -> clean t -> sep_tail b -> ~ In t (names (chans s)) -> label_to_stream_dim s (t ++ b) = Throw.
Proof. intros (_ & Hc & _) Ht Hb Hn. unfold label_to_stream_dim, find. rewrite find_go_none; auto. intros y Hy. now apply Hc. Qed.

(** ** std::to_string *)
Lemma to_uint_ne n : Nat.to_uint n <> Decimal.Nil.
Proof. rewrite <- (Unsigned.of_to n), Unsigned.to_of. apply DecimalFacts.unorm_nonnil. Qed.
Lemma to_string_inj a b : to_string a = to_string b -> a = b.
Proof.
  unfold to_string. intros H. assert (E : NilZero.uint_of_string (NilZero.string_of_uint (Nat.to_uint a)) = NilZero.uint_of_string (NilZero.string_of_uint (Nat.to_uint b))) by now rewrite H.
  rewrite !NilZero.usu in E by apply to_uint_ne. injection E as E.
  apply (f_equal Nat.of_uint) in E. now rewrite !Unsigned.of_to in E.
Qed.
Lemma digits : forall u, clean (NilEmpty.string_of_uint u).
Proof. induction u; simpl; [split; simpl; auto|..]; destruct IHu as [A B]; split; simpl; intros [H|H]; try discriminate; auto. Qed.
Lemma nz u : u <> Decimal.Nil -> NilZero.string_of_uint u = NilEmpty.string_of_uint u.
Proof. destruct u; simpl; congruence. Qed.
Lemma to_string_clean n : clean (to_string n).
Proof. unfold to_string. rewrite nz by apply to_uint_ne. apply digits. Qed.
Lemma to_string_ne n : to_string n <> ""%string.
Proof.
  unfold to_string. rewrite nz by apply to_uint_ne. pose proof (to_uint_ne n) as H.
  destruct (Nat.to_uint n); simpl; congruence.
Qed.
Lemma to_string_match a n : compare_labels a (to_string n) = true <-> a = to_string n.
Proof.
  split.
  - unfold compare_labels. destruct (_ <? _)%nat; [discriminate|]. destruct String.eqb; [discriminate|]. destruct (String.eqb a ""); [discriminate|].
    pose proof (to_string_clean n) as H. revert H. generalize (to_string n). induction a as [|x a IH]; intros t Ht H; destruct t as [|y t]; simpl in *; auto; try discriminate.
    + apply clean_tail in Ht as (h1 & h2 & _). exfalso. apply orb_true_iff in H as [H|H]; apply Ascii.eqb_eq in H; congruence.
    + apply clean_tail in Ht as (_ & _ & Ht). destruct (Ascii.eqb_spec y x) as [->|]; [|discriminate]. f_equal. auto.
  - intros ->. rewrite <- (sapp_nil (to_string n)) at 2. apply cmp_self; simpl; auto. apply to_string_ne.
Qed.
Lemma find_number : forall l i n, find_go l i (to_string n) = None <-> ~ In (to_string n) (names l).
Proof.
  induction l as [|x l IH]; intros i n; simpl; [tauto|]. destruct compare_labels eqn:E.
  - apply to_string_match in E. split; [discriminate|tauto].
  - rewrite IH. split; [|tauto]. intros H [H1|H1]; auto. apply to_string_match in H1. congruence.
Qed.

(** ** Insertion and finalisation *)
Open Scope list_scope.
Definition auto (n : nat) : string * channel := (to_string n, Increment false).
Lemma insert_auto s : final s = false ->
  (~ In (to_string (size s)) (names (chans s)) -> insert s "" (Increment false) = Ok (mkSch (chans s ++ [auto (size s)]) false (time s), size s)) /\
  (In (to_string (size s)) (names (chans s)) -> exists i, insert s "" (Increment false) = Ok (s, i)).
Proof.
  intros Hf. unfold insert, find_mut. rewrite Hf. simpl. split; intros H.
  - assert (E : find s (to_string (size s)) = None) by now apply find_number. now rewrite E.
  - destruct (find s (to_string (size s))) as [i|] eqn:E; [eauto|]. apply find_number in E. contradiction.
Qed.
Lemma names_app a b : names (a ++ b) = names a ++ names b.
Proof. unfold names. now rewrite map_app. Qed.
Lemma inserts_stuck : forall k i s, final s = false -> In (to_string (size s)) (names (chans s)) -> inserts k (fun _ => ""%string) i s = Ok s.
Proof. induction k as [|k IH]; intros i s Hf H; simpl; auto. destruct (proj2 (insert_auto s Hf) H) as [j ->]. simpl. now apply IH. Qed.
Lemma inserts_auto : forall k i s, final s = false -> exists m, m <= k /\
  inserts k (fun _ => ""%string) i s = Ok (mkSch (chans s ++ map auto (seq (size s) m)) false (time s)) /\
  (forall j, j < m -> ~ In (to_string (size s + j)) (names (chans s))) /\
  (m < k -> In (to_string (size s + m)) (names (chans s))).
Proof.
  induction k as [|k IH]; intros i s Hf.
  - exists 0. simpl. rewrite app_nil_r. repeat split; auto; try lia. destruct s; simpl in *; now subst.
  - destruct (in_dec string_dec (to_string (size s)) (names (chans s))) as [H|H].
    + exists 0. rewrite inserts_stuck by auto. simpl. rewrite app_nil_r, Nat.add_0_r. repeat split; auto; try lia. destruct s; simpl in *; now subst.
    + simpl inserts. rewrite (proj1 (insert_auto s Hf) H). simpl.
      destruct (IH (S i) (mkSch (chans s ++ [auto (size s)]) false (time s)) eq_refl) as (m & Hm & E & Hn & Hs).
      assert (Z : size (mkSch (chans s ++ [auto (size s)]) false (time s)) = S (size s)).
      { unfold size. simpl. rewrite app_length. simpl. lia. }
      rewrite Z in *. simpl chans in *. simpl time in *. exists (S m). split; [lia|]. split; [|split].
      * rewrite E. f_equal. f_equal. simpl. rewrite <- app_assoc. reflexivity.
      * intros [|j] Hj; [now rewrite Nat.add_0_r|]. specialize (Hn j ltac:(lia)). rewrite names_app, in_app_iff in Hn.
        replace (size s + S j) with (S (size s) + j) by lia. tauto.
      * intros Hk. specialize (Hs ltac:(lia)). rewrite names_app, in_app_iff in Hs.
        replace (size s + S m) with (S (size s) + m) by lia. destruct Hs as [Hs|Hs]; auto.
        exfalso. simpl in Hs. destruct Hs as [Hs|[]]. apply to_string_inj in Hs. lia.
Qed.
Lemma inserts_final : forall k l i s, final s = true -> 0 < k -> inserts k l i s = Throw.
Proof. intros [|k] l i s Hf H; [lia|]. simpl. unfold insert. now rewrite Hf. Qed.

Theorem finalize_spec s n :
  (((0 < n < Z.of_nat (width s))%Z \/ (final s = true /\ Z.of_nat (width s) < n)%Z) -> finalize s n = Throw) /\
  (((n <= 0 \/ Z.of_nat (width s) <= n)%Z /\ (final s = false \/ (n <= Z.of_nat (width s))%Z)) -> exists m,
     m <= Z.to_nat n - width s /\ finalize s n = Ok (mkSch (chans s ++ map auto (seq (size s) m)) true (time s)) /\
     (forall j, j < m -> ~ In (to_string (size s + j)) (names (chans s))) /\
     (m < Z.to_nat n - width s -> In (to_string (size s + m)) (names (chans s)))).
Proof.
  unfold finalize. split.
  - intros [H|[Hf H]].
    + replace (_ && _) with true by (symmetry; apply andb_true_iff; split; apply Z.ltb_lt; lia). reflexivity.
    + destruct (_ && _); auto. rewrite inserts_final; auto. lia.
  - intros [Hn Hf]. replace (_ && _) with false by (symmetry; apply andb_false_iff; rewrite !Z.ltb_ge; lia).
    destruct (final s) eqn:F.
    + destruct Hf as [|Hf]; [discriminate|]. replace (Z.to_nat n - width s) with 0 by lia. exists 0. simpl. rewrite app_nil_r.
      repeat split; auto; lia.
    + destruct (inserts_auto (Z.to_nat n - width s) 0 s F) as (m & Hm & E & H1 & H2). exists m. rewrite E. auto.
Qed.
Lemma auto_width k m : wsum (map auto (seq k m)) = m.
Proof. revert k. induction m as [|m IH]; intros k; unfold wsum in *; simpl; auto. Qed.
Theorem final_width s m f : width (mkSch (chans s ++ map auto (seq (size s) m)) f (time s)) = width s + m.
Proof.
  unfold width, width_without_param, size. rewrite !width_to_sum. simpl. rewrite !firstn_all, wsum_app, auto_width. lia.
Qed.

Lemma inserts_num : forall k i s, final s = false -> (forall j, i <= j -> ~ In (to_string j) (names (chans s))) ->
  inserts k to_string i s = Ok (mkSch (chans s ++ map auto (seq i k)) false (time s)).
Proof.
  induction k as [|k IH]; intros i s Hf H; simpl.
  - rewrite app_nil_r. destruct s; simpl in *; now subst.
  - unfold insert at 1, find_mut. rewrite Hf. destruct (String.eqb_spec (to_string i) "") as [E|_]; [now apply to_string_ne in E|]. simpl.
    assert (E : find s (to_string i) = None) by (apply find_number; apply H; lia). rewrite E. simpl. rewrite IH; auto.
    + simpl. f_equal. f_equal. rewrite <- app_assoc. reflexivity.
    + simpl. intros j Hj. rewrite names_app, in_app_iff. simpl. intros [Q|[Q|[]]]; [apply (H j); auto; lia|]. apply to_string_inj in Q. lia.
Qed.
Theorem of_width w : schema_of_width w = Ok (mkSch (map auto (seq 0 w)) false false).
Proof. unfold schema_of_width. rewrite inserts_num; auto. Qed.

(** ** Histories with clean labels *)
Inductive reached : schema -> Prop :=
| r_empty : reached empty_schema
| r_width w s : schema_of_width w = Ok s -> reached s
| r_step s o s' : reached s -> match o with OInsert l _ => clean l | _ => True end -> s_step o s = Ok s' -> reached s'.

Lemma upd_names : forall l c (x : string * channel) y, nth_error l c = Some x -> names (upd l c (fst x, y)) = names l.
Proof. induction l as [|z l IH]; intros [|c] x y H; simpl in *; try discriminate; [injection H as ->; auto|]. f_equal. now apply IH. Qed.
Lemma upd_in {A} : forall (l : list A) c y z, In z (upd l c y) -> z = y \/ In z l.
Proof. induction l as [|x l IH]; intros [|c] y z H; simpl in *; auto; destruct H as [H|H]; auto. apply IH in H. tauto. Qed.
Lemma on_channel_good s c f s' : good s ->
  (forall k k', f k = Ok k' -> (forall vs, k = Categorical vs -> NoDup vs) -> forall vs, k' = Categorical vs -> NoDup vs) ->
  on_channel s c f = Ok s' -> good s'.
Proof.
  intros (A & B & C) Hf. unfold on_channel. destruct (nth_error (chans s) c) as [[n k]|] eqn:E; [|discriminate]. simpl.
  destruct (f k) as [k'| | |] eqn:F; try discriminate. simpl. intros [= <-]. unfold good. simpl.
  change (upd (chans s) c (n, k')) with (upd (chans s) c (fst (n, k), k')). rewrite upd_names by auto. split; auto. split; auto.
  intros m vs H. apply upd_in in H as [H|H]; [|now apply (C m)]. simpl in H. injection H as -> Hk. subst k'.
  eapply Hf; eauto. intros vs0 ->. apply (C n). eapply nth_error_In; eauto.
Qed.
Lemma nodup_snoc {A} (l : list A) x : NoDup l -> ~ In x l -> NoDup (l ++ [x]).
Proof.
  intros H Hx. induction l as [|y l IH]; simpl; [constructor; auto; constructor|]. inversion H; subst. constructor.
  - rewrite in_app_iff. simpl. intros [?|[?|[]]]; auto. subst. apply Hx. simpl. auto.
  - apply IH; auto. intros ?. apply Hx. simpl. auto.
Qed.
Lemma add_good k v k' : add_variant k v = Ok k' -> (forall vs, k = Categorical vs -> NoDup vs) -> forall vs, k' = Categorical vs -> NoDup vs.
Proof.
  destruct k; simpl; intros H; try (injection H as <-; discriminate). destruct index_of eqn:E; [discriminate|]. injection H as <-.
  intros Hn vs [= <-]. apply nodup_snoc; auto. now apply index_of_none.
Qed.
Lemma ins_good k v : (forall vs, k = Categorical vs -> NoDup vs) -> forall vs, insert_variant k v = Categorical vs -> NoDup vs.
Proof.
  destruct k; simpl; intros Hn vs H; try discriminate. destruct index_of eqn:E; [injection H as <-; auto|]. injection H as <-.
  apply nodup_snoc; auto. now apply index_of_none.
Qed.
Lemma good_app s l : good s -> (forall x, In x (names l) -> clean x /\ x <> ""%string) -> NoDup (names l) ->
  (forall x, In x (names l) -> ~ In x (names (chans s))) -> (forall n vs, In (n, Categorical vs) l -> NoDup vs) ->
  forall f t, good (mkSch (chans s ++ l) f t).
Proof.
  intros (A & B & C) Hl Hn Hd Hv f t. unfold good. simpl. rewrite names_app. split; [|split].
  - clear B C Hl Hv. induction (names (chans s)) as [|x ns IH]; simpl; auto. inversion A; subst. constructor.
    + rewrite in_app_iff. intros [?|?]; auto. eapply Hd; eauto. simpl. auto.
    + apply IH; auto. intros y Hy ?. eapply Hd; eauto. simpl. auto.
  - intros x. rewrite in_app_iff. intros [?|?]; auto.
  - intros n vs. rewrite in_app_iff. intros [?|?]; [now apply (C n)|now apply (Hv n)].
Qed.
Lemma auto_names k m : names (map auto (seq k m)) = map to_string (seq k m).
Proof. unfold names. now rewrite map_map. Qed.
Lemma auto_good s m f t : good s -> (forall j, j < m -> ~ In (to_string (size s + j)) (names (chans s))) ->
  good (mkSch (chans s ++ map auto (seq (size s) m)) f t).
Proof.
  intros G H. apply good_app; auto; rewrite ?auto_names.
  - intros x Hx. apply in_map_iff in Hx as (y & <- & _). split; [apply to_string_clean|apply to_string_ne].
  - apply FinFun.Injective_map_NoDup; [intros a b; apply to_string_inj|apply seq_NoDup].
  - intros x Hx. apply in_map_iff in Hx as (y & <- & Hy). apply in_seq in Hy. replace y with (size s + (y - size s)) by lia. apply H. lia.
  - intros n vs Hx. apply in_map_iff in Hx as (y & E & _). unfold auto in E. discriminate.
Qed.
Lemma good_final s f t : good s -> good (mkSch (chans s) f t).
Proof. intros G. exact G. Qed.
Lemma empty_good : good empty_schema.
Proof. split; [constructor|]. split; simpl; tauto. Qed.
Theorem reached_good s : reached s -> good s.
Proof.
  induction 1 as [|w s E|s o s' H IH Hc E].
  - apply empty_good.
  - rewrite of_width in E. injection E as <-. apply (auto_good empty_schema w false false empty_good). simpl. tauto.
  - destruct o as [l c|c b|c v|c v| |n]; simpl in E.
    + unfold insert in E. destruct (final s) eqn:F; [discriminate|]. unfold find_mut in E. rewrite F in E. simpl in E.
      set (l' := if String.eqb l "" then to_string (size s) else l) in *.
      assert (Hl : clean l' /\ l' <> ""%string).
      { unfold l'. destruct (String.eqb_spec l ""); [split; [apply to_string_clean|apply to_string_ne]|auto]. }
      destruct (find s l') as [i|] eqn:Ef; simpl in E; injection E as <-; auto.
      apply good_app; simpl; auto.
      * intros x [<-|[]]. auto.
      * constructor; auto. constructor.
      * intros x [<-|[]] Hin. unfold find in Ef. apply in_map_iff in Hin as (y & Ey & Hy). apply In_nth_error in Hy as [k Hk].
        pose proof (find_at s k y "" IH Hk I) as Q. rewrite sapp_nil, Ey in Q. unfold find in Q. congruence.
      * intros n vs [Q|[]]. injection Q as _ Q. destruct c; simpl in Q; try discriminate. injection Q as <-. constructor.
    + eapply on_channel_good; eauto. intros k k' [= <-] Hk vs Hv. destruct k; simpl in Hv; try discriminate. eauto.
    + eapply on_channel_good; eauto. intros k k' Hk. simpl in Hk. now apply (add_good k v).
    + eapply on_channel_good; eauto. intros k k' [= <-]. now apply ins_good.
    + injection E as <-. exact IH.
    + destruct (finalize_spec s n) as [_ Q].
      unfold finalize in E. destruct (_ && _) eqn:Eb; [discriminate|]. destruct (final s) eqn:F.
      * destruct (Z.to_nat n - width s) as [|k]; [|rewrite inserts_final in E by (auto; lia); discriminate]. simpl in E. injection E as <-. exact IH.
      * destruct (inserts_auto (Z.to_nat n - width s) 0 s F) as (m & Hm & E' & H1 & H2). rewrite E' in E. simpl in E. injection E as <-.
        now apply auto_good.
Qed.

(** ** The construction helper *)
Theorem cat_ii_spec s c v d : channel_variant_to_stream_dim s c v = Ok d -> cat_ii s c v = Ok (d + 1).
Proof. unfold cat_ii. now intros ->. Qed.
Theorem cat_ll_spec s d c v n k x : good s -> has_variants k = true ->
  nth_error (addresses s) d = Some (c, v) -> nth_error (chans s) c = Some (n, k) -> variant_name k v = Some x ->
  cat_ll s n x = Ok (d + 1).
Proof.
  intros G Hh Ha Hc Hx. unfold cat_ll. pose proof (to_dim s d c v n k x G Ha Hc Hx) as E. unfold full_label in E. rewrite Hh in E. now rewrite E.
Qed.
Lemma variants_name k v x : has_variants k = true -> variant_name k v = Some x -> nth_error (get_variants k) v = Some x.
Proof. destruct k as [[]|[]|vs|]; simpl; try discriminate; auto. Qed.
Theorem cat_il_spec s d c v n k x : good s -> has_variants k = true ->
  nth_error (addresses s) d = Some (c, v) -> nth_error (chans s) c = Some (n, k) -> variant_name k v = Some x ->
  cat_il s c x = Ok d.
Proof.
  intros G Hh Ha Hc Hx. unfold cat_il. rewrite Hc. simpl snd. rewrite (index_of_nth _ v x).
  - now apply layout_inv.
  - destruct k as [[]|[]|vs|]; simpl in *; try discriminate; try (repeat constructor; simpl; intuition discriminate).
    apply (proj2 (proj2 G) n). eapply nth_error_In; eauto.
  - now apply variants_name.
Qed.
Theorem cat_li_spec s d c v n k : good s ->
  nth_error (addresses s) d = Some (c, v) -> nth_error (chans s) c = Some (n, k) ->
  cat_li s n v = if final s then Throw else Ok (c + v + 1).
Proof.
  intros G Ha Hc. unfold cat_li, find_mut. destruct (final s); auto. simpl.
  assert (F : find s n = Some c). { rewrite <- (sapp_nil n). apply (find_at s c (n, k) ""); simpl; auto. }
  rewrite F, Hc. simpl snd. unfold addresses in Ha. apply addr_at in Ha as (y & _ & Hn & Hv & Hd). rewrite Nat.sub_0_r, Hc in Hn.
  injection Hn as <-. simpl in Hv. apply Nat.ltb_lt in Hv. now rewrite Hv.
Qed.
Lemma addr_width s d c v : nth_error (addresses s) d = Some (c, v) -> d = width_to s c + v.
Proof. unfold addresses. intros Ha. apply addr_at in Ha as (y & _ & _ & _ & Hd). now rewrite Nat.sub_0_r, <- width_to_sum in Hd. Qed.
Theorem cat_li_agree s d c v n k : good s -> final s = false ->
  nth_error (addresses s) d = Some (c, v) -> nth_error (chans s) c = Some (n, k) ->
  (cat_li s n v = Ok (d + 1) <-> width_to s c = c).
Proof.
  intros G Hf Ha Hc. rewrite (cat_li_spec s d c v n k) by auto. rewrite Hf. pose proof (addr_width _ _ _ _ Ha). split; [intros [= ?]; lia|intros; f_equal; lia].
Qed.
Theorem inc_spec s c n k : good s -> nth_error (chans s) c = Some (n, k) -> inc_i s c = Ok (width_to s c + 1) /\ inc_l s n = Ok (width_to s c + 1).
Proof.
  intros G Hc. unfold inc_i, inc_l, channel_to_stream_dim. assert (H : c < size s) by (apply nth_error_Some; congruence).
  apply Nat.ltb_lt in H. rewrite H. simpl. rewrite (name_dim s c n k) by auto. auto.
Qed.
Theorem val_i_spec s c n k : nth_error (chans s) c = Some (n, k) ->
  val_i s c = if 2 <=? num_variants k then Ok (width_to s c, width_to s c + 1) else Throw.
Proof.
  intros Hc. unfold val_i, channel_variant_to_stream_dim. rewrite Hc. simpl snd.
  destruct (num_variants k) as [|[|m]]; simpl; auto. f_equal. f_equal. lia.
Qed.
Theorem val_l_spec s c n ll : good s -> nth_error (chans s) c = Some (n, Value ll) ->
  val_l s n = if final s then Throw else if ll then Ok (0, 1) else Ok (0, 0).
Proof.
  intros G Hc. unfold val_l, find_mut. destruct (final s); auto. simpl.
  assert (F : find s n = Some c). { rewrite <- (sapp_nil n). apply (find_at s c (n, Value ll) ""); simpl; auto. }
  rewrite F, Hc. simpl. now destruct ll.
Qed.
