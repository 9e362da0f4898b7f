(** What a schema means: the list of its coordinates. *)
From Coq Require Import ZArith List Bool Ascii String.
Import ListNotations.
From Verif Require Import Outcome SchemaModel SchemaProofs.
Open Scope nat_scope.
Open Scope list_scope.

(** the names of the variants of a channel; one nameless variant if the channel is not split *)
Definition variant_names (c : channel) : list string :=
  match c with
  | Increment true | Value true => ["lead"%string; "lag"%string]
  | Categorical vs => vs
  | _ => [""%string]
  end.
Definition is_split (c : channel) : bool := match c with Increment ll | Value ll => ll | Categorical _ => true | LieCh => false end.
(** channel number, variant number, label *)
Fixpoint number {A} (i : nat) (l : list A) : list (nat * A) := match l with [] => [] | x :: l => (i, x) :: number (S i) l end.
Definition coordinates (s : schema) : list (nat * nat * string) :=
  flat_map (fun '(c, (name, k)) => map (fun '(v, x) => (c, v, if is_split k then (name ++ ":" ++ x)%string else name)) (number 0 (variant_names k)))
    (number 0 (chans s)).

Lemma vn_len c : List.length (variant_names c) = num_variants c.
Proof. destruct c as [[]|[]| |]; reflexivity. Qed.
Lemma vn_nth c v : nth_error (variant_names c) v = variant_name c v.
Proof. destruct c as [[]|[]| |]; simpl; auto; destruct v as [|[|v]]; reflexivity. Qed.
Lemma split_has c : is_split c = has_variants c.
Proof. now destruct c as [[]|[]| |]. Qed.
Lemma number_nth {A} : forall (l : list A) i d, nth_error (number i l) d = match nth_error l d with Some x => Some (i + d, x) | None => None end.
Proof. induction l as [|x l IH]; intros i [|d]; simpl; auto. - now rewrite Nat.add_0_r. - rewrite IH. destruct nth_error; auto. now rewrite <- plus_n_Sm. Qed.
Lemma number_len {A} : forall (l : list A) i, List.length (number i l) = List.length l.
Proof. induction l; simpl; auto. Qed.

Definition coords_from (l : list (string * channel)) (i : nat) : list (nat * nat * string) :=
  flat_map (fun '(c, (name, k)) => map (fun '(v, x) => (c, v, if is_split k then (name ++ ":" ++ x)%string else name)) (number 0 (variant_names k))) (number i l).
Lemma coords_addr : forall l i, map fst (coords_from l i) = addresses_from l i.
Proof.
  induction l as [|[n k] l IH]; intros i; simpl; auto. unfold coords_from in *. simpl. rewrite map_app, IH. f_equal.
  rewrite <- vn_len. generalize 0. induction (variant_names k) as [|x vs IHv]; intros j; simpl; auto. f_equal. apply IHv.
Qed.
Lemma coords_label : forall l i d c v t, nth_error (coords_from l i) d = Some (c, v, t) ->
  exists n k x, i <= c /\ nth_error l (c - i) = Some (n, k) /\ variant_name k v = Some x /\ t = full_label n k x.
Proof.
  induction l as [|[n k] l IH]; intros i d c v t H; [now destruct d|]. unfold coords_from in H. simpl in H.
  destruct (Nat.ltb_spec d (List.length (variant_names k))) as [L|L].
  - rewrite nth_error_app1 in H by now rewrite map_length, number_len. destruct (nth_error (variant_names k) d) as [x|] eqn:E.
    2:{ apply nth_error_None in E. apply Nat.lt_nge in L. contradiction. }
    erewrite map_nth_error in H by (rewrite number_nth, E; reflexivity). injection H as <- <- <-.
    exists n, k, x. rewrite Nat.sub_diag, split_has. rewrite <- vn_nth. repeat split; auto.
  - rewrite nth_error_app2 in H by now rewrite map_length, number_len. apply IH in H as (n' & k' & x & Hi & Hn & Hx & Ht).
    exists n', k', x. replace (c - i) with (S (c - S i)) by Lia.lia. repeat split; auto. Lia.lia.
Qed.
Lemma coord s d c v t : nth_error (coordinates s) d = Some (c, v, t) -> nth_error (addresses s) d = Some (c, v) /\
  exists n k x, nth_error (chans s) c = Some (n, k) /\ variant_name k v = Some x /\ t = full_label n k x.
Proof.
  intros H. split.
  - unfold addresses. rewrite <- coords_addr. exact (map_nth_error fst _ _ H).
  - apply (coords_label (chans s) 0) in H as (n & k & x & _ & H1 & H2 & H3). rewrite Nat.sub_0_r in H1. exists n, k, x. auto.
Qed.
Lemma coord_of s d c v : nth_error (addresses s) d = Some (c, v) -> exists t, nth_error (coordinates s) d = Some (c, v, t).
Proof.
  unfold addresses. rewrite <- coords_addr. intros H. rewrite nth_error_map in H. fold (coords_from (chans s) 0).
  change (coordinates s) with (coords_from (chans s) 0). destruct nth_error as [[p t]|]; [|discriminate]. simpl in H. injection H as ->. eauto.
Qed.
Lemma coords_len s : List.length (coordinates s) = width_without_param s.
Proof. rewrite wop. unfold addresses. rewrite <- coords_addr, map_length. reflexivity. Qed.

Theorem at_coordinate s d c v t : nth_error (coordinates s) d = Some (c, v, t) ->
  stream_dim_to_channel s d = Ok (c, v) /\ channel_variant_to_stream_dim s c v = Ok d /\
  label_of_stream_dim s d = Ok t /\ label_of_channel_variant s c v = Ok t.
Proof.
  intros H. apply coord in H as (Ha & n & k & x & Hn & Hx & ->). split; [now apply layout|]. split; [now apply layout_inv|].
  destruct (label_of s d c v n k x Ha Hn Hx). auto.
Qed.
Theorem no_coordinate s d : List.length (coordinates s) <= d -> stream_dim_to_channel s d = Throw /\ label_of_stream_dim s d = Throw.
Proof.
  rewrite coords_len. intros H. pose proof (proj2 (layout_total s d) H) as E. split; auto.
  unfold stream_dim_to_channel in E. unfold label_of_stream_dim. now rewrite E.
Qed.
Theorem no_channel s c v : (forall t d, nth_error (coordinates s) d <> Some (c, v, t)) -> channel_variant_to_stream_dim s c v = Throw.
Proof.
  intros H. destruct (channel_variant_to_stream_dim s c v) as [d| | |] eqn:E; auto.
  - apply layout_inv in E. apply coord_of in E as [t E]. now apply H in E.
  - unfold channel_variant_to_stream_dim in E. destruct nth_error; [|discriminate]. destruct Nat.ltb; discriminate.
  - unfold channel_variant_to_stream_dim in E. destruct nth_error; [|discriminate]. destruct Nat.ltb; discriminate.
Qed.
Theorem label_found s d c v t : reached s -> nth_error (coordinates s) d = Some (c, v, t) ->
  label_to_stream_dim s t = Ok d /\ label_to_lie_key s t = Ok (d + 1).
Proof.
  intros Hr H. apply coord in H as (Ha & n & k & x & Hn & Hx & ->). apply reached_good in Hr.
  pose proof (to_dim s d c v n k x Hr Ha Hn Hx) as E. split; auto. unfold label_to_lie_key. now rewrite E.
Qed.
Theorem keys_in_order s : width s = List.length (coordinates s) + (if time s then 1 else 0) /\
  time_channel_to_lie_key s = if time s then width s else 0.
Proof. unfold width, time_channel_to_lie_key. rewrite coords_len. split; auto. destruct (time s); auto. Qed.

(** ** The helper, in the same terms *)
Definition label_parts (s : schema) (c v : nat) (name x : string) : Prop :=
  exists k, nth_error (chans s) c = Some (name, k) /\ is_split k = true /\ nth_error (variant_names k) v = Some x.
Theorem helper_cat s d c v t name x : reached s -> nth_error (coordinates s) d = Some (c, v, t) -> label_parts s c v name x ->
  cat_ii s c v = Ok (d + 1) /\ cat_ll s name x = Ok (d + 1) /\ cat_il s c x = Ok d /\
  cat_li s name v = (if final s then Throw else Ok (c + v + 1)).
Proof.
  intros Hr H (k & Hn & Hs & Hx). apply coord in H as (Ha & _). apply reached_good in Hr. rewrite split_has in Hs. rewrite vn_nth in Hx.
  split; [apply cat_ii_spec; now apply layout_inv|]. split; [eapply cat_ll_spec; eauto|]. split; [eapply cat_il_spec; eauto|eapply cat_li_spec; eauto].
Qed.
Lemma coords_ge l j p : In p (coords_from l j) -> j <= fst (fst p).
Proof. intros Hp. apply In_nth_error in Hp as [d Hp]. destruct p as [[c v] t]. now apply coords_label in Hp as (? & ? & ? & Hc & _). Qed.
Lemma width_coords_from : forall l c i, wsum (firstn c l) = List.length (filter (fun p => fst (fst p) <? i + c) (coords_from l i)).
Proof.
  induction l as [|[n k] l IH]; intros c i; [now destruct c|].
  change (coords_from ((n, k) :: l) i) with (map (fun '(v, x) => (i, v, if is_split k then (n ++ ":" ++ x)%string else n)) (number 0 (variant_names k)) ++ coords_from l (S i)).
  rewrite filter_app, app_length.
  assert (Q : forall j, List.length (filter (fun p : nat * nat * string => fst (fst p) <? i + c) (map (fun '(v, x) => (i, v, if is_split k then (n ++ ":" ++ x)%string else n)) (number j (variant_names k)))) =
    if i <? i + c then num_variants k else 0).
  { rewrite <- vn_len. induction (variant_names k) as [|x vs IHv]; intros j; simpl; [now destruct (_ <? _)|]. destruct (i <? i + c) eqn:E; simpl; rewrite IHv; auto. }
  rewrite Q. destruct c as [|c].
  - rewrite Nat.add_0_r, Nat.ltb_irrefl. simpl.
    assert (F : filter (fun p : nat * nat * string => fst (fst p) <? i) (coords_from l (S i)) = []); [|now rewrite F].
    pose proof (coords_ge l (S i)) as G. induction (coords_from l (S i)) as [|p ps IHp]; simpl; auto.
    replace (fst (fst p) <? i) with false by (symmetry; apply Nat.ltb_ge; specialize (G p (or_introl eq_refl)); Lia.lia).
    apply IHp. intros q Hq. apply G. simpl. auto.
  - replace (i <? i + S c) with true by (symmetry; apply Nat.ltb_lt; Lia.lia). unfold wsum in *. simpl. f_equal.
    replace (i + S c) with (S i + c) by Lia.lia. apply IH.
Qed.
(** the number of coordinates of the channels before a given one *)
Definition before (s : schema) (c : nat) : nat := List.length (filter (fun p => fst (fst p) <? c) (coordinates s)).
Lemma width_to_coords s c : width_to s c = before s c.
Proof. rewrite width_to_sum. apply (width_coords_from (chans s) c 0). Qed.
Theorem helper_cat_li s d c v t name x : reached s -> final s = false -> nth_error (coordinates s) d = Some (c, v, t) -> label_parts s c v name x ->
  (cat_li s name v = Ok (d + 1) <-> before s c = c).
Proof.
  intros Hr Hf H (k & Hn & _). apply coord in H as (Ha & _). apply reached_good in Hr. rewrite <- width_to_coords. eapply cat_li_agree; eauto.
Qed.
Theorem helper_inc s c name k : reached s -> nth_error (chans s) c = Some (name, k) ->
  inc_i s c = Ok (before s c + 1) /\ inc_l s name = Ok (before s c + 1).
Proof. intros Hr H. apply reached_good in Hr. rewrite <- width_to_coords. eapply inc_spec; eauto. Qed.
Theorem helper_val s c name k : nth_error (chans s) c = Some (name, k) ->
  val_i s c = if 2 <=? List.length (variant_names k) then Ok (before s c, before s c + 1) else Throw.
Proof. intros H. rewrite vn_len, <- width_to_coords. eapply val_i_spec; eauto. Qed.
Theorem helper_val_l s c name ll : reached s -> nth_error (chans s) c = Some (name, Value ll) ->
  val_l s name = if final s then Throw else if ll then Ok (0, 1) else Ok (0, 0).
Proof. intros Hr H. apply reached_good in Hr. eapply val_l_spec; eauto. Qed.
