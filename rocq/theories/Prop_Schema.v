(** Property theorems C39 (schemas) and C40 (the stream construction helper). *)
From Coq Require Import ZArith List Bool String Ascii Lia Sorted.
Import ListNotations.
From Verif Require Import Outcome Alg SchemaModel SchemaProofs SchemaProofs2 SchemaSpec.
Open Scope nat_scope.
Open Scope list_scope.
Open Scope string_scope.

(** ** C39 *)
(** [coordinates s] lists channel, variant and label of every coordinate.  Every schema answers from it. *)
Theorem C39_coordinates : forall s d c v t, nth_error (coordinates s) d = Some (c, v, t) ->
  stream_dim_to_channel s d = Ok (c, v) /\ channel_variant_to_stream_dim s c v = Ok d /\
  label_of_stream_dim s d = Ok t /\ label_of_channel_variant s c v = Ok t.
Proof. exact at_coordinate. Qed.
Print Assumptions C39_coordinates.
Theorem C39_refused : forall s,
  (forall d, List.length (coordinates s) <= d -> stream_dim_to_channel s d = Throw /\ label_of_stream_dim s d = Throw) /\
  (forall c v, (forall t d, nth_error (coordinates s) d <> Some (c, v, t)) -> channel_variant_to_stream_dim s c v = Throw).
Proof. intros s. split; [exact (no_coordinate s)|exact (no_channel s)]. Qed.
Print Assumptions C39_refused.
Theorem C39_inverse : forall s c v d, stream_dim_to_channel s d = Ok (c, v) <-> channel_variant_to_stream_dim s c v = Ok d.
Proof. exact inverse. Qed.
Print Assumptions C39_inverse.
(** The Lie keys are 1 to the width; the key of time, if it is added, is the last one. *)
Theorem C39_time_key : forall s, width s = List.length (coordinates s) + (if time s then 1 else 0) /\
  time_channel_to_lie_key s = if time s then width s else 0.
Proof. exact keys_in_order. Qed.
Print Assumptions C39_time_key.
(** In every schema that a history of calls builds with channel labels without ':' and NUL, each label leads
    back to its coordinate. *)
Theorem C39_labels : forall s d c v t, reached s -> nth_error (coordinates s) d = Some (c, v, t) ->
  label_to_stream_dim s t = Ok d /\ label_to_lie_key s t = Ok (d + 1).
Proof. exact label_found. Qed.
Print Assumptions C39_labels.
Theorem C39_label_unknown : forall s t b, reached s -> clean t -> sep_tail b -> ~ In t (map fst (chans s)) -> label_to_stream_dim s (t ++ b) = Throw.
Proof. intros s t b H. exact (unknown_label s t b (reached_good s H)). Qed.
Print Assumptions C39_label_unknown.
(** No label makes the lookup undefined, in any schema. *)
Theorem C39_lookup_defined : forall s l, label_to_stream_dim s l = Throw \/ exists d, label_to_stream_dim s l = Ok d.
Proof. exact label_defined. Qed.
Print Assumptions C39_lookup_defined.
(** finalize(n) fails exactly if n is positive and too small, or channels have to be added to a final schema.
    Otherwise it adds increment channels labelled with their positions, and stops adding at the first such
    label that is already taken. *)
Theorem C39_finalize_fails : forall s n,
  ((0 < n < Z.of_nat (width s))%Z \/ (final s = true /\ (Z.of_nat (width s) < n)%Z)) -> finalize s n = Throw.
Proof. intros s n. exact (proj1 (finalize_spec s n)). Qed.
Print Assumptions C39_finalize_fails.
Theorem C39_finalize : forall s n,
  (n <= 0 \/ Z.of_nat (width s) <= n)%Z -> (final s = false \/ (n <= Z.of_nat (width s))%Z) -> exists m,
    m <= Z.to_nat n - width s /\
    finalize s n = Ok (mkSch (chans s ++ map (fun i => (to_string i, Increment false)) (seq (size s) m))%list true (time s)) /\
    (forall j, j < m -> ~ In (to_string (size s + j)) (map fst (chans s))) /\
    (m < Z.to_nat n - width s -> In (to_string (size s + m)) (map fst (chans s))) /\
    forall s', finalize s n = Ok s' -> width s' = width s + m.
Proof.
  intros s n H1 H2. destruct (proj2 (finalize_spec s n) (conj H1 H2)) as (m & A & B & C & D). exists m. repeat split; auto.
  intros s' E. rewrite B in E. injection E as <-. apply final_width.
Qed.
Print Assumptions C39_finalize.
(** The width asked for, if no numeric label is in the way. *)
Theorem C39_finalize_width : forall s n s', (Z.of_nat (width s) <= n)%Z -> (forall i, ~ In (to_string i) (map fst (chans s))) ->
  finalize s n = Ok s' -> Z.of_nat (width s') = n.
Proof.
  intros s n s' H Hn E. destruct (proj2 (finalize_spec s n)) as (m & A & B & C & D).
  - split; [lia|]. destruct (final s) eqn:F; auto. right. destruct (Z.leb_spec n (Z.of_nat (width s))); auto.
    rewrite (proj1 (finalize_spec s n)) in E by (right; split; auto; lia). discriminate.
  - rewrite B in E. injection E as <-. rewrite final_width. assert (m = Z.to_nat n - width s); [|lia].
    destruct (Nat.eq_dec m (Z.to_nat n - width s)); auto. exfalso. eapply Hn. apply D. lia.
Qed.
Print Assumptions C39_finalize_width.
Theorem C39_of_width : forall w, schema_of_width w = Ok (mkSch (map (fun i => (to_string i, Increment false)) (seq 0 w)) false false).
Proof. exact of_width. Qed.
Print Assumptions C39_of_width.

Fixpoint steps (l : list sop) (s : schema) : outcome schema := match l with [] => Ok s | o :: l => let! s := s_step o s in steps l s end.
Definition ex_ops : list sop :=
  [OInsert "price" (Value false); OLeadLag 0 true; OInsert "" (Increment false); OInsert "side" (Categorical []); OAddVariant 2 "buy"; OAddVariant 2 ""; OInsert "rp" LieCh; OTime; OFinalize 8].
Lemma reached_steps : forall l s s', reached s -> (forall x c, In (OInsert x c) l -> clean x) -> steps l s = Ok s' -> reached s'.
Proof.
  induction l as [|o l IH]; intros s s' H Hc E; simpl in E; [injection E as <-; auto|]. destruct (s_step o s) as [s1| | |] eqn:E1; try discriminate. simpl in E.
  apply (IH s1); auto; [|intros; eapply Hc; simpl; eauto]. eapply r_step; eauto. destruct o; auto. eapply Hc. simpl. eauto.
Qed.
Definition run (l : list sop) : schema := match steps l empty_schema with Ok s => s | _ => empty_schema end.
Example C39_ex : let s := run ex_ops in reached s /\
  coordinates s = [(0, 0, "price:lead"); (0, 1, "price:lag"); (1, 0, "1"); (2, 0, "side:buy"); (2, 1, "side:1"); (3, 0, "rp"); (4, 0, "4")] /\
  width s = 8 /\ label_to_stream_dim s "side:1" = Ok 4 /\ label_to_stream_dim s "side" = Ok 3 /\ label_to_stream_dim s "no" = Throw /\ time_channel_to_lie_key s = 8.
Proof.
  split; [|vm_compute; repeat split].
  apply (reached_steps ex_ops empty_schema); [constructor| |vm_compute; reflexivity].
  intros x c H. simpl in H. repeat destruct H as [H|H]; try discriminate; try contradiction; injection H as <- _; split; simpl; intuition discriminate.
Qed.
(** A channel label with ':' can hide a variant; a numeric label in the way leaves the schema too narrow. *)
Example C39_colon_refuted : let s := run [OInsert "a:b" (Increment false); OInsert "a" (Categorical []); OInsertVariant 1 "b"] in
  label_of_stream_dim s 1 = Ok "a:b" /\ label_to_stream_dim s "a:b" = Ok 0.
Proof. vm_compute. auto. Qed.
Example C39_narrow_refuted : let s := run [OInsert "x" (Increment false); OInsert "2" (Increment false); OFinalize 5] in final s = true /\ width s = 2.
Proof. vm_compute. auto. Qed.
Example C39_ex_finalize : finalize (mkSch [("x", Increment true)] false false) 1 = Throw /\ exists s, finalize (mkSch [("x", Increment true)] false false) 4 = Ok s /\ width s = 4.
Proof. split; [reflexivity|]. eexists (mkSch [("x", Increment true); ("1", Increment false); ("2", Increment false)] true false). split; vm_compute; reflexivity. Qed.

(** ** C40 *)
(** [label_parts s c v name x]: channel c is called name and its variant v is called x.  By indices and by
    labels the helper updates the key of the coordinate.  By index and label it updates the key before; by
    label and index the sum of the positions, and it fails on final schemas. *)
Theorem C40_categorical : forall s d c v t name x, reached s -> nth_error (coordinates s) d = Some (c, v, t) -> label_parts s c v name x ->
  cat_ii s c v = Ok (d + 1) /\ cat_ll s name x = Ok (d + 1) /\ cat_il s c x = Ok d /\
  cat_li s name v = (if final s then Throw else Ok (c + v + 1)).
Proof. exact helper_cat. Qed.
Print Assumptions C40_categorical.
Theorem C40_label_index_refuted : forall s d c v t name x, reached s -> final s = false -> nth_error (coordinates s) d = Some (c, v, t) -> label_parts s c v name x ->
  (cat_li s name v = Ok (d + 1) <-> before s c = c).
Proof. exact helper_cat_li. Qed.
Print Assumptions C40_label_index_refuted.
(** Increments by index and by label go to the first coordinate after those of earlier channels. *)
Theorem C40_increment : forall s c name k, reached s -> nth_error (chans s) c = Some (name, k) ->
  inc_i s c = Ok (before s c + 1) /\ inc_l s name = Ok (before s c + 1).
Proof. exact helper_inc. Qed.
Print Assumptions C40_increment.
(** Values by index go to both coordinates of the channel, which has to have two; values by label go to the
    first coordinates of the schema, whatever the channel. *)
Theorem C40_value : forall s c name k, nth_error (chans s) c = Some (name, k) ->
  val_i s c = if (2 <=? List.length (variant_names k))%nat then Ok (before s c, before s c + 1) else Throw.
Proof. exact helper_val. Qed.
Print Assumptions C40_value.
Theorem C40_value_label_refuted : forall s c name ll, reached s -> nth_error (chans s) c = Some (name, Value ll) ->
  val_l s name = if final s then Throw else if ll then Ok (0, 1) else Ok (0, 0).
Proof. exact helper_val_l. Qed.
Print Assumptions C40_value_label_refuted.
(** No sequence of calls is undefined; the entries are in order of time. *)
Theorem C40_defined : forall (R : cring) s l, h_run R s l (new_helper R s) = Throw \/
  exists h, h_run R s l (new_helper R s) = Ok h /\ StronglySorted Z.le (map fst (entries R h)).
Proof.
  intros R s l. destruct (run_defined R s l (new_helper R s) (new_fine R s)) as [H|(h & H & _ & Q)]; eauto.
Qed.
Print Assumptions C40_defined.
(** For calls by index in any order: the amounts at the lead and at the lag coordinate of a channel up to a time
    add up to the value last given for it among the earlier calls, if the calls are split by that time. *)
Theorem C40_values_telescope : forall (R : cring) s c n k, nth_error (chans s) c = Some (n, k) -> 2 <= num_variants k ->
  forall v, v < 2 -> forall l1 l2 T h,
  (forall o, In o (l1 ++ l2)%list -> by_index R s c o) -> on_side R T l1 true -> on_side R T l2 false ->
  h_run R s (l1 ++ l2)%list (new_helper R s) = Ok h -> total R T (before s c + v + 1) (entries R h) = last_value R c l1 r0.
Proof. intros R s c n k. rewrite <- width_to_coords. exact (values_telescope R s c n k). Qed.
Print Assumptions C40_values_telescope.

Definition ex2 : schema := run [OInsert "price" (Value false); OLeadLag 0 true; OInsert "side" (Categorical []); OAddVariant 1 "buy"; OAddVariant 1 "sell"; OInsert "vol" (Value false); OLeadLag 2 true].
Example C40_ex : let s := ex2 in nth_error (coordinates s) 3 = Some (1, 1, "side:sell") /\ label_parts s 1 1 "side" "sell" /\
  cat_ii s 1 1 = Ok 4 /\ cat_ll s "side" "sell" = Ok 4 /\ cat_il s 1 "sell" = Ok 3 /\ cat_li s "side" 1 = Ok 3 /\
  val_i s 2 = Ok (4, 5) /\ val_l s "vol" = Ok (0, 1) /\ inc_l s "side" = Ok 3 /\ before s 1 = 2.
Proof. split; [vm_compute; reflexivity|]. split; [exists (Categorical ["buy"; "sell"]); vm_compute; auto|]. vm_compute. repeat split. Qed.
Definition CZ : cring := {| car := Z; r0 := 0%Z; r1 := 1%Z; radd := Z.add; rmul := Z.mul; rsub := Z.sub; ropp := Z.opp; rth := InitialRing.Zth |}.
Example C40_ex_values : let s := ex2 in
  match h_run CZ s [HValI CZ 1 0 10%Z; HCatII CZ 1 1 0; HValI CZ 2 2 7%Z; HValI CZ 3 0 12%Z; HValI CZ 0 0 9%Z] (new_helper CZ s) with
  | Ok h => total CZ 3 1 (entries CZ h) = 9%Z /\ total CZ 3 2 (entries CZ h) = 9%Z /\ map fst (entries CZ h) = [0; 0; 1; 1; 1; 2; 2; 3; 3]%Z
  | _ => False end.
Proof. vm_compute. auto. Qed.
