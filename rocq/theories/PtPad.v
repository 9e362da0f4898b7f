(** Proofs about ticks given from Python: the channels added to reach the width asked for. *)
From Coq Require Import ZArith QArith List Bool Ascii String Lia.
Import ListNotations.
From Verif Require Import Outcome SchemaModel SchemaSpec SchemaProofs PsModel PtModel.
Open Scope nat_scope.
Open Scope list_scope.

(** specification: m channels of one type, named by their positions from k *)
Definition numbered (t : ctype) (k m : nat) : list (string * channel) := map (fun i => (to_string i, new_channel t)) (seq k m).
(** how many are needed, and whether their names are free *)
Definition missing (s : schema) (md : metadata) : nat := Z.to_nat (md_width md - Z.of_nat (width s)).
Definition names_free (s : schema) (md : metadata) : Prop := forall j, j < missing s md -> ~ In (to_string (size s + j)) (names (chans s)).

Lemma pad_stuck t : forall n s, final s = false -> In (to_string (size s)) (names (chans s)) -> pad n t s = Ok s.
Proof.
  induction n as [|n IH]; intros s F H; [reflexivity|]. cbn [pad]. unfold insert. rewrite F. cbn [String.eqb]. unfold find_mut. rewrite F. cbn [bind]. unfold find.
  destruct (find_go (chans s) 0 (to_string (size s))) eqn:E; [cbn [bind]; now apply IH|]. now apply find_number in E.
Qed.
Lemma pad_is t : forall n s, final s = false -> exists m, m <= n /\
  pad n t s = Ok (mkSch (chans s ++ numbered t (size s) m) false (time s)) /\ (forall j, j < m -> ~ In (to_string (size s + j)) (names (chans s))) /\
  (m = n \/ In (to_string (size s + m)) (names (chans s))).
Proof.
  induction n as [|n IH]; intros s F.
  - exists 0. split; [lia|]. cbn [pad numbered seq map]. rewrite app_nil_r. split; [destruct s; cbn in *; now subst|]. split; [lia|now left].
  - destruct (in_dec string_dec (to_string (size s)) (names (chans s))) as [H|H].
    + exists 0. split; [lia|]. rewrite (pad_stuck t (S n) s F H). cbn [numbered seq map]. rewrite app_nil_r. split; [destruct s; cbn in *; now subst|]. split; [lia|].
      right. now rewrite Nat.add_0_r.
    + cbn [pad]. unfold insert. rewrite F. cbn [String.eqb]. unfold find_mut. rewrite F. cbn [bind]. unfold find.
      assert (E : find_go (chans s) 0 (to_string (size s)) = None) by now apply find_number. rewrite E. cbn [bind].
      set (s1 := mkSch (chans s ++ [(to_string (size s), new_channel t)]) false (time s)). destruct (IH s1 eq_refl) as [m [L [P [Fr En]]]].
      assert (Z1 : size s1 = S (size s)) by (unfold size, s1; cbn [chans]; rewrite app_length; cbn; lia).
      assert (N1 : names (chans s1) = names (chans s) ++ [to_string (size s)]) by (unfold s1; cbn [chans]; now rewrite names_app).
      exists (S m). split; [lia|]. split.
      { rewrite P. unfold s1 at 1 3. cbn [chans time]. rewrite <- app_assoc. unfold numbered. cbn [seq map app]. now rewrite Z1. }
      split.
      { intros [|j] Hj; [now rewrite Nat.add_0_r|]. intros Hin. apply (Fr j); [lia|]. rewrite Z1, N1. apply in_or_app. left. now rewrite Nat.add_succ_comm. }
      destruct En as [->|En]; [now left|]. rewrite Z1, N1 in En. apply in_app_or in En as [En|[En|[]]].
      * right. now rewrite <- Nat.add_succ_comm.
      * apply to_string_inj in En. lia.
Qed.
Lemma setup_is s md : final s = false -> exists m, m <= missing s md /\
  last_minute_setup s md = Ok (mkSch (chans s ++ numbered (md_default md) (size s) m) true (time s || md_time md)) /\
  (forall j, j < m -> ~ In (to_string (size s + j)) (names (chans s))) /\ (m = missing s md \/ In (to_string (size s + m)) (names (chans s))).
Proof.
  intros F. unfold last_minute_setup. rewrite F. destruct (pad_is (md_default md) (missing s md) s F) as [m [L [P [Fr En]]]]. exists m. split; auto.
  unfold missing in P. rewrite P. cbn [bind chans final time]. unfold finalize. cbn [Z.ltb andb Z.compare Z.to_nat Nat.sub inserts bind chans final time]. auto.
Qed.
Lemma finalize_pads s md s' w d : final s = false -> finalize_schema s md = Ok (s', w, d) -> exists m, m <= missing s md /\
  chans s' = chans s ++ numbered (md_default md) (size s) m /\ final s' = true /\ time s' = (time s || md_time md) /\
  (forall j, j < m -> ~ In (to_string (size s + j)) (names (chans s))) /\ (m = missing s md \/ In (to_string (size s + m)) (names (chans s))).
Proof.
  intros F H. destruct (setup_is s md F) as [m [L [P [Fr En]]]]. exists m. unfold finalize_schema in H. rewrite P in H. cbn [bind] in H.
  match type of H with (if ?b then _ else _) = _ => destruct b; [discriminate|] end. match type of H with (if ?b then _ else _) = _ => destruct b; [discriminate|] end.
  match type of H with bind ?e _ = _ => destruct e; try discriminate end. cbn [bind] in H. injection H as <- <- <-. cbn [chans final time]. auto 10.
Qed.
Lemma finalize_pads_free s md s' w d : final s = false -> names_free s md -> finalize_schema s md = Ok (s', w, d) ->
  chans s' = chans s ++ numbered (md_default md) (size s) (missing s md) /\ final s' = true /\ time s' = (time s || md_time md).
Proof.
  intros F N H. destruct (finalize_pads s md s' w d F H) as [m [L [C [F' [T [Fr En]]]]]]. destruct En as [->|En]; [auto|].
  destruct (Nat.eq_dec m (missing s md)) as [->|D]; [auto|]. destruct (N m); [lia|auto].
Qed.
Lemma numbered_w t : forall m k, wsum (numbered t k m) = match t with TCategorical => 0 | _ => m end.
Proof.
  unfold numbered. induction m as [|m IH]; intros k; [now destruct t|]. cbn [seq map]. change (?a :: ?b) with ([a] ++ b) at 1. rewrite wsum_app, IH. now destruct t.
Qed.
Lemma width_sum s : width s = wsum (chans s) + (if time s then 1 else 0).
Proof. unfold width, width_without_param. rewrite width_to_sum. unfold size. now rewrite firstn_all. Qed.
(** the width of the schema and that of the stream *)
Lemma padded_width s md s' w d : final s = false -> names_free s md -> md_default md <> TCategorical -> (0 <= md_width md)%Z -> finalize_schema s md = Ok (s', w, d) ->
  Z.of_nat (width s') = (Z.max (Z.of_nat (width s)) (md_width md) + (if md_time md && negb (time s) then 1 else 0))%Z /\ w = Z.of_nat (width s').
Proof.
  intros F N D P H. destruct (finalize_pads_free s md s' w d F N H) as [C [F' T]].
  assert (W : Z.of_nat (width s') = (Z.max (Z.of_nat (width s)) (md_width md) + (if md_time md && negb (time s) then 1 else 0))%Z).
  { rewrite (width_sum s'), (width_sum s), C, T, wsum_app, numbered_w. unfold missing. rewrite (width_sum s).
    destruct (md_default md); try contradiction; destruct (time s), (md_time md); cbn [orb andb negb]; lia. }
  split; [exact W|]. unfold finalize_schema in H. destruct (last_minute_setup s md) as [s1| | |]; try discriminate. cbn [bind] in H.
  destruct (Z.eqb (Z.of_nat (width s1)) 0); [discriminate|]. destruct (md_time md && Z.eqb (Z.of_nat (width s1)) 1); [discriminate|].
  destruct (Z.eqb_spec (md_width md) 0); cbn [bind] in H; [injection H as <- <- <-; reflexivity|].
  destruct (Z.ltb_spec (md_width md) (Z.of_nat (width s1))).
  - match type of H with bind (if ?b then _ else _) _ = _ => destruct b; [discriminate|] end. cbn [bind] in H. injection H as <- <- <-. reflexivity.
  - cbn [bind] in H. injection H as <- <- <-. destruct (md_time md && negb (time s)); lia.
Qed.
Lemma final_stays s md s' w d : final s = true -> finalize_schema s md = Ok (s', w, d) -> s' = s.
Proof.
  intros F H. unfold finalize_schema, last_minute_setup in H. rewrite F in H. cbn [bind] in H.
  match type of H with (if ?b then _ else _) = _ => destruct b; [discriminate|] end. match type of H with (if ?b then _ else _) = _ => destruct b; [discriminate|] end.
  match type of H with bind ?e _ = _ => destruct e; try discriminate end. cbn [bind] in H. now injection H as <- <- <-.
Qed.
(** which requests are refused, of a schema that is not final: no dimension, time as the only one, and a width that the
    channels (with time) do not fit *)
Lemma refused s md : final s = false -> names_free s md -> md_default md <> TCategorical -> (0 <= md_width md)%Z ->
  (finalize_schema s md = Throw <-> (md_time md = false /\ time s = false /\ width s = 0 /\ md_width md = 0%Z) \/
     (md_time md = true /\ (width s = (if time s then 1 else 0) /\ (md_width md <= (if time s then 1 else 0))%Z)) \/
     (0 < md_width md /\ md_width md < Z.of_nat (width s) /\ (md_time md = false \/ (md_width md + 1 < Z.of_nat (width s) + (if time s then 0 else 1))))%Z).
Proof.
  intros F N D P. destruct (setup_is s md F) as [m [L [E [Fr En]]]]. assert (m = missing s md) as ->.
  { destruct En as [->|En]; [reflexivity|]. destruct (Nat.eq_dec m (missing s md)); [auto|]. destruct (N m); [lia|auto]. }
  unfold finalize_schema. rewrite E. cbn [bind]. set (s1 := mkSch _ _ _).
  assert (W : Z.of_nat (width s1) = (Z.max (Z.of_nat (width s)) (md_width md) + (if md_time md && negb (time s) then 1 else 0))%Z).
  { unfold s1. rewrite (width_sum (mkSch _ _ _)), (width_sum s). cbn [chans time]. rewrite wsum_app, numbered_w. unfold missing. rewrite (width_sum s).
    destruct (md_default md); try contradiction; destruct (time s), (md_time md); cbn [orb andb negb]; lia. }
  rewrite W. assert (B : 0 <= wsum (chans s)) by lia. pose proof (width_sum s) as Ws.
  destruct (md_time md), (time s); cbn [andb negb orb];
  repeat match goal with |- context [Z.eqb ?a ?b] => destruct (Z.eqb_spec a b) | |- context [Z.ltb ?a ?b] => destruct (Z.ltb_spec a b) end; cbn [bind];
  split; intros K; try discriminate; try reflexivity; try lia; exfalso; lia.
Qed.
