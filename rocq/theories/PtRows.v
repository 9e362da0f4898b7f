(** Proofs about ticks given from Python: coordinates, totals, safety and whole streams. *)
From Coq Require Import ZArith QArith List Bool Ascii String Sorted Permutation Lia.
Import ListNotations.
From Verif Require Import Outcome Alg SchemaModel SchemaProofs PsModel PsProofs PtModel PtSpec PtProofs.
Open Scope nat_scope.
Open Scope list_scope.

Section Rows.
  Variable data : Type.
  Variable R : cring.
  Add Ring Rring : (rth R).
  Variable to_label : data -> outcome string.
  Variable to_scalar : data -> outcome R.
  Variable lie : Type.
  Variable co : coordinates_of R lie.
  Notation at_ := (co_at R lie co).
  Notation tick := (tick data).
  Notation value := (tick_value data R to_scalar lie (co_letter R lie co) (@r1 R) (co_sub R lie co) (co_cbh R lie co)).
  Notation rows_fn := (tick_rows data R to_scalar lie (co_letter R lie co) (@r1 R) (co_sub R lie co) (co_cbh R lie co) (co_set R lie co)).
  Notation value_after := (value_after data R to_scalar).
  Notation step_of := (step_of data R to_scalar).

  Lemma upd_nth {A} : forall (l : list A) n x k, nth_error (upd l n x) k = if Nat.eqb k n then match nth_error l n with Some _ => Some x | None => None end else nth_error l k.
  Proof. induction l as [|y l IH]; intros [|n] x [|k]; cbn; auto; try (destruct (Nat.eqb _ _); reflexivity). Qed.
  Lemma upd_length {A} : forall (l : list A) n x, List.length (upd l n x) = List.length l.
  Proof. induction l as [|y l IH]; intros [|n] x; cbn; auto. Qed.
  (** the previous values after the ticks [ts] *)
  Definition prev_ok (s : schema) (ts : list tick) (previous : list lie) : Prop :=
    forall i p, nth_error previous i = Some p -> forall d, at_ p d = if Nat.eqb d i then value_after s ts i else r0.
  Lemma at_dim_some (l : list lie) i p : at_dim lie l i = Ok p -> nth_error l i = Some p.
  Proof. unfold at_dim. destruct nth_error; congruence. Qed.

  Lemma value_mean s ts previous t x previous' : prev_ok s ts previous -> value s previous t = Ok (x, previous') ->
    prev_ok s (t :: ts) previous' /\ (forall d, at_ x d = step_of s ts t d).
  Proof.
    intros HJ. unfold tick_value, label_to_lie_key, PtSpec.step_of, moves, scalar.
    destruct (label_to_stream_dim s (tk_label data t)) as [i| | |] eqn:Ei; cbn [bind]; try discriminate.
    assert (Mv : forall d, moves data s t d = Nat.eqb d i || match tk_type _ t with TValue => lead_lag_label s (tk_label _ t) && Nat.eqb d (S i) | _ => false end) by (intros d; unfold moves; now rewrite Ei).
    destruct (tk_type data t) eqn:Ty; try discriminate.
    - destruct (to_scalar (tk_data data t)) as [y| | |] eqn:Sc; cbn [bind]; try discriminate. intros [= <- <-]. split.
      + intros j p Hp d. rewrite (HJ j p Hp d). destruct (Nat.eqb d j); auto. cbn [PtSpec.value_after]. unfold is_value. now rewrite Ty.
      + intros d. rewrite Nat.add_1_r, at_letter, orb_false_r. reflexivity.
    - destruct (to_scalar (tk_data data t)) as [y| | |] eqn:Sc; cbn [bind]; try discriminate.
      destruct (find s (tk_label data t)) as [c|] eqn:F; try discriminate. destruct (nth_error (chans s) c) as [[n ch]|] eqn:N; try discriminate.
      assert (LL : lead_lag_label s (tk_label data t) = is_lead_lag ch) by (unfold lead_lag_label; now rewrite F, N). rewrite LL in Mv |- *.
      destruct (is_lead_lag ch).
      + destruct (at_dim lie previous i) as [p| | |] eqn:P1; cbn [bind]; try discriminate. destruct (at_dim lie previous (i + 1)) as [q| | |] eqn:P2; cbn [bind]; try discriminate.
        intros [= <- <-]. apply at_dim_some in P1, P2. rewrite !Nat.add_1_r in *. split.
        * intros j z Hz d. rewrite !upd_nth in Hz. rewrite P1 in Hz. replace (Nat.eqb (S i) i) with false in Hz by (symmetry; apply Nat.eqb_neq; lia). rewrite P2 in Hz.
          cbn [PtSpec.value_after]. unfold is_value, scalar. rewrite Ty, Mv, Sc. cbn [andb].
          destruct (Nat.eqb j (S i)) eqn:Ej; [|destruct (Nat.eqb j i) eqn:Ei2].
          -- injection Hz as <-. apply Nat.eqb_eq in Ej. subst j. rewrite at_letter, orb_true_r. reflexivity.
          -- injection Hz as <-. apply Nat.eqb_eq in Ei2. subst j. rewrite at_letter. reflexivity.
          -- cbn [orb]. exact (HJ j z Hz d).
        * intros d. rewrite at_cbh, !at_sub, !at_letter, (HJ i p P1 d), (HJ (S i) q P2 d). cbn [andb].
          destruct (Nat.eqb d i) eqn:Di, (Nat.eqb d (S i)) eqn:Ds; cbn [orb]; try (apply Nat.eqb_eq in Di); try (apply Nat.eqb_eq in Ds); try lia; subst; ring.
      + destruct (at_dim lie previous i) as [p| | |] eqn:P1; cbn [bind]; try discriminate. intros [= <- <-]. apply at_dim_some in P1. rewrite !Nat.add_1_r in *. split.
        * intros j z Hz d. rewrite upd_nth, P1 in Hz. cbn [PtSpec.value_after]. unfold is_value, scalar. rewrite Ty, Mv, Sc. cbn [andb orb]. rewrite orb_false_r.
          destruct (Nat.eqb j i) eqn:Ej.
          -- injection Hz as <-. apply Nat.eqb_eq in Ej. subst j. rewrite at_letter. reflexivity.
          -- exact (HJ j z Hz d).
        * intros d. rewrite at_sub, at_letter, (HJ i p P1 d). cbn [andb]. rewrite orb_false_r. destruct (Nat.eqb d i) eqn:Di; [apply Nat.eqb_eq in Di; subst; reflexivity|ring].
    - intros [= <- <-]. split.
      + intros j p Hp d. rewrite (HJ j p Hp d). destruct (Nat.eqb d j); auto. cbn [PtSpec.value_after]. unfold is_value. now rewrite Ty.
      + intros d. rewrite Nat.add_1_r, at_letter, orb_false_r. reflexivity.
  Qed.
  Theorem rows_are s : forall l ts previous rows, prev_ok s ts previous -> rows_fn s previous (last_time data ts) l = Ok rows ->
    rows_mean data R to_scalar co s ts l rows.
  Proof.
    induction l as [|t l IH]; intros ts previous rows HJ; cbn [tick_rows].
    - intros [= <-]. exact I.
    - destruct (value s previous t) as [[x previous']| | |] eqn:V; cbn [bind]; try discriminate. apply value_mean with (1 := HJ) in V as [HJ' Hx].
      match goal with |- bind ?e _ = _ -> _ => destruct e as [rs| | |] eqn:E end; cbn [bind]; try discriminate. intros [= <-]. cbn [rows_mean]. split; auto. split.
      + intros d. unfold time_channel_to_lie_key, width. destruct (time s); cbn [andb]; auto. rewrite !Nat.add_1_r, at_set, Hx. cbn [Nat.sub]. now rewrite Nat.sub_0_r.
      + eapply IH; [exact HJ'|]. exact E.
  Qed.
  Lemma zeros_ok s n : prev_ok s [] (repeat (co_zero R lie co) n).
  Proof. intros i p Hp d. apply nth_error_In, repeat_spec in Hp. subst p. rewrite at_zero. cbn. now destruct (Nat.eqb d i). Qed.

  (** ** Totals *)
  Theorem total s d : (time s = false \/ d <> width s - 1) -> forall l ts rows, rows_mean data R to_scalar co s ts l rows ->
    radd (value_after s ts d) (sum rows (fun r => at_ (snd r) d)) = radd (value_after s (rev l ++ ts) d) (sum l (plain_step data R to_scalar s d)).
  Proof.
    intros Hd. induction l as [|t l IH]; intros ts [|[q x] rows]; cbn [rows_mean]; try tauto. cbn [sum].
    intros (-> & Hx & Hr). specialize (IH _ _ Hr). specialize (Hx d).
    assert (X : at_ x d = step_of s ts t d). { rewrite Hx. destruct Hd as [->|Hd]; auto. replace (Nat.eqb d (width s - 1)) with false by (symmetry; now apply Nat.eqb_neq). now rewrite andb_false_r. }
    cbn [snd rev]. rewrite X, <- app_assoc. cbn [app]. cbn [PtSpec.value_after] in IH. revert IH. unfold PtSpec.step_of, plain_step at 2, is_value.
    set (A := sum rows _). set (B := sum l _). set (V := value_after s (rev l ++ t :: ts) d). intros IH.
    destruct (moves data s t d), (tk_type data t); cbn [andb] in IH; try (transitivity (radd (radd (value_after s ts d) A) r0); [ring|rewrite IH; ring]).
    - transitivity (radd (radd (value_after s ts d) A) (scalar data R to_scalar t)); [ring|rewrite IH; ring].
    - transitivity (radd (scalar data R to_scalar t) A); [ring|rewrite IH; ring].
    - transitivity (radd (radd (value_after s ts d) A) r1); [ring|rewrite IH; ring].
  Qed.
  Corollary total_all s d l rows : (time s = false \/ d <> width s - 1) -> rows_mean data R to_scalar co s [] l rows ->
    sum rows (fun r => at_ (snd r) d) = radd (value_after s (rev l) d) (sum l (plain_step data R to_scalar s d)).
  Proof. intros Hd H. pose proof (total s d Hd l [] rows H) as T. rewrite app_nil_r in T. cbn [PtSpec.value_after] in T. rewrite <- T. ring. Qed.

  (** ** Safety *)
  Lemma plain_clean l : plain_label l -> clean l.
  Proof. unfold plain_label, clean. assert (E : chars l = list_ascii_of_string l) by (induction l; cbn; congruence). now rewrite E. Qed.
  Lemma find_go_some : forall l i t c, find_go l i t = Some c -> exists x, i <= c /\ nth_error l (c - i) = Some x /\ compare_labels (fst x) t = true.
  Proof.
    induction l as [|x l IH]; intros i t c; cbn [find_go]; [discriminate|]. destruct compare_labels eqn:E.
    - intros [= <-]. exists x. rewrite Nat.sub_diag. auto.
    - intros H. apply IH in H as (y & H1 & H2 & H3). exists y. split; [lia|]. replace (c - i) with (S (c - S i)) by lia. auto.
  Qed.
  Lemma find_plain s label c : good s -> clean label -> find s label = Some c -> exists ch, nth_error (chans s) c = Some (label, ch) /\ label_to_stream_dim s label = Ok (width_to s c).
  Proof.
    intros G Hc F. apply find_go_some in F as ([n ch] & _ & N & E). rewrite Nat.sub_0_r in N. cbn [fst] in E. rewrite <- (sapp_nil label) in E.
    assert (Hn : clean n) by (destruct G as (_ & G & _); apply G; change n with (fst (n, ch)); apply in_map; eapply nth_error_In; eauto).
    apply cmp_clean in E; auto; [|exact I]. subst n. exists ch. split; auto. eapply name_dim; eauto.
  Qed.
  Lemma width_at s c x : nth_error (chans s) c = Some x -> width_to s c + num_variants (snd x) <= width s.
  Proof.
    intros N. apply nth_error_split in N as (a & b & E & L). unfold width, width_without_param, size. rewrite !width_to_sum, firstn_all, E.
    rewrite firstn_app, L, Nat.sub_diag, firstn_O, app_nil_r, <- L, firstn_all, wsum_app. unfold wsum at 3. cbn. fold (wsum b). lia.
  Qed.
  Lemma value_safe s previous t : good s -> no_empty_channel s -> plain_label (tk_label _ t) -> width s <= List.length previous -> plain_out (to_scalar (tk_data _ t)) ->
    plain_out (value s previous t) /\ forall x previous', value s previous t = Ok (x, previous') -> List.length previous' = List.length previous.
  Proof.
    intros G Hn Hl Hw Hs. apply plain_clean in Hl. unfold tick_value, label_to_lie_key. destruct (find s (tk_label data t)) as [c|] eqn:F.
    - destruct (find_plain s _ c G Hl F) as (ch & N & ->). cbn [bind]. pose proof (width_at s c _ N) as W. cbn [snd] in W. pose proof (Hn _ (nth_error_In _ _ N)) as P. cbn [snd] in P.
      rewrite N. destruct (tk_type data t); try (cbn; split; [exact I|intros; congruence]).
      + destruct (to_scalar (tk_data data t)); cbn in *; try tauto; split; try exact I; intros; congruence.
      + destruct (to_scalar (tk_data data t)) as [y| | |]; cbn [bind]; cbn in Hs; try tauto; [|split; [exact I|intros; congruence]].
        assert (D : forall i, i < width s -> exists p, at_dim lie previous i = Ok p).
        { intros i Hi. unfold at_dim. destruct (nth_error previous i) as [p|] eqn:E; [eauto|]. apply nth_error_None in E. lia. }
        destruct (is_lead_lag ch) eqn:L.
        * assert (num_variants ch = 2) by (destruct ch as [[]|[]| |]; cbn in *; congruence).
          destruct (D (width_to s c)) as [p ->]; [lia|]. destruct (D (width_to s c + 1)) as [q ->]; [lia|]. cbn [bind]. split; [exact I|]. intros x r [= _ <-]. now rewrite !upd_length.
        * destruct (D (width_to s c)) as [p ->]; [lia|]. cbn [bind]. split; [exact I|]. intros x r [= _ <-]. now rewrite !upd_length.
    - unfold label_to_stream_dim. rewrite F. cbn [bind]. split; [exact I|intros; congruence].
  Qed.
  Theorem rows_safe s : good s -> no_empty_channel s -> forall l previous q, width s <= List.length previous ->
    (forall t, In t l -> plain_label (tk_label _ t) /\ plain_out (to_scalar (tk_data _ t))) -> plain_out (rows_fn s previous q l).
  Proof.
    intros G Hn. induction l as [|t l IH]; intros previous q Hw Hl; cbn [tick_rows]; [exact I|].
    destruct (Hl t (or_introl eq_refl)) as [H1 H2]. destruct (value_safe s previous t G Hn H1 Hw H2) as [V Hlen].
    destruct (value s previous t) as [[x previous']| | |] eqn:E; cbn [bind]; auto. apply plain_bind; [|intros; exact I].
    apply IH; [rewrite (Hlen x previous' eq_refl); auto|]. intros u Hu. apply Hl. now right.
  Qed.

  (** ** Whole streams *)
  Lemma finalize_final s n s' : finalize s n = Ok s' -> final s' = true.
  Proof. unfold finalize. destruct (_ && _); [discriminate|]. destruct inserts as [x| | |]; cbn [bind]; try discriminate. now intros [= <-]. Qed.
  Theorem finalize_schema_are s md s' w d : (0 <= md_width md)%Z -> finalize_schema s md = Ok (s', w, d) ->
    final s' = true /\ (0 < width s')%nat /\ (Z.of_nat (width s') <= w)%Z /\ (md_width md <= w)%Z /\ (w = md_width md \/ w = Z.of_nat (width s'))%Z /\
    d = (if Z.eqb (md_depth md) 0 then 2 else md_depth md)%Z.
  Proof.
    intros Hw. unfold finalize_schema. destruct (last_minute_setup s md) as [s1| | |] eqn:L; cbn [bind]; try discriminate.
    assert (F : final s1 = true).
    { unfold last_minute_setup in L. destruct (final s) eqn:E; [congruence|]. destruct pad as [s2| | |]; cbn [bind] in L; try discriminate. eapply finalize_final; eauto. }
    destruct (Z.eqb (Z.of_nat (width s1)) 0) eqn:W0; [discriminate|]. apply Z.eqb_neq in W0. destruct (_ && _); [discriminate|].
    destruct (Z.eqb (md_width md) 0) eqn:M0; [|destruct (Z.ltb (md_width md) (Z.of_nat (width s1))) eqn:M1; [destruct (_ || _); [discriminate|]|]]; cbn [bind];
    intros [= <- <- <-]; rewrite ?Z.ltb_lt, ?Z.ltb_ge, ?Z.eqb_eq in *; repeat split; auto; lia.
  Qed.
  Theorem streams_are k calls s w d rows :
    from_ticks data R to_label to_scalar lie (co_zero R lie co) (co_letter R lie co) (@r1 R) (co_sub R lie co) (co_cbh R lie co) (co_set R lie co) k calls = Ok (s, w, d, rows) ->
    calls <> [] /\ final s = true /\ (exists ts out, Forall2 (made_by data (first_stamp data calls)) calls ts /\ in_order data ts out /\ rows_mean data R to_scalar co s [] out rows).
  Proof.
    unfold from_ticks. destruct (kwargs_to_metadata k) as [md| | |]; cbn [bind]; try discriminate.
    destruct (add_calls data to_label _ calls) as [h| | |] eqn:A; cbn [bind]; try discriminate. apply calls_in_order in A as (ts & H1 & E & H2 & _). rewrite E.
    assert (NE : sort_ticks data ts <> [] -> calls <> []). { intros N ->. destruct ts; [now apply N|inversion H1]. }
    destruct (sort_ticks data ts) as [|t0 l0] eqn:S; [discriminate|].
    destruct (finalize_schema (hp_schema data h) md) as [[[s1 w1] d1]| | |] eqn:F; cbn [bind]; try discriminate.
    match goal with |- bind ?e _ = _ -> _ => destruct e as [rs| | |] eqn:T end; cbn [bind]; try discriminate.
    intros [= <- <- <- <-]. split; [apply NE; discriminate|]. split.
    - unfold finalize_schema in F. destruct last_minute_setup as [s2| | |] eqn:L; cbn [bind] in F; try discriminate.
      assert (s2 = s1) as -> by (destruct (Z.eqb (Z.of_nat (width s2)) 0), (md_time md && Z.eqb (Z.of_nat (width s2)) 1); try discriminate; match type of F with bind ?e _ = _ => destruct e end; cbn [bind] in F; congruence).
      unfold last_minute_setup in L. destruct (final (hp_schema data h)) eqn:E2; [congruence|]. destruct pad as [s3| | |]; cbn [bind] in L; try discriminate. eapply finalize_final; eauto.
    - exists ts, (t0 :: l0). split; auto. split; auto. eapply rows_are; [apply zeros_ok|]. exact T.
  Qed.
End Rows.
