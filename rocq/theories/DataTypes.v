(** The scalar type chosen when none is asked for. *)
From Verif Require Export DataProofs3.
Open Scope Z_scope.

(** *** Promotion *)
Lemma tcode_eqb_iff a b : tcode_eqb a b = true <-> a = b.
Proof. destruct a, b; cbn; split; congruence. Qed.
Definition promoted (l : list tinfo) (c : tinfo) : Prop :=
  match ti_code c with
  | TPoly => some_are TPoly 0 l = true
  | TRational => some_are TPoly 0 l = false /\ some_are TRational 0 l = true
  | TFloat => some_are TPoly 0 l = false /\ some_are TRational 0 l = false /\
      (ti_bytes c = 8 /\ some_are TFloat 8 l = true \/ ti_bytes c = 4 /\ some_are TFloat 8 l = false /\ some_are TFloat 4 l = true)
  | TInt | TUInt => some_are TPoly 0 l = false /\ some_are TRational 0 l = false /\ some_are TFloat 8 l = false /\ some_are TFloat 4 l = false
  | _ => False
  end.
Lemma some_app c b l i : some_are c b (l ++ [i]) = some_are c b l || (tcode_eqb (ti_code i) c && ((b =? 0) || (ti_bytes i =? b))).
Proof. unfold some_are. rewrite existsb_app. cbn. rewrite orb_false_r. reflexivity. Qed.
Lemma promote_step l c i : promoted l c -> ordinary i -> exists c', compute_type_promotion c i = Ok c' /\ promoted (l ++ [i]) c'.
Proof.
  intros Hc Hi. unfold compute_type_promotion. destruct (tinfo_eqb c i) eqn:E.
  - exists c. split; [reflexivity|]. unfold tinfo_eqb in E. apply andb_true_iff in E as [E1 E2]. apply tcode_eqb_iff in E1. apply Z.eqb_eq in E2.
    unfold promoted in *. rewrite !some_app, <- E1, <- E2. unfold ordinary in Hi. rewrite <- E1, <- E2 in Hi. destruct (ti_code c) eqn:Ec; cbn [tcode_eqb andb orb Z.eqb]; rewrite ?orb_false_r, ?orb_true_r; try contradiction; try tauto.
    destruct Hc as (H1 & H2 & [[H3 H4]|(H3 & H4 & H5)]); rewrite H3; cbn [Z.eqb Pos.eqb]; rewrite ?orb_false_r, ?orb_true_r; auto 6.
  - clear E. unfold ordinary in Hi. unfold promoted in *. destruct (ti_code i) eqn:Ei; try contradiction.
    + unfold compute_int_promotion, is_integral, is_signed. destruct (ti_code c) eqn:Ec; try contradiction; eexists; (split; [reflexivity|]); rewrite ?Ec, ?Ei, !some_app, ?Ei; cbn [tcode_eqb andb orb negb ti_code]; rewrite ?orb_false_r; auto.
      all: repeat match goal with |- context [if ?x then _ else _] => destruct x end; cbn [ti_code]; rewrite ?Ei; auto.
    + unfold compute_int_promotion, is_integral, is_signed. destruct (ti_code c) eqn:Ec; try contradiction; eexists; (split; [reflexivity|]); rewrite ?Ec, ?Ei, !some_app, ?Ei; cbn [tcode_eqb andb orb negb ti_code]; rewrite ?orb_false_r; auto.
      all: repeat match goal with |- context [if ?x then _ else _] => destruct x end; cbn [ti_code]; rewrite ?Ei; auto.
    + unfold compute_float_promotion, is_integral, is_floating. destruct (ti_code c) eqn:Ec; try contradiction; eexists; (split; [reflexivity|]); rewrite ?Ec.
      * rewrite !some_app, Ei. cbn [tcode_eqb andb orb Z.eqb]. rewrite ?orb_false_r. destruct Hc as (H1 & H2 & H3 & H4). split; [exact H1|]. split; [exact H2|]. rewrite H3, H4. cbn [orb]. destruct Hi as [-> | ->]; cbn; auto.
      * rewrite !some_app, Ei. cbn [tcode_eqb andb orb Z.eqb]. rewrite ?orb_false_r. destruct Hc as (H1 & H2 & H3 & H4). split; [exact H1|]. split; [exact H2|]. rewrite H3, H4. cbn [orb]. destruct Hi as [-> | ->]; cbn; auto.
      * destruct Hc as (H1 & H2 & H3). destruct (ti_bytes c >? ti_bytes i) eqn:Eg; cbn [ti_code ti_bytes]; rewrite ?Ei; rewrite !some_app, Ei; cbn [tcode_eqb andb orb Z.eqb]; rewrite ?orb_false_r; (split; [exact H1|]); (split; [exact H2|]).
        -- destruct H3 as [[H3 H4]|(H3 & H4 & H5)]; rewrite H3 in *; rewrite H4; [left; auto|]. destruct Hi as [Hi|Hi]; rewrite Hi in Eg; discriminate.
        -- destruct Hi as [Hi|Hi]; rewrite Hi in *; cbn [Z.eqb Pos.eqb orb]; rewrite ?orb_true_r, ?orb_false_r; [|left; auto]. destruct H3 as [[H3 H4]|(H3 & H4 & H5)]; [rewrite H3 in Eg; discriminate|]. right. auto.
      * rewrite ?Ec. rewrite !some_app, Ei. cbn [tcode_eqb andb orb]. rewrite ?orb_false_r. exact Hc.
      * rewrite ?Ec. rewrite !some_app, Ei. cbn [tcode_eqb andb orb]. rewrite ?orb_false_r. exact Hc.
    + unfold compute_aprational_promotion. destruct (ti_code c) eqn:Ec; try contradiction; eexists; (split; [reflexivity|]); rewrite ?Ec, ?Ei, !some_app, ?Ei; cbn [tcode_eqb andb orb Z.eqb]; rewrite ?orb_false_r, ?orb_true_r; tauto.
    + eexists. split; [reflexivity|]. rewrite Ei, some_app, Ei. cbn. apply orb_true_r.
Qed.
Lemma promoted_info l c : promoted l c -> for_info c = Ok (common_type l).
Proof.
  unfold promoted, for_info, common_type. destruct (ti_code c); intros H; try contradiction.
  - destruct H as (-> & -> & -> & ->). reflexivity.
  - destruct H as (-> & -> & -> & ->). reflexivity.
  - destruct H as (-> & -> & [[-> ->]|(-> & -> & ->)]); reflexivity.
  - destruct H as (-> & ->). reflexivity.
  - rewrite H. reflexivity.
Qed.

Section Types.
  Variable V : Type.
  Variable of_int : Z -> V.
  Variable conv : stype -> V -> option V.
  Variable zero : stype -> V.
  Notation pyval := (pyval V).
  Notation convert_leaf := (convert_leaf of_int conv zero).
  Notation do_conversion := (do_conversion of_int conv zero).
  Notation parse_argument := (parse_argument of_int conv zero).
  Notation coefficients := (coefficients of_int conv zero).
  Notation increments := (increments of_int conv zero).
  Notation row := (row of_int conv).
  Notation rowleaf := (rowleaf V).

  Lemma promote_common (ls : list (leaf V)) : Forall (fun x => ordinary (lf_info x)) ls -> forall l c, promoted l c ->
    exists c', promote_all c ls = Ok c' /\ promoted (l ++ map (@lf_info V) ls) c'.
  Proof.
    induction 1 as [|x ls Hx _ IH]; intros l c Hc; cbn [promote_all map].
    - exists c. rewrite app_nil_r. auto.
    - destruct (promote_step l c _ Hc Hx) as (c1 & H1 & H2). rewrite H1. cbn [bind]. destruct (IH _ _ H2) as (c2 & H3 & H4). exists c2. split; [exact H3|]. rewrite <- app_assoc in H4. exact H4.
  Qed.
  Lemma compute_common (o : dopts) (ls : list (leaf V)) : o_type o = None -> Forall (fun x => ordinary (lf_info x)) ls -> compute_scalar_type o ls = Ok (common_type (map (@lf_info V) ls)).
  Proof.
    intros Ho H. unfold compute_scalar_type. rewrite Ho. destruct (promote_common ls H [] (mkTI TInt 4)) as (c & H1 & H2); [cbn; auto|]. rewrite H1. cbn [bind]. apply promoted_info. exact H2.
  Qed.

  (** *** The type asked for changes nothing in what is looked at *)
  Definition with_type (o : dopts) (t : option stype) : dopts := mkOpts t (o_alt o) (o_nested o) (o_none o) (o_scalar o) (o_kv o).
  Lemma is_key_type o t (v : pyval) : is_key (with_type o t) v = is_key o v.
  Proof. destruct v; reflexivity. Qed.
  Lemma scan_type o t (l : list pyval) e : scan (with_type o t) l e = scan o l e.
  Proof.
    revert e. induction l as [|x l IH]; intros e; [reflexivity|]. destruct x as [| | | | | | m | | | | | |]; cbn [scan]; destruct e as [[]|]; try reflexivity; cbn [is_scalar]; rewrite ?IH; try reflexivity;
      (destruct m as [|k [|s [|]]]; try reflexivity; rewrite is_key_type; rewrite IH; reflexivity).
  Qed.
  Lemma mapM_ext {A B} (f g : A -> outcome B) l : (forall a, In a l -> f a = g a) -> mapM f l = mapM g l.
  Proof. induction l as [|a l IH]; intros H; [reflexivity|]. cbn [mapM]. rewrite H by (left; reflexivity). rewrite IH by (intros; apply H; right; assumption). reflexivity. Qed.
  Lemma check_type o t (v : pyval) : forall d, check_recurse (with_type o t) d v = check_recurse o d v.
  Proof.
    remember (pysize V v) as n eqn:En. assert (Hle : (pysize V v <= n)%nat) by lia. clear En. revert v Hle. induction n as [|n IH]; intros v Hle d; [destruct v; cbn in Hle; lia|].
    rewrite !check_unfold. cbn [with_type o_nested]. destruct (negb _); [reflexivity|].
    assert (M : forall l, (fold_right (fun x n => pysize V x + n)%nat O l <= n)%nat -> mapM (check_recurse (with_type o t) (d + 1)) l = mapM (check_recurse o (d + 1)) l).
    { intros l Hl. apply mapM_ext. intros a Ha. apply IH. pose proof (pysize_in V a l Ha). lia. }
    fold (with_type o t). destruct v; try reflexivity.
    - destruct l as [|x l]; [reflexivity|]. rewrite scan_type, M by (cbn in Hle |- *; lia). reflexivity.
    - destruct l as [|x l]; [reflexivity|]. rewrite scan_type, M by (cbn in Hle |- *; lia). reflexivity.
  Qed.
  Lemma check_size_type o t (v : pyval) : check_size_and_type (with_type o t) v = check_size_and_type o v.
  Proof.
    unfold check_size_and_type. rewrite check_type. cbn [with_type o_scalar o_kv]. fold (with_type o t).
    reflexivity.
  Qed.
  Lemma convert_key_type o t (v : pyval) : convert_key (with_type o t) v = convert_key o v.
  Proof. destruct v; reflexivity. Qed.
  Lemma convert_leaf_type o t s lf : convert_leaf (with_type o t) s lf = convert_leaf o s lf.
  Proof. reflexivity. Qed.

  Lemma parse_none o v d s : o_type o = None -> v <> PNone ->
    (parse_argument o v = Ok (d, Some s) <-> parse_argument (with_type o (Some s)) v = Ok (d, Some s) /\ exists ls, check_size_and_type o v = Ok ls /\ compute_scalar_type o ls = Ok s).
  Proof.
    intros Ho Hv. rewrite !parse_some by exact Hv. rewrite check_size_type. destruct (check_size_and_type o v) as [ls| | |]; cbn [bind]; try (split; [discriminate|intros [? _]; discriminate]).
    assert (Hd : forall s, do_conversion (with_type o (Some s)) s ls = do_conversion o s ls) by (intros s0; rewrite !do_mapM; apply mapM_ext; intros; apply convert_leaf_type).
    change (compute_scalar_type (with_type o (Some s)) ls) with (Ok s). cbn [bind]. rewrite Hd. split.
    - intros H. apply bind_ok in H as (t & Ht & H). apply bind_ok in H as (d' & Hd' & H). injection H as <- <-. split; [rewrite Hd'; reflexivity|]. exists ls. auto.
    - intros [H (ls' & [= <-] & Ht)]. rewrite Ht. exact H.
  Qed.
  Lemma increments_none v rows s : v <> PNone ->
    (increments None v = Ok (rows, s) <-> increments (Some s) v = Ok (rows, s) /\ exists ls, check_size_and_type (stream_opts None) v = Ok ls /\ compute_scalar_type (stream_opts None) ls = Ok s).
  Proof.
    intros Hv. unfold DataModel.increments. split.
    - intros H. apply bind_ok in H as ([d st] & Hp & H). apply bind_ok in H as (r & Hr & H). destruct st as [s'|]; [|discriminate]. injection H as <- <-.
      apply (parse_none (stream_opts None) v d s' eq_refl Hv) in Hp as [Hp Hl]. split; [|exact Hl]. change (with_type (stream_opts None) (Some s')) with (stream_opts (Some s')) in Hp. rewrite Hp. cbn [bind]. rewrite Hr. reflexivity.
    - intros [H Hl]. apply bind_ok in H as ([d st] & Hp & H). apply bind_ok in H as (r & Hr & H). destruct st as [s'|]; [|discriminate]. injection H as <- ->.
      rewrite (proj2 (parse_none (stream_opts None) v d s eq_refl Hv) (conj Hp Hl)). cbn [bind]. rewrite Hr. reflexivity.
  Qed.
  Definition el_opts0 (tensor : bool) : dopts := mkOpts None tensor 1 true tensor true.
  Lemma coefficients_none tensor v r s : v <> PNone ->
    (coefficients (el_opts0 tensor) v = Ok (r, s) <-> coefficients (el_opts tensor s) v = Ok (r, s) /\ exists ls, check_size_and_type (el_opts0 tensor) v = Ok ls /\ compute_scalar_type (el_opts0 tensor) ls = Ok s).
  Proof.
    intros Hv. unfold DataModel.coefficients. split.
    - intros H. apply bind_ok in H as ([d st] & Hp & H). destruct st as [s'|]; [|discriminate]. injection H as <- <-.
      apply (parse_none (el_opts0 tensor) v d s' eq_refl Hv) in Hp as [Hp Hl]. split; [|exact Hl]. change (with_type (el_opts0 tensor) (Some s')) with (el_opts tensor s') in Hp. rewrite Hp. reflexivity.
    - intros [H Hl]. apply bind_ok in H as ([d st] & Hp & H). destruct st as [s'|]; [|discriminate]. injection H as <- ->.
      rewrite (proj2 (parse_none (el_opts0 tensor) v d s eq_refl Hv) (conj Hp Hl)). reflexivity.
  Qed.

  (** *** The types found *)
  Lemma rowleaf_type o v lf : rowleaf o v lf -> row_type v (lf_info lf).
  Proof.
    intros H. destruct H as [v l i x r Hs -> Hf Hi|v l i x r Hs -> Hf Hi|kv i k x r -> Hf Hi|s l|s l]; cbn [lf_info].
    - apply type_info_iff in Hi. destruct Hs as [-> | ->]; left; exact Hi.
    - inversion Hf as [|? ? Hx _]; subst. apply a_pair_iff in Hx as (k & s & -> & _). cbn [second] in Hi. apply type_info_iff in Hi. destruct Hs as [-> | ->]; right; exists k, s; auto.
    - apply type_info_iff in Hi. exact Hi.
    - reflexivity.
    - reflexivity.
  Qed.
  Lemma known_det (v : pyval) i j : known_type v i -> known_type v j -> i = j.
  Proof. destruct v as [[]| [] | | | | | | | | | | |]; cbn; try contradiction; congruence. Qed.
  Lemma row_type_det (v : pyval) i j : row_type v i -> row_type v j -> i = j.
  Proof.
    destruct v as [| | | | | |l|l|kv|s l|s l| |]; cbn; try contradiction; try congruence.
    - destruct l as [|x l]; [contradiction|]. intros [H1|(k & s & -> & H1)] [H2|(k2 & s2 & E & H2)]; try (eapply known_det; eassumption); subst; try contradiction. injection E as <- <-. eapply known_det; eassumption.
    - destruct l as [|x l]; [contradiction|]. intros [H1|(k & s & -> & H1)] [H2|(k2 & s2 & E & H2)]; try (eapply known_det; eassumption); subst; try contradiction. injection E as <- <-. eapply known_det; eassumption.
    - destruct kv as [|[k x] kv]; [contradiction|]. apply known_det.
  Qed.

  Lemma stream_leaves ot t v rows : stream_rows of_int conv t v rows -> v <> PNone ->
    exists lfs, check_size_and_type (stream_opts ot) v = Ok lfs /\ stream_types of_int conv t v rows (map (@lf_info V) lfs).
  Proof.
    intros H Hv. set (o := stream_opts ot). destruct H as [|v xs ks En Hr|v l rows En Hs Hsh Hf]; [congruence| |].
    - destruct (row_convert V of_int conv zero o t v xs ks Hr) as (lf & d & Hl & _). exists [lf]. split; [|eapply st_row; [exact En|exact Hr|eapply rowleaf_type; exact Hl]].
      unfold check_size_and_type. cbn [o stream_opts o_scalar o_kv andb]. fold (stream_opts ot). fold o. destruct (is_kv_pair o v) eqn:E; [apply kv_iff in E; contradiction|]. apply check_rowleaf; [exact Hl|cbn; lia].
    - assert (G : exists lfs, Forall2 (rowleaf o) l lfs).
      { clear Hs Hsh Hv. induction Hf as [|y xs l rows (ks & Hr) _ IH]; [exists []; constructor|]. destruct IH as (lfs & IH). destruct (row_convert V of_int conv zero o t y xs ks Hr) as (lf & d & Hl & _). exists (lf :: lfs). constructor; assumption. }
      destruct G as (lfs & Hl). exists lfs. split.
      + assert (Hne : l <> []) by (destruct Hsh as (l1 & y & l2 & -> & _); destruct l1; discriminate).
        assert (Hsc : exists e, scan o l None = Ok (false, e)).
        { destruct Hsh as (l1 & y & l2 & El & H1 & H2 & H3). assert (Hy : exists lf, rowleaf o y lf).
          { rewrite El in Hl. clear -Hl. revert lfs Hl. induction l1 as [|x l1 IH]; intros lfs Hl; cbn in Hl; inversion Hl; subst; eauto. }
          destruct Hy as (lf & Hy). apply rowleaf_shape in Hy as [Hy1 Hy2]. eapply rows_scan; eauto. }
        destruct Hsc as (e & Hsc).
        assert (Hm : mapM (check_recurse o (0 + 1)) l = Ok (map (fun lf => [lf]) lfs)).
        { apply mapM_ok. clear -Hl. induction Hl as [|y lf l lfs Hy _ IH]; constructor; [apply check_rowleaf; [exact Hy|cbn; lia]|exact IH]. }
        assert (Hcc : concat (map (fun lf => [lf]) lfs) = lfs) by (clear; induction lfs; cbn; [reflexivity|f_equal; assumption]).
        unfold check_size_and_type. cbn [o stream_opts o_scalar o_kv andb]. fold (stream_opts ot). fold o. destruct (is_kv_pair o v) eqn:E; [apply kv_iff in E; contradiction|].
        rewrite check_unfold. cbn [o stream_opts o_nested Z.ltb Z.compare negb]. destruct l as [|y l0]; [congruence|]. destruct Hs as [-> | ->]; fold (stream_opts ot); fold o; rewrite Hsc; cbn [bind]; rewrite Hm; cbn [bind]; rewrite Hcc; reflexivity.
      + apply (st_rows _ _ _ _ v l); auto. clear -Hl. induction Hl as [|y lf l lfs Hy _ IH]; constructor; [eapply rowleaf_type; exact Hy|exact IH].
  Qed.
  Lemma stream_types_rows t v rows is : stream_types of_int conv t v rows is -> stream_rows of_int conv t v rows /\ v <> PNone.
  Proof.
    intros H. destruct H as [v xs ks i En Hr _|v l rows is En Hs Hsh Hf _].
    - split; [eapply sr_row; eassumption|]. eapply row_shape. exact Hr.
    - split; [eapply sr_rows; eassumption|]. destruct Hs as [-> | ->]; discriminate.
  Qed.
  Lemma map_ord (lfs : list (leaf V)) : Forall ordinary (map (@lf_info V) lfs) -> Forall (fun x => ordinary (lf_info x)) lfs.
  Proof. intros H. rewrite Forall_map in H. exact H. Qed.

  (** A stream's types are those of its rows; two ways of reading the data cannot both hold. *)
  Lemma row_types_det (l : list pyval) is js : Forall2 row_type l is -> Forall2 row_type l js -> is = js.
  Proof. intros H. revert js. induction H as [|y i l is Hy _ IH]; intros js Hj; inversion Hj; subst; [reflexivity|]. f_equal; [eapply row_type_det; eassumption|apply IH; assumption]. Qed.

  Lemma row_not_rows t v xs ks l : row false t v xs ks -> sequence v l -> shows_rows l -> (forall y, In y l -> ~ a_number y) -> False.
  Proof.
    intros Hr Hs (l1 & y & l2 & -> & H1 & H2 & _) Hn. inversion Hr as [v' l xs' Hq _ Hf|v' l kx Hq _ Hf|? ? ? ?|? ? ? ?|? ? ? ?]; subst.
    - assert (l = l1 ++ y :: l2) by (destruct Hq as [-> | ->]; destruct Hs as [E|E]; congruence). subst l. apply Forall2_app_inv_l in Hf as (a & b & _ & Hf & _). inversion Hf; subst.
      apply (Hn y); [apply in_or_app; right; left; reflexivity|]. eapply number_a; eassumption.
    - assert (l = l1 ++ y :: l2) by (destruct Hq as [-> | ->]; destruct Hs as [E|E]; congruence). subst l. apply Forall2_app_inv_l in Hf as (a & b & _ & Hf & _). inversion Hf; subst.
      apply H2. destruct (pair_of_ks V of_int conv (stream_opts None) t y (fst y0) (snd y0)) as [_ G]; assumption.
    - destruct Hs as [E|E]; discriminate.
    - destruct Hs as [E|E]; discriminate.
    - destruct Hs as [E|E]; discriminate.
  Qed.
  Lemma rows_not_numbers t (l : list pyval) rows : Forall2 (fun y xs => exists ks, row false t y xs ks) l rows -> forall y, In y l -> ~ a_number y.
  Proof.
    induction 1 as [|x xs l rows (ks & Hr) _ IH]; intros y []; [subst|apply IH; assumption]. apply row_shape in Hr as [_ Hr]. intros Hn. apply is_scalar_iff in Hn. congruence.
  Qed.

  Theorem increments_typed v rows t : plain v = true ->
    (forall is, stream_types of_int conv t v rows is -> Forall ordinary is) ->
    (increments None v = Ok (rows, t) <-> exists is, stream_types of_int conv t v rows is /\ t = common_type is).
  Proof.
    intros Hp Hord. assert (D : v = PNone \/ v <> PNone) by (destruct v; try (right; discriminate); left; reflexivity). destruct D as [-> |D].
    { split; [discriminate|]. intros (is & H & _). apply stream_types_rows in H as [_ H]. congruence. }
    rewrite increments_none by exact D. rewrite increments_exact by exact Hp. split.
    - intros [H (ls & Hc & Ht)]. destruct (stream_leaves None t v rows H D) as (lfs & Hc' & Hs). rewrite Hc in Hc'. injection Hc' as ->. exists (map (@lf_info V) lfs). split; [exact Hs|].
      rewrite compute_common in Ht; [congruence|reflexivity|]. apply map_ord. apply Hord. exact Hs.
    - intros (is & Hs & Ht). destruct (stream_types_rows _ _ _ _ Hs) as [H _]. split; [exact H|]. destruct (stream_leaves None t v rows H D) as (lfs & Hc & Hs'). exists lfs. split; [exact Hc|].
      assert (E : is = map (@lf_info V) lfs).
      { inversion Hs as [v1 xs1 ks1 i1 En1 Hr1 Ht1|v1 l1 r1 is1 En1 Hq1 Hw1 Hf1 Ht1]; subst; inversion Hs' as [v2 xs2 ks2 i2 En2 Hr2 Ht2|v2 l2 r2 is2 En2 Hq2 Hw2 Hf2 Ht2]; subst.
        - f_equal. eapply row_type_det; eassumption.
        - exfalso. eapply (row_not_rows _ v xs1 ks1 l2); eauto using rows_not_numbers.
        - exfalso. eapply (row_not_rows _ v xs2 ks2 l1); eauto using rows_not_numbers.
        - assert (l1 = l2) by (destruct Hq1 as [-> | ->]; destruct Hq2 as [E|E]; congruence). subst. eapply row_types_det; eassumption. }
      subst is. rewrite compute_common; [congruence|reflexivity|]. apply map_ord. apply Hord. exact Hs'.
  Qed.

  Lemma element_leaf tensor t v xs ks : element_data of_int conv tensor t v xs ks -> v <> PNone ->
    exists lf, check_size_and_type (el_opts0 tensor) v = Ok [lf] /\ element_types of_int conv tensor t v xs ks (lf_info lf).
  Proof.
    intros H Hv. set (o := el_opts0 tensor). destruct H as [|v x i Ht Hi Hx|v k x Hx (i & Hi)|v xs ks Hn Hr]; [congruence| | |].
    - eexists. split.
      + unfold check_size_and_type. cbn [o el_opts0 o_scalar andb]. rewrite Ht. rewrite (proj2 (is_scalar_iff V v)) by (eapply number_a; exact Hx). cbn [andb]. rewrite (proj2 (type_info_iff V v i) Hi). reflexivity.
      + cbn [lf_info]. apply et_scalar; assumption.
    - destruct Hx as (a & s & -> & Hk & Hx). eexists. split.
      + unfold check_size_and_type. cbn [o el_opts0 o_scalar o_kv andb is_scalar]. rewrite andb_false_r. fold (el_opts0 tensor). fold o.
        rewrite (proj2 (kv_iff V o (PTuple [a; s]))) by (exists a, s; split; [reflexivity|]; eapply key_a; exact Hk). cbn [second]. rewrite (proj2 (type_info_iff V s i) Hi). reflexivity.
      + cbn [lf_info]. apply et_pair; [exists a, s; auto|exact Hi].
    - destruct (row_shape V of_int conv _ _ _ _ _ Hr) as [_ Hs]. destruct (row_convert V of_int conv zero o t v xs ks Hr) as (lf & d & Hl & _). exists lf. split.
      + unfold check_size_and_type. cbn [o el_opts0 o_scalar o_kv andb]. rewrite Hs, andb_false_r. fold (el_opts0 tensor). fold o. destruct (is_kv_pair o v) eqn:E; [apply kv_iff in E; contradiction|]. apply check_rowleaf; [exact Hl|cbn; lia].
      + eapply et_row; [exact Hn|exact Hr|eapply rowleaf_type; exact Hl].
  Qed.
  Lemma element_types_data tensor t v xs ks i : element_types of_int conv tensor t v xs ks i -> element_data of_int conv tensor t v xs ks /\ v <> PNone.
  Proof.
    intros H. destruct H as [v x i Ht Hi Hx|k s kk x i Hp Hi|v xs ks i Hn Hr Hi].
    - split; [eapply el_scalar; eassumption|intros ->; contradiction].
    - split; [eapply el_pair; [exact Hp|exists i; exact Hi]|discriminate].
    - split; [eapply el_row; eassumption|eapply row_shape; exact Hr].
  Qed.
  Lemma element_types_det tensor t v xs ks xs' ks' i j : element_types of_int conv tensor t v xs ks i -> element_types of_int conv tensor t v xs' ks' j -> i = j.
  Proof.
    intros H1 H2. destruct H1 as [v x i Ht Hi Hx|k s kk x i Hp Hi|v xs ks i Hn Hr Hi]; inversion H2 as [v2 x2 i2 Ht2 Hi2 Hx2|k2 s2 kk2 x2 i2 Hp2 Hi2|v2 xs2 ks2 i2 Hn2 Hr2 Hi2]; subst.
    - eapply known_det; eassumption.
    - contradiction.
    - apply row_shape in Hr2 as [_ Hr2]. rewrite (proj2 (is_scalar_iff V v)) in Hr2 by (eapply number_a; exact Hx). discriminate.
    - contradiction.
    - eapply known_det; eassumption.
    - exfalso. apply Hn2. destruct Hp as (a & b & E & Hk & _). injection E as <- <-. exists k, s. split; [reflexivity|]. eapply key_a; exact Hk.
    - apply row_shape in Hr as [_ Hr]. rewrite (proj2 (is_scalar_iff V v)) in Hr by (eapply number_a; eassumption). discriminate.
    - exfalso. apply Hn. destruct Hp2 as (a & b & E & Hk & _). injection E as <- <-. exists k2, s2. split; [reflexivity|]. eapply key_a; exact Hk.
    - eapply row_type_det; eassumption.
  Qed.
  Theorem coefficients_typed tensor v xs ks t : plain v = true ->
    (forall i, element_types of_int conv tensor t v xs ks i -> ordinary i) ->
    (coefficients (el_opts0 tensor) v = Ok ((xs, ks), t) <-> exists i, element_types of_int conv tensor t v xs ks i /\ t = common_type [i]).
  Proof.
    intros Hp Hord. assert (D : v = PNone \/ v <> PNone) by (destruct v; try (right; discriminate); left; reflexivity). destruct D as [-> |D].
    { split; [discriminate|]. intros (i & H & _). apply element_types_data in H as [_ H]. congruence. }
    rewrite coefficients_none by exact D. rewrite coefficients_exact by exact Hp. split.
    - intros [H (ls & Hc & Ht)]. destruct (element_leaf tensor t v xs ks H D) as (lf & Hc' & He). rewrite Hc in Hc'. injection Hc' as ->. exists (lf_info lf). split; [exact He|].
      rewrite compute_common in Ht; [cbn [map] in Ht; congruence|reflexivity|]. constructor; [apply Hord; exact He|constructor].
    - intros (i & He & Ht). destruct (element_types_data _ _ _ _ _ _ He) as [H _]. split; [exact H|]. destruct (element_leaf tensor t v xs ks H D) as (lf & Hc & He'). exists [lf]. split; [exact Hc|].
      rewrite (element_types_det _ _ _ _ _ _ _ _ _ He He') in Ht. rewrite compute_common; [cbn [map]; congruence|reflexivity|]. constructor; [apply Hord; exact He'|constructor].
  Qed.
End Types.
