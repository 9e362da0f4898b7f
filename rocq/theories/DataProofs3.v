(** Constructors and streams read plain data exactly, and without undefined behaviour. *)
From Verif Require Export DataProofs2.
Open Scope Z_scope.

Section Plain3.
  Variable V : Type.
  Variable of_int : Z -> V.
  Variable conv : stype -> V -> option V.
  Variable zero : stype -> V.
  Notation pyval := (pyval V).
  Notation convert_leaf := (convert_leaf of_int conv zero).
  Notation do_conversion := (do_conversion of_int conv zero).
  Notation parse_argument := (parse_argument of_int conv zero).
  Notation coefficients := (coefficients of_int conv zero).
  Notation increments := (increments of_int conv zero).
  Notation row := (row of_int conv).
  Notation rowleaf := (rowleaf V).

  Lemma do_mapM o t l : do_conversion o t l = mapM (convert_leaf o t) l.
  Proof. induction l as [|x l IH]; [reflexivity|]. simpl. rewrite IH. reflexivity. Qed.
  Lemma kv_iff o (v : pyval) : is_kv_pair o v = true <-> exists k s, v = PTuple [k; s] /\ a_key (o_alt o) k.
  Proof.
    split.
    - intros H. destruct v; try discriminate. destruct l as [|k [|s [|]]]; try discriminate. exists k, s. split; [reflexivity|]. apply is_key_iff. exact H.
    - intros (k & s & -> & H). apply is_key_iff. exact H.
  Qed.
  Lemma parse_some o v : v <> PNone -> parse_argument o v =
    let! leaves := check_size_and_type o v in let! t := compute_scalar_type o leaves in let! d := do_conversion o t leaves in Ok (d, Some t).
  Proof. intros H. destruct v; try reflexivity. congruence. Qed.
  Lemma row_shape b t (v : pyval) xs ks : row b t v xs ks -> v <> PNone /\ is_scalar v = false.
  Proof. intros H. destruct H as [v l xs [-> | ->] _ _|v l kx [-> | ->] _ _|l kx _ _|s l xs _|s l kx _]; split; first [discriminate|reflexivity]. Qed.
  Lemma scalar_leaf o t v i : convert_leaf o t (mkLeaf [1] v 1 i KScalar VVal) = let! x := convert_scalar of_int conv t v in Ok (mkLD [1] [x] None 1 KScalar VVal).
  Proof. unfold DataModel.convert_leaf, handle_scalar. cbn [lf_type lf_obj lf_vt lf_shape lf_size]. destruct (convert_scalar of_int conv t v); reflexivity. Qed.
  Lemma kv_leaf o t v i : is_kv_pair o v = true -> convert_leaf o t (mkLeaf [1] v 1 i KKeyScalar VKeyVal) =
    let! kx := ks_fn V of_int conv o t v in Ok (mkLD [1] [snd kx] (Some [fst kx]) 1 KKeyScalar VKeyVal).
  Proof. intros _. unfold DataModel.convert_leaf. cbn [lf_type lf_obj lf_vt lf_shape lf_size]. rewrite hks. destruct (ks_fn V of_int conv o t v); reflexivity. Qed.
  Lemma scan_rows o (l : list pyval) e : scan o l None = Ok (false, e) -> (forall y, In y l -> ~ a_number y) ->
    exists l1 y l2, l = l1 ++ y :: l2 /\ Forall (a_pair (o_alt o)) l1 /\ ~ a_pair (o_alt o) y /\ (l1 = [] \/ exists m, y = PTuple m).
  Proof.
    intros Hs Hn. destruct (scan_inv V o _ _ _ _ Hs) as [(H & _)|[(H & _)|[(H & _)|[(_ & _ & l1 & y & l2 & -> & H1 & H2 & H3 & H4)|H]]]]; try discriminate.
    - destruct l1 as [|x l1]; [|exfalso; apply (Hn x); [left; reflexivity|inversion H1; assumption]].
      exists [], y, l2. split; [reflexivity|]. split; [constructor|]. split; [|left; reflexivity]. intros Hp. apply a_pair_iff in Hp as (k & s & -> & _). apply (H3 _ eq_refl).
    - destruct H as (_ & _ & l1 & y & l2 & -> & H1 & H2 & m & ->). exists l1, (PTuple m), l2. split; [reflexivity|]. split; [exact H1|]. split; [exact H2|right; exists m; reflexivity].
  Qed.
  Lemma rows_scan o (l : list pyval) l1 y l2 : l = l1 ++ y :: l2 -> Forall (a_pair (o_alt o)) l1 -> ~ a_pair (o_alt o) y -> (l1 = [] \/ exists m, y = PTuple m) ->
    ~ a_number y -> y <> PStr -> exists e, scan o l None = Ok (false, e).
  Proof.
    intros -> H1 H2 H3 H4 H5. assert (D : (exists m, y = PTuple m) \/ (forall m, y <> PTuple m)) by (destruct y; try (right; discriminate); left; eexists; reflexivity).
    destruct D as [(m & ->)|D].
    - eexists. apply scan_false_pairs; assumption.
    - destruct H3 as [-> |(m & ->)]; [|congruence]. eexists. apply (scan_false_vals V o [] l2 y); auto.
  Qed.

  (** *** Lie(data), FreeTensor(data), ShuffleTensor(data) *)
  Definition el_opts (tensor : bool) (t : stype) : dopts := mkOpts (Some t) tensor 1 true tensor true.

  Theorem coefficients_exact tensor t v xs ks : plain v = true ->
    (coefficients (el_opts tensor t) v = Ok ((xs, ks), t) <-> element_data of_int conv tensor t v xs ks).
  Proof.
    intros Hp. split.
    - intros H. unfold DataModel.coefficients in H. apply bind_ok in H as ([d st] & H & Hr).
      assert (D : v = PNone \/ v <> PNone) by (destruct v; try (right; discriminate); left; reflexivity). destruct D as [-> |D].
      { injection H as <- <-. injection Hr as <- <-. constructor. }
      rewrite parse_some in H by exact D. apply bind_ok in H as (ls & Hc & H). cbn [compute_scalar_type el_opts o_type bind] in H. apply bind_ok in H as (d' & Hd & H). injection H as <- <-.
      rewrite do_mapM in Hd. unfold check_size_and_type in Hc. cbn [el_opts o_scalar o_kv andb] in Hc.
      destruct (tensor && is_scalar v) eqn:E1; [|destruct (is_kv_pair (el_opts tensor t) v) eqn:E2].
      + apply andb_true_iff in E1 as [E1 E2]. apply bind_ok in Hc as (i & Hi & Hc). injection Hc as <-. cbn [mapM] in Hd. rewrite scalar_leaf in Hd.
        destruct (convert_scalar of_int conv t v) as [x| | |] eqn:Ex; try discriminate. injection Hd as <-. cbn in Hr. injection Hr as <- <-. apply (el_scalar _ _ _ _ _ v x i); [exact E1|apply type_info_iff; exact Hi|apply convert_scalar_ok; exact Ex].
      + fold (el_opts tensor t) in Hc. try rewrite E2 in Hc. apply bind_ok in Hc as (i & Hi & Hc). injection Hc as <-. cbn [mapM] in Hd. rewrite kv_leaf in Hd by exact E2.
        apply kv_iff in E2 as (k & s & -> & Hk). unfold ks_fn in Hd. destruct (convert_key _ k) as [k'| | |] eqn:Ek; try discriminate. cbn [bind] in Hd.
        destruct (convert_scalar of_int conv t s) as [x| | |] eqn:Ex; try discriminate. injection Hd as <-. cbn in Hr. injection Hr as <- <-.
        apply el_pair; [exists k, s; split; [reflexivity|]; split; [apply convert_key_ok in Ek; exact Ek|apply convert_scalar_ok; exact Ex]|]. exists i. apply type_info_iff. exact Hi.
      + fold (el_opts tensor t) in Hc. try rewrite E2 in Hc. destruct (check_inv V _ 0 v ls Hp Hc) as [_ [(lf & -> & Hl)|(l & e & lss & Hs & Hn & _ & Hm & _)]].
        * cbn [mapM] in Hd. destruct (convert_leaf (el_opts tensor t) t lf) as [d| | |] eqn:Ed; try discriminate. injection Hd as <-. cbn in Hr. injection Hr as <- <-.
          apply el_row; [|apply (convert_row V of_int conv zero (el_opts tensor t) t v lf d Hl Ed)].
          intros Hx. apply (kv_iff (el_opts tensor t)) in Hx. congruence.
        * destruct l as [|y l]; [congruence|]. cbn [mapM] in Hm. rewrite check_deep in Hm by (cbn; lia). discriminate.
    - intros H. destruct H as [|v x i Ht Hi Hx|v k x Hx (i & Hi)|v xs ks Hn Hr].
      + reflexivity.
      + unfold DataModel.coefficients. assert (Hv : is_scalar v = true) by (apply is_scalar_iff; eapply number_a; exact Hx). rewrite parse_some by (intros ->; discriminate).
        unfold check_size_and_type. cbn [el_opts o_scalar andb]. rewrite Ht, Hv. cbn [andb]. rewrite (proj2 (type_info_iff V v i) Hi). cbn [bind compute_scalar_type o_type el_opts].
        rewrite do_mapM. cbn [mapM]. rewrite scalar_leaf. rewrite (proj2 (convert_scalar_ok V of_int conv t v x) Hx). reflexivity.
      + destruct Hx as (a & s & -> & Hk & Hx). unfold DataModel.coefficients. rewrite parse_some by discriminate. unfold check_size_and_type. cbn [el_opts o_scalar o_kv andb is_scalar]. rewrite andb_false_r.
        assert (Hkv : is_kv_pair (el_opts tensor t) (PTuple [a; s]) = true) by (apply kv_iff; exists a, s; split; [reflexivity|]; eapply key_a; exact Hk).
        fold (el_opts tensor t). rewrite Hkv. cbn [second]. rewrite (proj2 (type_info_iff V s i) Hi). cbn [bind compute_scalar_type o_type el_opts]. fold (el_opts tensor t).
        rewrite do_mapM. cbn [mapM]. rewrite kv_leaf by exact Hkv. unfold ks_fn. rewrite (proj2 (convert_key_ok V (el_opts tensor t) a k) Hk). cbn [bind].
        rewrite (proj2 (convert_scalar_ok V of_int conv t s x) Hx). reflexivity.
      + destruct (row_shape _ _ _ _ _ Hr) as [D Hs]. destruct (row_convert V of_int conv zero (el_opts tensor t) t v xs ks Hr) as (lf & d & Hl & Hc & <- & <- & _).
        unfold DataModel.coefficients. rewrite parse_some by exact D. unfold check_size_and_type. cbn [el_opts o_scalar o_kv andb]. rewrite Hs, andb_false_r. fold (el_opts tensor t).
        destruct (is_kv_pair (el_opts tensor t) v) eqn:E; [apply kv_iff in E; contradiction|]. rewrite (check_rowleaf V (el_opts tensor t) v lf 0 Hl) by (cbn; lia).
        cbn [bind compute_scalar_type o_type el_opts]. fold (el_opts tensor t). rewrite do_mapM. cbn [mapM]. rewrite Hc. reflexivity.
  Qed.

  (** *** from_increments *)
  Lemma fill_rows (ds : list (leafdata V)) : Forall (fun d => ld_type d = KSeq \/ ld_type d = KDict \/ ld_type d = KLie) ds -> fill_ks_stream ds = Ok (map (@ld_vals V) ds).
  Proof. induction 1 as [|d ds H _ IH]; [reflexivity|]. cbn [fill_ks_stream map]. rewrite IH. unfold leaf_rows. destruct H as [-> |[-> | ->]]; reflexivity. Qed.
  Lemma rowleaf_shape o v lf : rowleaf o v lf -> ~ a_number v /\ v <> PStr.
  Proof. intros H. destruct H as [v l i x r [-> | ->] _ _ _|v l i x r [-> | ->] _ _ _|? ? ? ? ? _ _ _|? ?|? ?]; split; first [discriminate|intros []]. Qed.

  Lemma rows_leaves o d l lss : o_nested o = d + 1 -> forallb plain l = true -> mapM (check_recurse o d) l = Ok lss ->
    exists lfs, concat lss = lfs /\ Forall2 (rowleaf o) l lfs.
  Proof.
    intros Hd. revert lss. induction l as [|y l IH]; intros lss Hp Hm.
    - injection Hm as <-. exists []. split; [reflexivity|constructor].
    - cbn [mapM] in Hm. cbn [forallb] in Hp. apply andb_true_iff in Hp as [Hy Hp]. apply bind_ok in Hm as (ly & Hc & Hm). apply bind_ok in Hm as (lr & Hr & Hm). injection Hm as <-.
      destruct (IH lr Hp Hr) as (lfs & <- & Hf). destruct (check_inv V _ _ _ _ Hy Hc) as [_ [(lf & -> & Hl)|(m & e & ? & _ & Hn & _ & Hm & _)]].
      + exists (lf :: concat lr). split; [reflexivity|constructor; assumption].
      + destruct m as [|z m]; [congruence|]. cbn [mapM] in Hm. rewrite check_deep in Hm by lia. discriminate.
  Qed.

  Theorem increments_exact t v rows : plain v = true -> (increments (Some t) v = Ok (rows, t) <-> stream_rows of_int conv t v rows).
  Proof.
    intros Hp. set (o := stream_opts (Some t)). split.
    - intros H. unfold DataModel.increments in H. apply bind_ok in H as ([d st] & H & Hr). apply bind_ok in Hr as (rows' & Hf & Hr). 
      assert (D : v = PNone \/ v <> PNone) by (destruct v; try (right; discriminate); left; reflexivity). destruct D as [-> |D].
      { injection H as <- <-. injection Hr as <-. injection Hf as <-. constructor. }
      fold o in H. rewrite parse_some in H by exact D. apply bind_ok in H as (ls & Hc & H). cbn [compute_scalar_type o stream_opts o_type bind] in H. fold o in H. apply bind_ok in H as (d' & Hd & H). injection H as <- <-.
      injection Hr as <-. rewrite do_mapM in Hd. unfold check_size_and_type in Hc. cbn [o stream_opts o_scalar o_kv andb] in Hc. fold (stream_opts (Some t)) in Hc. fold o in Hc.
      destruct (is_kv_pair o v) eqn:E.
      + apply bind_ok in Hc as (i & Hi & Hc). injection Hc as <-. cbn [mapM] in Hd. rewrite kv_leaf in Hd by exact E. destruct (ks_fn V of_int conv o t v); try discriminate. injection Hd as <-. discriminate.
      + assert (En : ~ (exists k s, v = PTuple [k; s] /\ a_key false k)) by (intros Hx; apply (kv_iff o) in Hx; congruence).
        destruct (check_inv V _ 0 v ls Hp Hc) as [_ [(lf & -> & Hl)|(l & e & lss & Hs & Hn & Hsc & Hm & ->)]].
        * cbn [mapM] in Hd. destruct (convert_leaf o t lf) as [d| | |] eqn:Ed; try discriminate. injection Hd as <-. destruct (convert_row V of_int conv zero o t v lf d Hl Ed) as [Hr Ht].
          rewrite fill_rows in Hf by (constructor; [exact Ht|constructor]). injection Hf as <-. eapply sr_row; [exact En|exact Hr].
        * assert (Hpl : forallb plain l = true) by (destruct Hs as [-> | ->]; exact Hp). destruct (rows_leaves o (0 + 1) l lss eq_refl Hpl Hm) as (lfs & E1 & Hl). rewrite E1 in Hd.
          apply mapM_ok in Hd.
          assert (G : Forall (fun d => ld_type d = KSeq \/ ld_type d = KDict \/ ld_type d = KLie) d' /\ Forall2 (fun y xs => exists ks, row false t y xs ks) l (map (@ld_vals V) d')).
          { clear -Hl Hd. revert d' Hd. induction Hl as [|y lf l lfs Hy Hl IH]; intros d' Hd; inversion Hd as [|? d ? ds Hc Hds]; subst; [split; constructor|].
            destruct (IH ds Hds) as [A B]. destruct (convert_row V of_int conv zero o t y lf d Hy Hc) as [Hr Ht]. split; [constructor; assumption|]. cbn [map]. constructor; [eexists; exact Hr|exact B]. }
          destruct G as [G1 G2]. rewrite fill_rows in Hf by exact G1. injection Hf as <-. apply (sr_rows _ _ _ _ v l); [exact En|exact Hs| |exact G2].
          apply (scan_rows o l e Hsc). intros y Hy Hn'. apply In_nth_error in Hy as (n & Hy). clear -Hl Hy Hn'. revert n Hy. induction Hl as [|z lf l lfs Hz Hl IH]; intros [|n] Hy; cbn in Hy; try discriminate.
          -- injection Hy as ->. apply rowleaf_shape in Hz. tauto.
          -- eapply IH; exact Hy.
    - intros H. destruct H as [|v xs ks En Hr|v l rows En Hs Hsh Hf].
      + reflexivity.
      + destruct (row_shape _ _ _ _ _ Hr) as [D _]. destruct (row_convert V of_int conv zero o t v xs ks Hr) as (lf & d & Hl & Hc & <- & <- & Ht).
        unfold DataModel.increments. fold o. rewrite parse_some by exact D. unfold check_size_and_type. cbn [o stream_opts o_scalar o_kv andb]. fold (stream_opts (Some t)). fold o.
        destruct (is_kv_pair o v) eqn:E; [apply kv_iff in E; contradiction|]. rewrite (check_rowleaf V o v lf 0 Hl) by (cbn; lia).
        cbn [bind compute_scalar_type o_type o stream_opts]. fold (stream_opts (Some t)). fold o. rewrite do_mapM. cbn [mapM]. rewrite Hc. cbn [bind]. rewrite fill_rows by (constructor; [exact Ht|constructor]). reflexivity.
      + assert (G : exists lfs ds, Forall2 (rowleaf o) l lfs /\ mapM (convert_leaf o t) lfs = Ok ds /\ map (@ld_vals V) ds = rows /\ Forall (fun d => ld_type d = KSeq \/ ld_type d = KDict \/ ld_type d = KLie) ds).
        { clear Hp Hs Hsh. induction Hf as [|y xs l rows (ks & Hr) _ IH]; [exists [], []; repeat split; constructor|]. destruct IH as (lfs & ds & H1 & H2 & <- & H3).
          destruct (row_convert V of_int conv zero o t y xs ks Hr) as (lf & d & Hl & Hc & <- & <- & Ht). exists (lf :: lfs), (d :: ds).
          split; [constructor; assumption|]. split; [cbn [mapM]; rewrite Hc; cbn [bind]; rewrite H2; reflexivity|]. split; [reflexivity|constructor; assumption]. }
        destruct G as (lfs & ds & Hl & Hd & <- & Ht).
        assert (Hne : l <> []) by (destruct Hsh as (l1 & y & l2 & -> & _); destruct l1; discriminate).
        assert (Hsc : exists e, scan o l None = Ok (false, e)).
        { destruct Hsh as (l1 & y & l2 & El & H1 & H2 & H3). assert (Hy : exists lf, rowleaf o y lf).
          { rewrite El in Hl. clear -Hl. revert lfs Hl. induction l1 as [|x l1 IH]; intros lfs Hl; cbn in Hl; inversion Hl; subst; eauto. }
          destruct Hy as (lf & Hy). apply rowleaf_shape in Hy as [Hy1 Hy2]. eapply rows_scan; eauto. }
        destruct Hsc as (e & Hsc).
        assert (Hm : mapM (check_recurse o (0 + 1)) l = Ok (map (fun lf => [lf]) lfs)).
        { apply mapM_ok. clear -Hl. induction Hl as [|y lf l lfs Hy _ IH]; constructor; [apply check_rowleaf; [exact Hy|cbn; lia]|exact IH]. }
        assert (Hcc : concat (map (fun lf => [lf]) lfs) = lfs) by (clear; induction lfs; cbn; [reflexivity|f_equal; assumption]).
        assert (Hck : check_recurse o 0 v = Ok lfs).
        { rewrite check_unfold. cbn [o stream_opts o_nested Z.ltb Z.compare negb]. destruct l as [|y l0]; [congruence|]. destruct Hs as [-> | ->]; fold (stream_opts (Some t)); fold o; rewrite Hsc; cbn [bind]; rewrite Hm; cbn [bind]; rewrite Hcc; reflexivity. }
        unfold DataModel.increments. fold o. rewrite parse_some by (destruct Hs as [-> | ->]; discriminate). unfold check_size_and_type. cbn [o stream_opts o_scalar o_kv andb]. fold (stream_opts (Some t)). fold o.
        destruct (is_kv_pair o v) eqn:E; [apply kv_iff in E; contradiction|]. rewrite Hck.
        cbn [bind compute_scalar_type o_type o stream_opts]. fold (stream_opts (Some t)). fold o. rewrite do_mapM, Hd. cbn [bind]. rewrite fill_rows by exact Ht. reflexivity.
  Qed.

  (** *** Without arrays there is no undefined behaviour *)
  Lemma ks_fn_good o t v : good (ks_fn V of_int conv o t v).
  Proof.
    unfold ks_fn. destruct v; try apply good_throw. destruct l as [|k [|s r]]; try apply good_throw.
    apply good_bind; [apply convert_key_good|intros k' _]. apply good_bind; [apply convert_scalar_good|intros x _; apply good_ok].
  Qed.
  Lemma convert_row_good o t v lf : rowleaf o v lf -> good (convert_leaf o t lf).
  Proof.
    intros H. destruct H as [v l i x r Hs Hl Hf Hi|v l i x r Hs Hl Hf Hi|kv i k x r Hl Hf Hi|s l|s l].
    - rewrite convert_seq_vals by exact Hs. apply good_bind; [apply good_mapM; intros; apply convert_scalar_good|intros; apply good_ok].
    - rewrite convert_seq_pairs by (first [exact Hs|subst; discriminate]). apply good_bind; [apply good_mapM; intros; apply ks_fn_good|intros; apply good_ok].
    - rewrite convert_dict by (subst; discriminate). apply good_bind; [apply good_mapM; intros|intros; apply good_ok].
      unfold kv_fn. apply good_bind; [apply convert_key_good|intros k' _]. apply good_bind; [apply convert_scalar_good|intros; apply good_ok].
    - rewrite convert_lied. apply good_bind; [|intros; apply good_ok]. destruct (stype_eqb s t); [apply good_ok|]. apply good_mapM. intros a _. destruct (conv t a); [apply good_ok|apply good_throw].
    - rewrite convert_lies. apply good_bind; [|intros; apply good_ok]. apply good_mapM. intros a _. unfold ls_fn. destruct (conv t (snd a)); [apply good_ok|apply good_throw].
  Qed.

  (** Induction on data. *)
  Fixpoint pysize (v : pyval) : nat :=
    match v with PTuple l | PList l => S (fold_right (fun x n => pysize x + n)%nat O l) | _ => 1%nat end.
  Lemma pysize_in x l : In x l -> (pysize x <= fold_right (fun x n => pysize x + n)%nat O l)%nat.
  Proof. induction l as [|y l IH]; intros []; cbn; [subst; lia|specialize (IH H); lia]. Qed.
  Lemma check_good o v : plain v = true -> forall d, good (check_recurse o d v) /\ forall ls, check_recurse o d v = Ok ls -> Forall (fun lf => exists y, rowleaf o y lf) ls.
  Proof.
    remember (pysize v) as n eqn:En. assert (Hle : (pysize v <= n)%nat) by lia. clear En. revert v Hle. induction n as [|n IH]; intros v Hle Hp d; [destruct v; cbn in Hle; lia|].
    assert (S : forall l, sequence v l -> forallb plain l = true -> (fold_right (fun x n => pysize x + n)%nat O l <= n)%nat ->
       good (mapM (check_recurse o (d + 1)) l) /\ forall lss, mapM (check_recurse o (d + 1)) l = Ok lss -> Forall (fun lf => exists y, rowleaf o y lf) (concat lss)).
    { intros l _ Hpl Hsz. split.
      - apply good_mapM. intros a Ha. apply IH; [pose proof (pysize_in a l Ha); lia|]. rewrite forallb_forall in Hpl. apply Hpl. exact Ha.
      - intros lss Hm. apply mapM_ok in Hm. assert (Hin : forall a, In a l -> forall ls, check_recurse o (d + 1) a = Ok ls -> Forall (fun lf => exists y, rowleaf o y lf) ls).
        { intros a Ha. apply IH; [pose proof (pysize_in a l Ha); lia|]. rewrite forallb_forall in Hpl. apply Hpl. exact Ha. }
        clear -Hm Hin. induction Hm as [|a ls l lss Ha _ IHm]; [constructor|]. cbn [concat]. apply Forall_app. split; [apply (Hin a); [left; reflexivity|exact Ha]|]. apply IHm. intros; eapply Hin; [right; eassumption|eassumption]. }
    split.
    - rewrite check_unfold. destruct (negb _); [apply good_throw|].
      assert (Q : forall l, sequence v l -> forallb plain l = true -> (fold_right (fun x n => pysize x + n)%nat O l <= n)%nat ->
        good (match l with [] => Throw | x :: _ =>
          let! (is_leaf, expected) := scan o l None in
          if (is_leaf : bool) then
            match expected with
            | Some VKeyVal => let! i := type_info_from (second x) in Ok [mkLeaf [llen l] v (llen l) i KSeq VKeyVal]
            | _ => let! i := type_info_from x in Ok [mkLeaf [llen l] v (llen l) i KSeq VVal]
            end
          else let! r := mapM (check_recurse o (d + 1)) l in Ok (concat r) end)).
      { intros l Hs Hpl Hsz. destruct l as [|x l0]; [apply good_throw|]. apply good_bind; [apply scan_good|]. intros [b e] _. destruct b.
        - destruct e as [[]|]; (apply good_bind; [apply type_info_good|intros; apply good_ok]).
        - apply good_bind; [apply (S _ Hs Hpl Hsz)|intros; apply good_ok]. }
      destruct v; try apply good_throw; try apply good_ok; try discriminate.
      + apply (Q l); [right; reflexivity|exact Hp|cbn in Hle; lia].
      + apply (Q l); [left; reflexivity|exact Hp|cbn in Hle; lia].
      + destruct kv as [|[k x] kv]; [apply good_throw|]. destruct (forallb _ _); [|apply good_throw]. apply good_bind; [apply type_info_good|intros; apply good_ok].
    - intros ls Hc. destruct (check_inv V o d v ls Hp Hc) as [_ [(lf & -> & Hl)|(l & e & lss & Hs & Hn & Hsc & Hm & ->)]].
      + constructor; [exists v; exact Hl|constructor].
      + refine (proj2 (S l Hs _ _) lss Hm); destruct Hs as [-> | ->]; first [exact Hp|cbn in Hle; lia].
  Qed.

  Lemma promotion_good a b : good (compute_type_promotion a b).
  Proof.
    unfold compute_type_promotion, compute_int_promotion, compute_float_promotion, compute_bfloat_promotion.
    repeat match goal with |- good (match ?x with _ => _ end) => destruct x | |- good (if ?x then _ else _) => destruct x end; first [apply good_ok|apply good_throw].
  Qed.
  Lemma promote_good (l : list (leaf V)) : forall i, good (promote_all i l).
  Proof. induction l as [|x l IH]; intros i; cbn [promote_all]; [apply good_ok|]. apply good_bind; [apply promotion_good|intros; apply IH]. Qed.
  Lemma for_info_good i : good (for_info i).
  Proof. unfold for_info. repeat match goal with |- good (match ?x with _ => _ end) => destruct x | |- good (if ?x then _ else _) => destruct x end; first [apply good_ok|apply good_throw]. Qed.
  Lemma compute_type_good o (l : list (leaf V)) : good (compute_scalar_type o l).
  Proof. unfold compute_scalar_type. destruct (o_type o); [apply good_ok|]. apply good_bind; [apply promote_good|intros; apply for_info_good]. Qed.

  Lemma convert_type o t lf d : convert_leaf o t lf = Ok d -> ld_type d = lf_type lf.
  Proof.
    unfold DataModel.convert_leaf. intros H.
    repeat match type of H with
    | match ?x with _ => _ end = _ => destruct x eqn:?
    | (let! _ := ?x in _) = _ => apply bind_ok in H as (? & ? & H)
    | Ok _ = Ok _ => injection H as <-; cbn; auto
    | _ => try discriminate
    end.
  Qed.
  Definition array_kind (k : leaf_type) : bool := match k with KDl | KBuf => true | _ => false end.
  Lemma rowleaf_kind o v lf : rowleaf o v lf -> array_kind (lf_type lf) = false.
  Proof. intros H; destruct H; reflexivity. Qed.
  Theorem parse_good o v : plain v = true -> good (parse_argument o v) /\ forall d st, parse_argument o v = Ok (d, st) -> Forall (fun x => array_kind (ld_type x) = false) d.
  Proof.
    intros Hp. assert (D : v = PNone \/ v <> PNone) by (destruct v; try (right; discriminate); left; reflexivity). destruct D as [-> |D].
    { cbn. destruct (o_none o); split; try (first [apply good_ok|apply good_throw]); intros d st H; try discriminate. injection H as <- _. constructor. }
    rewrite parse_some by exact D.
    assert (C : good (check_size_and_type o v) /\ forall ls, check_size_and_type o v = Ok ls -> forall t, Forall (fun lf => good (convert_leaf o t lf) /\ array_kind (lf_type lf) = false) ls).
    { unfold check_size_and_type. destruct (o_scalar o && is_scalar v) eqn:E1; [|destruct (o_kv o && is_kv_pair o v) eqn:E2].
      - split; [apply good_bind; [apply type_info_good|intros; apply good_ok]|]. intros ls H t. apply bind_ok in H as (i & _ & H). injection H as <-. constructor; [|constructor]. split; [|reflexivity].
        rewrite scalar_leaf. apply good_bind; [apply convert_scalar_good|intros; apply good_ok].
      - split; [apply good_bind; [apply type_info_good|intros; apply good_ok]|]. intros ls H t. apply bind_ok in H as (i & _ & H). injection H as <-. constructor; [|constructor]. split; [|reflexivity].
        apply andb_true_iff in E2 as [_ E2]. rewrite kv_leaf by exact E2. apply good_bind; [apply ks_fn_good|intros; apply good_ok].
      - destruct (check_good o v Hp 0) as [A B]. split; [exact A|]. intros ls H t. eapply Forall_impl; [|exact (B ls H)]. intros lf (y & Hy). split; [eapply convert_row_good; exact Hy|eapply rowleaf_kind; exact Hy]. }
    destruct C as [C1 C2]. split.
    - apply good_bind; [exact C1|]. intros ls Hls. apply good_bind; [apply compute_type_good|]. intros t _. apply good_bind; [|intros; apply good_ok].
      rewrite do_mapM. apply good_mapM. intros a Ha. specialize (C2 ls Hls t). rewrite Forall_forall in C2. apply C2. exact Ha.
    - intros d st H. apply bind_ok in H as (ls & Hls & H). apply bind_ok in H as (t & _ & H). apply bind_ok in H as (d' & Hd & H). injection H as <- <-.
      specialize (C2 ls Hls t). rewrite do_mapM in Hd. apply mapM_ok in Hd. clear -Hd C2. induction Hd as [|lf d ls ds H _ IH]; [constructor|]. inversion C2 as [|? ? [_ Hk] Hr]; subst.
      constructor; [rewrite (convert_type _ _ _ _ H); exact Hk|apply IH; exact Hr].
  Qed.
  Theorem plain_safe o t v : plain v = true ->
    coefficients o v <> UB /\ coefficients o v <> NoFuel /\ increments t v <> UB /\ increments t v <> NoFuel.
  Proof.
    intros Hp. assert (A : good (coefficients o v)).
    { unfold DataModel.coefficients. apply good_bind; [apply parse_good; exact Hp|]. intros [d st] _. destruct st; [apply good_ok|apply good_throw]. }
    assert (B : good (increments t v)).
    { unfold DataModel.increments. apply good_bind; [apply parse_good; exact Hp|]. intros [d st] H. destruct (parse_good (stream_opts t) v Hp) as [_ G]. specialize (G d st H).
      apply good_bind; [|intros; destruct st; [apply good_ok|apply good_throw]]. clear -G. induction G as [|x d Hx _ IH]; [apply good_ok|]. cbn [fill_ks_stream].
      apply good_bind; [unfold leaf_rows; destruct (ld_type x); try discriminate; first [apply good_ok|apply good_throw]|intros]. apply good_bind; [exact IH|intros; apply good_ok]. }
    destruct A, B. auto.
  Qed.
End Plain3.
