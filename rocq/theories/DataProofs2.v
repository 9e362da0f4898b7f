(** Plain data is read exactly as specified. *)
From Verif Require Export DataProofs.
Open Scope Z_scope.

Section Plain2.
  Variable V : Type.
  Variable of_int : Z -> V.
  Variable conv : stype -> V -> option V.
  Variable zero : stype -> V.
  Notation pyval := (pyval V).
  Notation convert_scalar := (convert_scalar of_int conv).
  Notation number := (number of_int conv).
  Notation convert_leaf := (convert_leaf of_int conv zero).
  Notation do_conversion := (do_conversion of_int conv zero).
  Notation row := (row of_int conv).

  Lemma check_unfold o d (v : pyval) : check_recurse o d v =
    if negb (d <? o_nested o) then Throw else
    match v with
    | PLieD t l => Ok [mkLeaf [llen l] v (llen l) (st_info t) KLie VVal]
    | PLieS t l => Ok [mkLeaf [llen l] v (llen l) (st_info t) KLie VKeyVal]
    | PDl a => check_array o a KDl v d
    | PBuf a => check_array o a KBuf v d
    | PDict kv =>
      match kv with
      | [] => Throw
      | (_, x) :: _ =>
        if forallb (fun p => is_scalar (snd p) && is_key o (fst p)) kv then
          let! i := type_info_from x in
          Ok [mkLeaf [llen kv] v (llen kv) i KDict VKeyVal]
        else Throw
      end
    | PTuple l | PList l =>
      match l with
      | [] => Throw
      | x :: _ =>
        let! (is_leaf, expected) := scan o l None in
        if (is_leaf : bool) then
          match expected with
          | Some VKeyVal => let! i := type_info_from (second x) in Ok [mkLeaf [llen l] v (llen l) i KSeq VKeyVal]
          | _ => let! i := type_info_from x in Ok [mkLeaf [llen l] v (llen l) i KSeq VVal]
          end
        else let! r := mapM (check_recurse o (d + 1)) l in Ok (concat r)
      end
    | _ => Throw
    end.
  Proof.
    assert (G : forall l, (fix go (l : list pyval) : outcome (list (leaf V)) :=
            match l with
            | [] => Ok []
            | y :: l' => let! a := check_recurse o (d + 1) y in let! b := go l' in Ok (a ++ b)
            end) l = let! r := mapM (check_recurse o (d + 1)) l in Ok (concat r)).
    { induction l as [|y l IH]; [reflexivity|]. cbn [mapM]. destruct (check_recurse o (d + 1) y); try reflexivity. cbn [bind]. rewrite IH. destruct (mapM _ l); reflexivity. }
    destruct v; try reflexivity; cbn [check_recurse]; destruct (negb _); try reflexivity; destruct l as [|x l]; try reflexivity;
      destruct (scan o (x :: l) None) as [[[] ?]| | |]; try reflexivity; cbn [bind]; exact (G (x :: l)).
  Qed.
  Lemma check_deep o d (v : pyval) : o_nested o <= d -> check_recurse o d v = Throw.
  Proof. intros H. rewrite check_unfold. destruct (d <? o_nested o) eqn:E; [apply Z.ltb_lt in E; lia|]. reflexivity. Qed.

  Inductive rowleaf (o : dopts) : pyval -> leaf V -> Prop :=
  | rl_vals v l i x r : sequence v l -> l = x :: r -> Forall a_number l -> type_info_from x = Ok i -> rowleaf o v (mkLeaf [llen l] v (llen l) i KSeq VVal)
  | rl_pairs v l i x r : sequence v l -> l = x :: r -> Forall (a_pair (o_alt o)) l -> type_info_from (second x) = Ok i -> rowleaf o v (mkLeaf [llen l] v (llen l) i KSeq VKeyVal)
  | rl_dict kv i k x r : kv = (k, x) :: r -> Forall (fun p => a_number (snd p) /\ a_key (o_alt o) (fst p)) kv -> type_info_from x = Ok i ->
      rowleaf o (PDict kv) (mkLeaf [llen kv] (PDict kv) (llen kv) i KDict VKeyVal)
  | rl_lied s l : rowleaf o (PLieD s l) (mkLeaf [llen l] (PLieD s l) (llen l) (st_info s) KLie VVal)
  | rl_lies s l : rowleaf o (PLieS s l) (mkLeaf [llen l] (PLieS s l) (llen l) (st_info s) KLie VKeyVal).

  Lemma check_rowleaf o v lf d : rowleaf o v lf -> d < o_nested o -> check_recurse o d v = Ok [lf].
  Proof.
    intros H Hd. rewrite check_unfold. replace (d <? o_nested o) with true by (symmetry; apply Z.ltb_lt; exact Hd). cbn [negb].
    destruct H as [v l i x r Hs Hl Hf Hi|v l i x r Hs Hl Hf Hi|kv i k x r Hl Hf Hi|s l|s l].
    - assert (E : (match l with [] => Throw | x :: _ =>
          let! (is_leaf, expected) := scan o l None in
          if (is_leaf : bool) then
            match expected with
            | Some VKeyVal => let! i := type_info_from (second x) in Ok [mkLeaf [llen l] v (llen l) i KSeq VKeyVal]
            | _ => let! i := type_info_from x in Ok [mkLeaf [llen l] v (llen l) i KSeq VVal]
            end
          else let! r := mapM (check_recurse o (d + 1)) l in Ok (concat r) end) = Ok [mkLeaf [llen l] v (llen l) i KSeq VVal]).
      { rewrite scan_true_vals by (first [discriminate|assumption]). subst l. cbn [bind]. rewrite Hi. reflexivity. }
      destruct Hs as [-> | ->]; exact E.
    - assert (E : (match l with [] => Throw | x :: _ =>
          let! (is_leaf, expected) := scan o l None in
          if (is_leaf : bool) then
            match expected with
            | Some VKeyVal => let! i := type_info_from (second x) in Ok [mkLeaf [llen l] v (llen l) i KSeq VKeyVal]
            | _ => let! i := type_info_from x in Ok [mkLeaf [llen l] v (llen l) i KSeq VVal]
            end
          else let! r := mapM (check_recurse o (d + 1)) l in Ok (concat r) end) = Ok [mkLeaf [llen l] v (llen l) i KSeq VKeyVal]).
      { rewrite scan_true_pairs by (first [discriminate|assumption]). subst l. cbn [bind]. rewrite Hi. reflexivity. }
      destruct Hs as [-> | ->]; exact E.
    - assert (Hb : forallb (fun p => is_scalar (snd p) && is_key o (fst p)) kv = true).
      { apply forallb_forall. intros p Hp. rewrite Forall_forall in Hf. destruct (Hf p Hp) as [H1 H2]. apply is_scalar_iff in H1. apply is_key_iff in H2. rewrite H1, H2. reflexivity. }
      rewrite Hb, Hl. rewrite Hi. reflexivity.
    - reflexivity.
    - reflexivity.
  Qed.

  Lemma check_inv o d v ls : plain v = true -> check_recurse o d v = Ok ls -> d < o_nested o /\
    ((exists lf, ls = [lf] /\ rowleaf o v lf) \/
     (exists l e lss, sequence v l /\ l <> [] /\ scan o l None = Ok (false, e) /\ mapM (check_recurse o (d + 1)) l = Ok lss /\ ls = concat lss)).
  Proof.
    intros Hp H. rewrite check_unfold in H. destruct (d <? o_nested o) eqn:Ed; [|discriminate]. apply Z.ltb_lt in Ed. split; [exact Ed|]. cbn [negb] in H.
    assert (S : forall l, sequence v l -> (match l with [] => Throw | x :: _ =>
          let! (is_leaf, expected) := scan o l None in
          if (is_leaf : bool) then
            match expected with
            | Some VKeyVal => let! i := type_info_from (second x) in Ok [mkLeaf [llen l] v (llen l) i KSeq VKeyVal]
            | _ => let! i := type_info_from x in Ok [mkLeaf [llen l] v (llen l) i KSeq VVal]
            end
          else let! r := mapM (check_recurse o (d + 1)) l in Ok (concat r) end) = Ok ls ->
       (exists lf, ls = [lf] /\ rowleaf o v lf) \/
       (exists l e lss, sequence v l /\ l <> [] /\ scan o l None = Ok (false, e) /\ mapM (check_recurse o (d + 1)) l = Ok lss /\ ls = concat lss)).
    { intros l Hs G. destruct l as [|x r]; [discriminate|]. apply bind_ok in G as ([b e] & Hsc & G).
      destruct (scan_inv V o _ _ _ _ Hsc) as [(-> & E & _)|[(-> & _ & _ & Hf & ->)|[(-> & _ & _ & Hf & ->)|[(-> & _ & _)|(-> & _ & _)]]]].
      - discriminate.
      - apply bind_ok in G as (i & Hi & G). injection G as <-. left. eexists. split; [reflexivity|]. eapply rl_vals; eauto.
      - apply bind_ok in G as (i & Hi & G). injection G as <-. left. eexists. split; [reflexivity|]. eapply rl_pairs; eauto.
      - right. apply bind_ok in G as (lss & Hl & G). injection G as <-. exists (x :: r), e, lss. repeat split; auto; discriminate.
      - right. apply bind_ok in G as (lss & Hl & G). injection G as <-. exists (x :: r), e, lss. repeat split; auto; discriminate. }
    destruct v; try discriminate.
    - apply (S l); [right; reflexivity|exact H].
    - apply (S l); [left; reflexivity|exact H].
    - destruct kv as [|[k x] r] eqn:Ekv; [discriminate|]. rewrite <- Ekv in *. destruct (forallb _ kv) eqn:Ef; [|discriminate].
      apply bind_ok in H as (i & Hi & H). injection H as <-. left. eexists. split; [reflexivity|]. eapply rl_dict; [exact Ekv| |exact Hi].
      rewrite Forall_forall. intros p Hpin. rewrite forallb_forall in Ef. apply Ef in Hpin. apply andb_true_iff in Hpin as [H1 H2]. split; [apply is_scalar_iff; exact H1|apply is_key_iff; exact H2].
    - injection H as <-. left. eexists. split; [reflexivity|constructor].
    - injection H as <-. left. eexists. split; [reflexivity|constructor].
  Qed.

  (** *** Converting a row *)
  Definition ks_fn (o : dopts) (t : stype) (v : pyval) : outcome (Z * V) :=
    match v with PTuple (k :: s :: _) => let! k := convert_key o k in let! x := convert_scalar t s in Ok (k, x) | _ => Throw end.
  Lemma hks o t v f : handle_key_scalar of_int conv o t v f = let! x := ks_fn o t v in push_key (fst x) (snd x) f.
  Proof. destruct v; try reflexivity. destruct l as [|k [|s r]]; try reflexivity. simpl. destruct (convert_key o k); try reflexivity. simpl. destruct (convert_scalar t s); reflexivity. Qed.
  Definition kv_fn (o : dopts) (t : stype) (p : pyval * pyval) : outcome (Z * V) := let! k := convert_key o (fst p) in let! x := convert_scalar t (snd p) in Ok (k, x).
  Definition ls_fn (t : stype) (p : Z * V) : outcome (Z * V) := match conv t (snd p) with Some x => Ok (fst p, x) | None => Throw end.

  Lemma llen_nat {A} (l : list A) : Z.to_nat (llen l) = length l.
  Proof. unfold llen. apply Nat2Z.id. Qed.
  Lemma llen_nz {A} (l : list A) : l <> [] -> (llen l =? 0) = false.
  Proof. intros H. apply Z.eqb_neq. unfold llen. destruct l; [congruence|simpl; lia]. Qed.

  Definition leafdata_of (lf : leaf V) (vals : list V) (ks : option (list Z)) : leafdata V := mkLD (lf_shape lf) vals ks (lf_size lf) (lf_type lf) (lf_vt lf).
  Lemma conv_list_ok t l : conv_list conv t l = mapM (fun v => match conv t v with Some x => Ok x | None => Throw end) l.
  Proof. induction l as [|v l IH]; [reflexivity|]. simpl. destruct (conv t v); [|reflexivity]. simpl. rewrite IH. reflexivity. Qed.
  Lemma convert_seq_vals o t v l i : sequence v l -> convert_leaf o t (mkLeaf [llen l] v (llen l) i KSeq VVal) =
    let! xs := mapM (convert_scalar t) l in Ok (mkLD [llen l] xs None (llen l) KSeq VVal).
  Proof.
    intros H. assert (E : pushes (handle_scalar of_int conv t) l (allocate_leaf zero t (mkLeaf [llen l] v (llen l) i KSeq VVal)) = let! xs := mapM (convert_scalar t) l in Ok (xs, None, length l)).
    { unfold allocate_leaf. cbn [lf_size lf_vt]. apply pushes_vals0; [reflexivity|apply llen_nat]. }
    destruct H as [-> | ->]; unfold convert_leaf; cbn [lf_type lf_obj lf_vt lf_shape lf_size]; rewrite E; destruct (mapM _ l); reflexivity.
  Qed.
  Lemma convert_seq_pairs o t v l i : sequence v l -> l <> [] -> convert_leaf o t (mkLeaf [llen l] v (llen l) i KSeq VKeyVal) =
    let! xs := mapM (ks_fn o t) l in Ok (mkLD [llen l] (map snd xs) (Some (map fst xs)) (llen l) KSeq VKeyVal).
  Proof.
    intros H Hn. assert (E : pushes (handle_key_scalar of_int conv o t) l (allocate_leaf zero t (mkLeaf [llen l] v (llen l) i KSeq VKeyVal)) = let! xs := mapM (ks_fn o t) l in Ok (map snd xs, Some (map fst xs), length l)).
    { unfold allocate_leaf. cbn [lf_size lf_vt]. rewrite llen_nz by exact Hn. apply pushes_keys0; [apply hks|apply llen_nat]. }
    destruct H as [-> | ->]; unfold convert_leaf; cbn [lf_type lf_obj lf_vt lf_shape lf_size]; rewrite E; destruct (mapM _ l); reflexivity.
  Qed.
  Lemma convert_dict o t kv i : kv <> [] -> convert_leaf o t (mkLeaf [llen kv] (PDict kv) (llen kv) i KDict VKeyVal) =
    let! xs := mapM (kv_fn o t) kv in Ok (mkLD [llen kv] (map snd xs) (Some (map fst xs)) (llen kv) KDict VKeyVal).
  Proof.
    intros Hn. unfold convert_leaf, allocate_leaf. cbn [lf_type lf_obj lf_vt lf_shape lf_size]. rewrite llen_nz by exact Hn.
    rewrite (pushes_keys0 V _ (kv_fn o t)); [|intros a f; unfold kv_fn; destruct (convert_key o (fst a)); try reflexivity; simpl; destruct (convert_scalar t (snd a)); reflexivity|apply llen_nat].
    destruct (mapM _ kv); reflexivity.
  Qed.
  Lemma convert_lied o t s l i : convert_leaf o t (mkLeaf [llen l] (PLieD s l) (llen l) i KLie VVal) =
    let! xs := (if stype_eqb s t then Ok l else mapM (fun v => match conv t v with Some x => Ok x | None => Throw end) l) in Ok (mkLD [llen l] xs None (llen l) KLie VVal).
  Proof. unfold convert_leaf. cbn [lf_type lf_obj lf_vt lf_shape lf_size]. destruct (stype_eqb s t); [reflexivity|]. rewrite conv_list_ok. destruct (mapM _ l); reflexivity. Qed.
  Lemma convert_lies o t s l i : convert_leaf o t (mkLeaf [llen l] (PLieS s l) (llen l) i KLie VKeyVal) =
    let! xs := mapM (ls_fn t) l in Ok (mkLD [llen l] (map snd xs) (match l with [] => None | _ => Some (map fst xs) end) (llen l) KLie VKeyVal).
  Proof.
    unfold convert_leaf, allocate_leaf. cbn [lf_type lf_obj lf_vt lf_shape lf_size]. destruct l as [|p l]; [reflexivity|]. rewrite llen_nz by discriminate.
    rewrite (pushes_keys0 V _ (ls_fn t)); [|intros a f; unfold ls_fn; destruct (conv t (snd a)); reflexivity|apply llen_nat].
    destruct (mapM _ (p :: l)); reflexivity.
  Qed.

  Lemma ks_fn_ok o t v kx : ks_fn o t v = Ok kx -> a_pair (o_alt o) v -> pair_of of_int conv (o_alt o) t v (fst kx) (snd kx).
  Proof.
    intros H Ha. apply a_pair_iff in Ha as (k & s & -> & _). unfold ks_fn in H. apply bind_ok in H as (k' & Hk & H). apply bind_ok in H as (x & Hx & H). injection H as <-.
    exists k, s. split; [reflexivity|]. split; [apply convert_key_ok; exact Hk|apply convert_scalar_ok; exact Hx].
  Qed.
  Lemma pair_of_ks o t v k x : pair_of of_int conv (o_alt o) t v k x -> ks_fn o t v = Ok (k, x) /\ a_pair (o_alt o) v.
  Proof.
    intros (a & s & -> & Hk & Hx). split.
    - unfold ks_fn. rewrite (proj2 (convert_key_ok V o a k) Hk). cbn [bind]. rewrite (proj2 (convert_scalar_ok V of_int conv t s x) Hx). reflexivity.
    - split; [eapply key_a; exact Hk|eapply number_a; exact Hx].
  Qed.
  Lemma stype_eqb_iff a b : stype_eqb a b = true <-> a = b.
  Proof. destruct a, b; simpl; split; congruence. Qed.

  Lemma Forall2_mono {A B} (P Q : A -> B -> Prop) l m : (forall a b, In a l -> P a b -> Q a b) -> Forall2 P l m -> Forall2 Q l m.
  Proof. intros H F. induction F as [|a b l m Hab F IH]; constructor; [apply H; [left; reflexivity|exact Hab]|apply IH; intros; apply H; [right|]; assumption]. Qed.
  Lemma Forall2_left {A B} (P : A -> B -> Prop) (Q : A -> Prop) l m : (forall a b, P a b -> Q a) -> Forall2 P l m -> Forall Q l.
  Proof. intros H F. induction F; constructor; eauto. Qed.

  Lemma convert_row o t v lf d : rowleaf o v lf -> convert_leaf o t lf = Ok d ->
    row (o_alt o) t v (ld_vals d) (ld_keys d) /\ (ld_type d = KSeq \/ ld_type d = KDict \/ ld_type d = KLie).
  Proof.
    intros H Hc. destruct H as [v l i x r Hs Hl Hf Hi|v l i x r Hs Hl Hf Hi|kv i k x r Hl Hf Hi|s l|s l].
    - rewrite convert_seq_vals in Hc by exact Hs. apply bind_ok in Hc as (xs & Hm & Hc). injection Hc as <-. cbn. split; [|auto].
      apply (row_numbers _ _ _ _ _ v l xs Hs); [subst l; exists i; apply type_info_iff; exact Hi|].
      apply mapM_ok in Hm. eapply Forall2_mono; [|exact Hm]. intros a b _ Hab. apply convert_scalar_ok. exact Hab.
    - rewrite convert_seq_pairs in Hc by (first [exact Hs|subst; discriminate]). apply bind_ok in Hc as (xs & Hm & Hc). injection Hc as <-. cbn. split; [|auto].
      apply (row_pairs _ _ _ _ _ v l xs Hs).
      + subst l. inversion Hf as [|? ? Hx Hr]; subst. apply a_pair_iff in Hx as (k & s & -> & _). exists i. apply type_info_iff. exact Hi.
      + apply mapM_ok in Hm. eapply Forall2_mono; [|exact Hm]. intros a b Ha Hab. apply ks_fn_ok; [exact Hab|]. rewrite Forall_forall in Hf. apply Hf. exact Ha.
    - rewrite convert_dict in Hc by (subst; discriminate). apply bind_ok in Hc as (xs & Hm & Hc). injection Hc as <-. cbn. split; [|auto].
      apply row_dict; [subst kv; exists i; apply type_info_iff; exact Hi|].
      apply mapM_ok in Hm. eapply Forall2_mono; [|exact Hm]. intros a b Ha Hab. unfold kv_fn in Hab. apply bind_ok in Hab as (k' & Hk & Hab). apply bind_ok in Hab as (y & Hy & Hab). injection Hab as <-.
      split; [apply convert_key_ok; exact Hk|apply convert_scalar_ok; exact Hy].
    - rewrite convert_lied in Hc. apply bind_ok in Hc as (xs & Hm & Hc). injection Hc as <-. cbn. split; [|auto]. apply row_lie.
      destruct (stype_eqb s t) eqn:E.
      + injection Hm as <-. apply stype_eqb_iff in E. clear -E. induction l; constructor; auto.
      + apply mapM_ok in Hm. eapply Forall2_mono; [|exact Hm]. intros a b _ Hab. right. split; [intros ->; rewrite (proj2 (stype_eqb_iff t t)) in E by reflexivity; discriminate|]. cbv beta in Hab. destruct (conv t a); [injection Hab as <-; reflexivity|discriminate].
    - rewrite convert_lies in Hc. apply bind_ok in Hc as (xs & Hm & Hc). injection Hc as <-. cbn. split; [|auto].
      apply mapM_ok in Hm. replace (match l with [] => None | _ :: _ => Some (map fst xs) end) with (match xs with [] => None | _ => Some (map fst xs) end) by (inversion Hm; reflexivity).
      apply row_sparse_lie. eapply Forall2_mono; [|exact Hm]. intros a b _ Hab. unfold ls_fn in Hab. destruct (conv t (snd a)); [|discriminate]. injection Hab as <-. split; reflexivity.
  Qed.
  Lemma row_convert o t v xs ks : row (o_alt o) t v xs ks ->
    exists lf d, rowleaf o v lf /\ convert_leaf o t lf = Ok d /\ ld_vals d = xs /\ ld_keys d = ks /\ (ld_type d = KSeq \/ ld_type d = KDict \/ ld_type d = KLie).
  Proof.
    intros H. destruct H as [v l xs Hs Hk Hf|v l kx Hs Hk Hf|l kx Hk Hf|s l xs Hf|s l kx Hf].
    - destruct l as [|x r] eqn:El; [contradiction|]. rewrite <- El in *. assert (Hk' : exists i, known_type x i) by (subst l; exact Hk). destruct Hk' as [i Hi]. apply type_info_iff in Hi.
      assert (Hm : mapM (convert_scalar t) l = Ok xs) by (apply mapM_ok; eapply Forall2_mono; [|exact Hf]; intros a b _ Hab; apply convert_scalar_ok; exact Hab).
      eexists; eexists. split; [eapply rl_vals; [exact Hs|exact El|eapply Forall2_left; [|exact Hf]; intros; eapply number_a; eassumption|exact Hi]|].
      split; [rewrite convert_seq_vals by exact Hs; rewrite Hm; reflexivity|]. cbn. auto.
    - destruct l as [|x r] eqn:El; [contradiction|]. rewrite <- El in *.
      assert (Hfa : Forall (a_pair (o_alt o)) l) by (eapply Forall2_left; [|exact Hf]; intros a b Hab; apply (pair_of_ks o t a (fst b) (snd b)); exact Hab).
      assert (Hi : exists i, type_info_from (second x) = Ok i).
      { assert (Hx : a_pair (o_alt o) x) by (rewrite El in Hfa; inversion Hfa; assumption). apply a_pair_iff in Hx as (k & s & -> & _). destruct Hk as [i Hk]. exists i. apply type_info_iff. exact Hk. }
      destruct Hi as [i Hi].
      assert (Hm : mapM (ks_fn o t) l = Ok kx) by (apply mapM_ok; eapply Forall2_mono; [|exact Hf]; intros a [k y] _ Hab; apply (pair_of_ks o t a k y); exact Hab).
      eexists; eexists. split; [eapply rl_pairs; [exact Hs|exact El|exact Hfa|exact Hi]|].
      split; [rewrite convert_seq_pairs by (first [exact Hs|rewrite El; discriminate]); rewrite Hm; reflexivity|]. cbn. auto.
    - destruct l as [|[k x] r] eqn:El; [contradiction|]. rewrite <- El in *. assert (Hk' : exists i, known_type x i) by (subst l; exact Hk). destruct Hk' as [i Hi]. apply type_info_iff in Hi.
      assert (Hm : mapM (kv_fn o t) l = Ok kx).
      { apply mapM_ok. eapply Forall2_mono; [|exact Hf]. intros a [kk y] _ [H1 H2]. unfold kv_fn. rewrite (proj2 (convert_key_ok V o _ _) H1). cbn [bind]. rewrite (proj2 (convert_scalar_ok V of_int conv _ _ _) H2). reflexivity. }
      eexists; eexists. split; [eapply rl_dict; [exact El| |exact Hi]|].
      { eapply Forall2_left; [|exact Hf]. intros a b [H1 H2]. split; [eapply number_a; exact H2|eapply key_a; exact H1]. }
      split; [rewrite convert_dict by (rewrite El; discriminate); rewrite Hm; reflexivity|]. cbn. auto.
    - eexists; eexists. split; [apply rl_lied|]. rewrite convert_lied.
      assert (Hm : (if stype_eqb s t then Ok l else mapM (fun v => match conv t v with Some x => Ok x | None => Throw end) l) = Ok xs).
      { destruct (stype_eqb s t) eqn:E.
        - apply stype_eqb_iff in E. f_equal. clear -Hf E. induction Hf as [|a b l xs [[_ ->]|[H _]] _ IH]; [reflexivity|f_equal; exact IH|congruence].
        - apply mapM_ok. eapply Forall2_mono; [|exact Hf]. intros a b _ [[H _]|[_ H]]; [apply stype_eqb_iff in H; congruence|rewrite H; reflexivity]. }
      rewrite Hm. cbn. auto 6.
    - eexists; eexists. split; [apply rl_lies|]. rewrite convert_lies.
      assert (Hm : mapM (ls_fn t) l = Ok kx).
      { apply mapM_ok. eapply Forall2_mono; [|exact Hf]. intros a [kk y] _ [H1 H2]. unfold ls_fn. rewrite H2. simpl in *. subst kk. reflexivity. }
      rewrite Hm. cbn. split; [reflexivity|]. split; [reflexivity|]. split; [|auto]. destruct l, kx; try reflexivity; inversion Hf.
  Qed.
  Lemma rowleaf_det o v l1 l2 : rowleaf o v l1 -> rowleaf o v l2 -> l1 = l2.
  Proof.
    intros H1 H2. pose proof (check_rowleaf (mkOpts (o_type o) (o_alt o) 1 (o_none o) (o_scalar o) (o_kv o)) v l1 0) as A.
    pose proof (check_rowleaf (mkOpts (o_type o) (o_alt o) 1 (o_none o) (o_scalar o) (o_kv o)) v l2 0) as B.
    assert (G : forall l, rowleaf o v l -> rowleaf (mkOpts (o_type o) (o_alt o) 1 (o_none o) (o_scalar o) (o_kv o)) v l) by (intros l H; inversion H; subst; econstructor; eauto).
    specialize (A (G _ H1) eq_refl). specialize (B (G _ H2) eq_refl). congruence.
  Qed.
End Plain2.
