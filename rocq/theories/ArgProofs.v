(** Proofs about the arguments of the Python methods of streams. *)
From Coq Require Import Lqa ZifyBool.
From Verif Require Import ArgSpec IndexProofs StreamProofs3 DyadicProofs.
Open Scope Z_scope.

Lemma to_int_spec z : - 2 ^ 31 <= to_int z < 2 ^ 31 /\ (z - to_int z) mod 2 ^ 32 = 0.
Proof.
  unfold to_int. assert (H := Z.mod_pos_bound (z + 2 ^ 31) (2 ^ 32) ltac:(lia)). split; [lia|].
  assert (D := Z.div_mod (z + 2 ^ 31) (2 ^ 32) ltac:(lia)). replace (z - ((z + 2 ^ 31) mod 2 ^ 32 - 2 ^ 31)) with ((z + 2 ^ 31) / 2 ^ 32 * 2 ^ 32) by lia.
  apply Z.mod_mul. lia.
Qed.
Lemma to_int_unique z r : - 2 ^ 31 <= r < 2 ^ 31 -> (z - r) mod 2 ^ 32 = 0 -> to_int z = r.
Proof.
  intros H E. destruct (to_int_spec z) as [H' E']. apply Z.mod_divide in E, E'; try lia. destruct E as [k E], E' as [k' E']. lia.
Qed.
Lemma float_res_iff x r : float_resolution x r <-> r = py_param_to_resolution x.
Proof.
  unfold float_resolution, py_param_to_resolution, frexp_exp. destruct (frexp_spec x) as [[-> E]|[-> E]].
  - split; [|intros ->; left; split; auto]. intros [[_ ->]|(e & A & _)]; [reflexivity|]. rewrite E in A. assert (P := Qpow2_pos e). cbn in A. lra.
  - destruct (qlog2_spec (Qabs x) E) as [A B]. split.
    + intros [[Z _]|(e & C & D & ->)]; [rewrite Z in E; cbn in E; lra|]. assert (e = qlog2 (Qabs x)) by (eapply qlog2_unique; eauto). subst. lia.
    + intros ->. right. exists (qlog2 (Qabs x)). repeat split; auto. lia.
Qed.

Section P.
  Variable lie : Type.
  Notation arg := (pyarg lie).

  Lemma keyword_in kw n a : NoDup (map fst kw) -> (keyword lie kw n = Some a <-> In (n, a) kw).
  Proof.
    unfold keyword. induction kw as [|[m b] kw IH]; cbn [find map fst In]; intros N; [split; [discriminate|tauto]|].
    inversion N as [|? ? N1 N2]; subst. destruct (String.eqb_spec m n) as [->|D].
    - cbn. split; [intros [= ->]; auto|]. intros [[= ->]|H]; auto. exfalso. apply N1. apply in_map_iff. exists (n, a). auto.
    - rewrite (IH N2). split; [auto|]. intros [[= -> _]|H]; congruence || auto.
  Qed.
  Lemma keyword_none kw n : NoDup (map fst kw) -> (keyword lie kw n = None <-> forall a, ~ In (n, a) kw).
  Proof.
    intros N. destruct (keyword lie kw n) as [b|] eqn:E.
    - apply keyword_in in E; auto. split; [discriminate|]. intros H. destruct (H b E).
    - split; auto. intros _ a H. apply keyword_in in H; auto. congruence.
  Qed.
  Lemma take_args_spec kw (N : NoDup (map fst kw)) : forall names pos l, take_args lie names pos kw = Ok l <->
    (length l = length names /\ (forall i n a, nth_error names i = Some n -> (i < length pos)%nat -> ~ In (n, a) kw) /\ forall i n, nth_error names i = Some n -> given lie pos kw i n (nth i l None)).
  Proof.
    induction names as [|n names IH]; intros pos l.
    - destruct l; cbn; split; try discriminate; try (intros (H & _); discriminate); auto. intros _. repeat split; auto; intros [|i]; cbn; discriminate.
    - assert (IHn := fun pos l => IH pos l). destruct pos as [|a pos]; cbn [take_args].
      + split.
        * intros H. apply bind_ok in H. destruct H as (l' & E & [= <-]). apply IH in E. destruct E as (L & W & G). cbn [length]. split; [lia|]. split; [intros; lia|].
          intros [|i] m H; cbn [nth_error] in H; [injection H as <-|].
          { cbn [nth]. unfold given. destruct (keyword lie kw n) as [b|] eqn:E; [right; split; [reflexivity|apply keyword_in; auto]|split; [reflexivity|apply keyword_none; auto]]. }
          cbn [nth]. specialize (G i m H). unfold given in *. destruct (nth i l' None); destruct i; cbn [nth_error] in *; auto.
        * intros (L & W & G). destruct l as [|b l]; [discriminate|]. cbn [length] in L.
          assert (E : take_args lie names [] kw = Ok l). { apply IH. split; [lia|]. split; [cbn; intros; lia|]. intros i m H. specialize (G (S i) m H). cbn [nth] in G. unfold given in *. destruct (nth i l None); destruct i; cbn [nth_error] in *; auto. }
          rewrite E. cbn [bind]. f_equal. f_equal. specialize (G 0%nat n eq_refl). cbn [nth] in G. unfold given in G. destruct b as [b|].
          { destruct G as [G|[_ G]]; [discriminate|]. apply keyword_in; auto. }
          { apply keyword_none; auto. apply G. }
      + destruct (keyword lie kw n) as [b|] eqn:E.
        * split; [discriminate|]. intros (_ & W & _). apply keyword_in in E; auto. destruct (W 0%nat n b eq_refl); auto. cbn. lia.
        * assert (E' := proj1 (keyword_none kw n N) E). split.
          { intros H. apply bind_ok in H. destruct H as (l' & H & [= <-]). apply IH in H. destruct H as (L & W & G). cbn [length]. split; [lia|]. split.
            - intros [|i] m c H; cbn [nth_error] in H; [injection H as <-; intros _; apply E'|]. intros H'. apply (W i m c H). lia.
            - intros [|i] m H; cbn [nth_error] in H; [injection H as <-; left; reflexivity|]. apply (G i m H). }
          { intros (L & W & G). destruct l as [|b l]; [discriminate|]. cbn [length] in *. assert (H : take_args lie names pos kw = Ok l).
            { apply IH. split; [lia|]. split; [intros i m c H H'; apply (W (S i) m c H); lia|]. intros i m H. apply (G (S i) m H). }
            rewrite H. cbn [bind]. specialize (G 0%nat n eq_refl). cbn [nth nth_error] in G. unfold given in G. destruct b as [b|]; cbn in G; [destruct G as [G|[G _]]; [injection G as ->; reflexivity|discriminate]|destruct G as [G _]; discriminate]. }
  Qed.
  Lemma parse_args_spec names m pos kw l : NoDup (map fst kw) -> (parse_args lie names m pos kw = Ok l <-> arguments lie names m pos kw l).
  Proof.
    intros N. unfold parse_args, arguments, well_called. destruct (Nat.ltb_spec m (length pos)) as [H|H]; [split; [discriminate|intros ((H' & _) & _); lia]|].
    destruct (forallb (fun e => existsb (String.eqb (fst e)) names) kw) eqn:K; cbn [negb].
    - rewrite take_args_spec by auto. rewrite forallb_forall in K. assert (K' : forall n a, In (n, a) kw -> In n names).
      { intros n a Hi. apply K in Hi. cbn in Hi. apply existsb_exists in Hi. destruct Hi as (x & Hx & E). apply String.eqb_eq in E. subst. auto. }
      split; [intros (A & B & C); repeat split; auto|]. intros ((_ & _ & _ & B) & A & C). auto.
    - split; [discriminate|]. intros ((_ & _ & K' & _) & _). assert (forallb (fun e => existsb (String.eqb (fst e)) names) kw = true); [|congruence].
      apply forallb_forall. intros [n a] Hi. apply existsb_exists. exists n. split; [eapply K'; eauto|apply String.eqb_refl].
  Qed.
  Lemma parse_args_not names m pos kw : parse_args lie names m pos kw <> UB /\ parse_args lie names m pos kw <> NoFuel.
  Proof.
    unfold parse_args. destruct (Nat.ltb m (length pos)); [split; discriminate|]. destruct (negb _); [split; discriminate|].
    revert pos. induction names as [|n names IH]; intros pos; cbn [take_args]; [split; discriminate|]. destruct pos as [|a pos]; [|destruct (keyword lie kw n); [split; discriminate|]];
      match goal with |- bind (take_args lie names ?p kw) _ <> _ /\ _ => destruct (IH p) as [A B]; destruct (take_args lie names p kw); cbn; try congruence; split; discriminate end.
  Qed.

  Lemma converter_spec a r r' : resolution_converter lie a r = Ok (r', false) <-> or_resolution lie (Some a) r r'.
  Proof.
    unfold or_resolution. split.
    - destruct a; cbn [resolution_converter]; try discriminate.
      + intros [= <-]. left. auto.
      + unfold as_long. destruct ((- 2 ^ 63 <=? z) && (z <? 2 ^ 63)) eqn:B; [|discriminate]. intros [= <-]. right. exists (AInt lie z), (to_int z). split; auto. split; auto.
        destruct (to_int_spec z). constructor; auto. lia.
      + intros [= <-]. right. eexists _, _. split; [reflexivity|]. split; auto. constructor. apply float_res_iff. reflexivity.
    - intros [[[H|H] ->]|(b & z & [= <-] & R & ->)]; [discriminate|injection H as ->; reflexivity|]. inversion R as [y ? B B' E|x ? F]; subst; cbn [resolution_converter].
      + unfold as_long. replace ((- 2 ^ 63 <=? y) && (y <? 2 ^ 63)) with true by lia. rewrite (to_int_unique y z); auto.
      + apply float_res_iff in F. subst. reflexivity.
  Qed.
  Lemma opt_converter_spec a r r' : (match a with None => Ok (r, false) | Some a => resolution_converter lie a r end) = Ok (r', false) <-> or_resolution lie a r r'.
  Proof.
    destruct a as [a|]; [apply converter_spec|]. unfold or_resolution. split; [intros [= ->]; auto|]. intros [[_ ->]|(b & z & [=] & _)]. reflexivity.
  Qed.
  Lemma converter_not a r : resolution_converter lie a r <> UB /\ resolution_converter lie a r <> NoFuel.
  Proof. destruct a; cbn [resolution_converter]; try (split; discriminate). unfold as_long. destruct (_ && _); split; discriminate. Qed.

  Lemma as_double_spec z x : as_double z = (x, false) <-> Z.abs z < 2 ^ 1024 - 2 ^ 970 /\ x = inject_Z z.
  Proof. unfold as_double. destruct (Z.ltb_spec (Z.abs z) (2 ^ 1024 - 2 ^ 970)); split; intros H'; [injection H' as <-; auto|destruct H' as [_ ->]; reflexivity|discriminate|lia]. Qed.
  Lemma int_arg_spec a z : int_arg lie false a = Ok z <-> small_int lie a z.
  Proof.
    split.
    - destruct a; cbn [int_arg]; try discriminate; destruct ((- 2 ^ 31 <=? z0) && (z0 <? 2 ^ 31)) eqn:B; cbn [negb]; try discriminate; rewrite andb_false_r; intros [= <-]; constructor; lia.
    - intros H. inversion H; subst; cbn [int_arg]; replace ((- 2 ^ 31 <=? z) && (z <? 2 ^ 31)) with true by lia; cbn [negb]; rewrite andb_false_r; reflexivity.
  Qed.
  Lemma opt_int_spec a d z : (match a with None => Ok d | Some a => int_arg lie false a end) = Ok z <-> or_int lie a d z.
  Proof.
    unfold or_int. destruct a as [a|].
    - rewrite int_arg_spec. split; [intros H; right; eauto|]. intros [[? _]|(b & [= <-] & H)]; [discriminate|auto].
    - split; [intros [= ->]; auto|]. intros [[_ ->]|(b & ? & _)]; [reflexivity|discriminate].
  Qed.
  Lemma int_arg_not p a : int_arg lie p a <> UB /\ int_arg lie p a <> NoFuel.
  Proof. destruct a; cbn [int_arg]; try (split; discriminate); destruct (negb _); try (split; discriminate); destruct (_ && _); split; discriminate. Qed.
  Lemma of_dyadic_spec d i : of_dyadic d = Ok i <-> real_of d i.
  Proof.
    unfold of_dyadic, real_of. destruct (dinf d) as [a| | |]; cbn [bind]; try (split; [discriminate|intros (? & ? & [=] & _)]).
    destruct (dsup d) as [b| | |]; cbn [bind]; try (split; [discriminate|intros (? & ? & _ & [=] & _)]).
    split; [intros [= <-]; eauto|]. intros (? & ? & [= <-] & [= <-] & ->). reflexivity.
  Qed.

  (** Two numbers *)
  Lemma ends_spec p a x0 b i : number lie a x0 -> p = (x0, false) -> ends lie p b = Ok (i, false) <-> exists y, number lie b y /\ (x0 <= y)%Q /\ i = mkRI x0 y Clopen.
  Proof.
    intros _ ->. unfold ends. cbn [fst snd orb].
    assert (K : forall y, (let! (b0, e) := Ok (y, false) in if qlt b0 x0 then Throw else Ok (ri_make x0 b0 Clopen, e)) = Ok (i, false) <-> (x0 <= y)%Q /\ i = mkRI x0 y Clopen).
    { intros y. cbn [bind]. unfold ri_make. destruct (qlt y x0) eqn:L.
      - split; [discriminate|]. intros [H _]. apply negb_true_iff in L. apply Qle_bool_iff in H. unfold qle in L. congruence.
      - apply negb_false_iff in L. apply Qle_bool_iff in L. split; [intros [= <-]; auto|]. intros [_ ->]. reflexivity. }
    destruct b; try (cbn [bind]; split; [discriminate|intros (y & N & _); inversion N]).
    - destruct (as_double z) as [y e] eqn:D. destruct e.
      + cbn [bind]. split; [destruct (qlt y x0); intros H'; discriminate|]. intros (y' & N & _). inversion N; subst. unfold as_double in D. destruct (Z.ltb_spec (Z.abs z) (2 ^ 1024 - 2 ^ 970)); [discriminate|lia].
      + rewrite K. apply as_double_spec in D. destruct D as [D ->]. split; [intros H'; exists (inject_Z z); split; [constructor; auto|auto]|]. intros (y & N & H'). inversion N; subst. auto.
    - rewrite K. split; [intros H; exists x; split; [constructor|auto]|]. intros (y & N & H). inversion N; subst. auto.
  Qed.
  Lemma ends_pending p b i e : snd p = true -> ends lie p b = Ok (i, e) -> e = true.
  Proof. unfold ends. intros H. destruct b; cbn [bind]; try discriminate; [destruct (as_double z) as [y e']|]; cbn [bind]; destruct (qlt _ (fst p)); try discriminate; intros [= _ <-]; rewrite H; reflexivity. Qed.

  Lemma read_interval_spec first sup res i r r0 : or_resolution lie res None r0 -> (read_interval lie first sup r0 = Ok (i, r, false) -> asks lie first sup res i r).
  Proof.
    intros R. destruct first as [a|]; [|cbn; intros [= <- <-]; apply A_whole; auto].
    destruct a; cbn [read_interval]; try discriminate.
    - intros [= <- <-]. apply A_whole; auto.
    - destruct sup as [b|].
      + intros H. apply bind_ok in H. destruct H as ([j e] & E & [= <- <- ->]). destruct (as_double z) as [x e] eqn:D. destruct e; [apply ends_pending in E; auto; discriminate|].
        assert (D' := proj1 (as_double_spec z x) D). destruct D' as [D1 ->]. assert (N : number lie (AInt lie z) (inject_Z z)) by (constructor; auto).
        apply (ends_spec _ _ _ b j N eq_refl) in E. destruct E as (y & N' & L & ->). eapply A_ends; eauto.
      + unfold as_long. destruct ((- 2 ^ 63 <=? z) && (z <? 2 ^ 63)) eqn:B; [|discriminate]. intros [= <- <-]. destruct (to_int_spec z). eapply A_resolution; eauto. constructor; auto. lia.
    - destruct sup as [b|]; [|discriminate]. intros H. apply bind_ok in H. destruct H as ([j e] & E & [= <- <- ->]).
      apply (ends_spec _ (AFloat lie x) x b j (N_float lie x) eq_refl) in E. destruct E as (y & N' & L & ->). eapply A_ends; eauto. constructor.
    - unfold interval_then. intros H. destruct sup as [b|].
      + apply bind_ok in H. destruct H as ([r1 e] & E & [= <- <- ->]). apply converter_spec in E. eapply A_interval; eauto. constructor.
      + injection H as <- <-. eapply A_interval; eauto; [constructor|]. left. auto.
    - intros H. apply bind_ok in H. destruct H as ([r1 e] & E & H). apply bind_ok in H. destruct H as (j & E' & [= <- <- ->]). apply opt_converter_spec in E. apply of_dyadic_spec in E'.
      eapply A_interval; eauto. constructor. auto.
  Qed.
  Lemma or_res_fun a r r1 r2 : or_resolution lie a r r1 -> or_resolution lie a r r2 -> r1 = r2.
  Proof. intros A B. apply opt_converter_spec in A, B. congruence. Qed.
  Lemma read_interval_complete first sup res i r r0 : or_resolution lie res None r0 -> asks lie first sup res i r -> read_interval lie first sup r0 = Ok (i, r, false).
  Proof.
    intros R H. inversion H as [r1 F R1|z r1 r' F Es R1 Rz|a b x y r1 F Es Na Nb L R1|a j r1 r' F Ea R1 R2]; subst.
    - assert (r = r0) by (eapply or_res_fun; eauto). subst. destruct F as [->| ->]; reflexivity.
    - cbn [read_interval]. inversion Rz; subst. unfold as_long. replace ((- 2 ^ 63 <=? z) && (z <? 2 ^ 63)) with true by lia. rewrite (to_int_unique z r1); auto.
    - assert (r = r0) by (eapply or_res_fun; eauto). subst. assert (E : ends lie (x, false) b = Ok (mkRI x y Clopen, false)) by (apply (ends_spec (x, false) a x b _ Na eq_refl); eauto).
      inversion Na; subst; cbn [read_interval]; [rewrite E; reflexivity|]. rewrite (proj2 (as_double_spec z (inject_Z z))) by auto. rewrite E. reflexivity.
    - assert (r' = r0) by (eapply or_res_fun; eauto). subst. apply opt_converter_spec in R2. inversion Ea as [|d j' RD]; subst; cbn [read_interval].
      + unfold interval_then. destruct sup; [rewrite R2; reflexivity|]. congruence.
      + rewrite R2. cbn [bind]. apply of_dyadic_spec in RD. rewrite RD. reflexivity.
  Qed.
  (** What may be undefined *)
  Lemma read_interval_ub first sup r : read_interval lie first sup r = UB -> exists d, first = Some (ADyadic lie d) /\ of_dyadic d = UB.
  Proof.
    destruct first as [a|]; [|discriminate]. destruct a; cbn [read_interval]; try discriminate.
    - destruct sup as [b|]; [|unfold as_long; destruct (_ && _); discriminate]. unfold ends. destruct b; cbn [bind]; try discriminate; [destruct (as_double z0) as [y e]|]; cbn [bind]; destruct (qlt _ _); discriminate.
    - destruct sup as [b|]; [|discriminate]. unfold ends. destruct b; cbn [bind]; try discriminate; [destruct (as_double z) as [y e]|]; cbn [bind]; destruct (qlt _ _); discriminate.
    - unfold interval_then. destruct sup as [b|]; [|discriminate]. destruct (converter_not b r) as [A _]. destruct (resolution_converter lie b r) as [[r1 e]| | |]; cbn [bind]; congruence.
    - intros H. exists d. split; auto. destruct sup as [b|]; [destruct (converter_not b r) as [A _]; destruct (resolution_converter lie b r) as [[r1 e]| | |]; cbn [bind] in H; try congruence|cbn [bind] in H];
        destruct (of_dyadic d); cbn [bind] in H; congruence.
  Qed.
End P.
