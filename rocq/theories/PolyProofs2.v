(** Proofs about polynomials. *)
From Coq Require Import ZifyBool Lia.
From Verif Require Import PolySpec PolyProofs.
Open Scope Z_scope.
Notation psorted := (sorted mono_lt).
Notation pfind := (find_cases mono_lt mono_lt_irr mono_lt_trans mono_lt_total).

Lemma coeff_app a b m : coeff (a ++ b) m = (coeff a m + coeff b m)%Qc.
Proof. induction a as [|[k c] a IH]; cbn; [ring|]. rewrite IH. ring. Qed.
Lemma coeff_absent p m : (forall v, ~ In (m, v) p) -> coeff p m = 0%Qc.
Proof. induction p as [|[k c] p IH]; cbn; intros H; [auto|]. destruct (mono_dec k m) as [->|]; [exfalso; apply (H c); auto|]. rewrite IH; [ring|]. intros v I. apply (H v). auto. Qed.
Lemma coeff_at a k v b : psorted (a ++ (k, v) :: b) -> coeff (a ++ (k, v) :: b) k = v.
Proof.
  intros S. assert (F := sorted_fresh mono_lt mono_lt_irr a k v b S). rewrite coeff_app. cbn [coeff]. destruct (mono_dec k k); [|congruence].
  rewrite !coeff_absent; [ring| |]; intros w I; apply (F w); apply in_app_iff; auto.
Qed.
Lemma Qc_zero_spec c : Qc_zero c = true <-> c = 0%Qc.
Proof. unfold Qc_zero. destruct (Qc_eq_dec c 0%Qc); split; intros; congruence. Qed.
Lemma Qc_zero_false c : Qc_zero c = false <-> c <> 0%Qc.
Proof. rewrite <- Qc_zero_spec. destruct (Qc_zero c); split; congruence. Qed.
Lemma poly_ok_sorted p : poly_ok p -> psorted p. Proof. intros H; apply H. Qed.
Lemma ok_set a k v w b : poly_ok (a ++ (k, v) :: b) -> w <> 0%Qc -> poly_ok (a ++ (k, w) :: b).
Proof.
  intros (S & F1 & F2) Hw. split; [eapply sorted_swap; eauto|]. rewrite !Forall_app, !Forall_cons_iff in *. cbn in *. tauto.
Qed.
Lemma ok_remove a x b : poly_ok (a ++ x :: b) -> poly_ok (a ++ b).
Proof. intros (S & F1 & F2). split; [eapply sorted_remove; eauto|]. rewrite !Forall_app, !Forall_cons_iff in *. tauto. Qed.
Lemma ok_insert a k v b : poly_ok (a ++ b) -> psorted (a ++ (k, v) :: b) -> v <> 0%Qc -> mono_ok k -> poly_ok (a ++ (k, v) :: b).
Proof. intros (S & F1 & F2) S' Hv Hk. split; auto. rewrite !Forall_app, !Forall_cons_iff in *. cbn in *. tauto. Qed.
Lemma ok_inv x p : poly_ok (x :: p) -> poly_ok p /\ snd x <> 0%Qc /\ mono_ok (fst x) /\ (forall v, ~ In (fst x, v) p).
Proof.
  intros (S & F1 & F2). apply Forall_cons_iff in F1 as [A1 A2]. apply Forall_cons_iff in F2 as [B1 B2]. inversion S as [|? ? S1 S2]; subst. repeat split; auto.
  intros v I. rewrite Forall_forall in S2. apply S2 in I. cbn in I. rewrite mono_lt_irr in I. discriminate.
Qed.

Section Combine.
  Variables (op : Qc -> Qc -> Qc) (s : Qc -> Qc).
  Hypothesis op_s : forall x c, op x c = (x + s c)%Qc.
  Hypothesis s_inj : forall c, s c = 0%Qc -> c = 0%Qc.
  Definition ploop := fix loop (rhs : poly) (lhs : poly) (ok : bool) : outcome (poly * bool) :=
    match rhs with
    | [] => Ok (lhs, ok)
    | (rhs_key, rhs_coeff) :: rhs =>
        let! it := find mono_lt lhs rhs_key in
        if negb ok then UB else
        match it with
        | Some i =>
            let! e := deref lhs i in
            let c := op (snd e) rhs_coeff in
            let! lhs := assign lhs i c in
            if Qc_zero c then loop rhs (erase lhs i) false else loop rhs lhs ok
        | None => let! lhs := emplace mono_lt lhs rhs_key (s rhs_coeff) in loop rhs lhs false
        end
    end.
  Fixpoint scoeff (p : poly) (m : mono) : Qc := match p with [] => 0 | (k, c) :: p => (if mono_dec k m then s c else 0) + scoeff p m end%Qc.
  Lemma ploop_stale t rhs lhs : psorted lhs -> ploop (t :: rhs) lhs false = UB.
  Proof. intros S. destruct t as [k v]. cbn [ploop]. destruct (sorted_find_total mono_lt mono_lt_irr mono_lt_trans mono_lt_total lhs k S) as [r ->]. reflexivity. Qed.
  Lemma safe_step lhs lhs' k c r : (forall v, ~ In (k, v) r) -> coeff lhs k <> 0%Qc -> (coeff lhs k + s c)%Qc <> 0%Qc -> (forall m, m <> k -> coeff lhs' m = coeff lhs m) ->
    poly_safe s lhs ((k, c) :: r) <-> poly_safe s lhs' r.
  Proof.
    intros Hk H1 H2 HC. unfold poly_safe. destruct r as [|t r]; [cbn; split; intros _ m d []|]. rewrite removelast_cons by discriminate.
    assert (RM : forall m d, In (m, d) (removelast (t :: r)) -> m <> k).
    { intros m d I ->. apply (Hk d). clear -I. revert t I. induction r as [|u r IH]; intros t I; [destruct I|]. rewrite removelast_cons in I by discriminate. destruct I as [->|I]; cbn; auto. right. apply IH. auto. }
    split; intros H m d I.
    - rewrite HC by eauto. apply (H m d). right. auto.
    - destruct I as [[= <- <-]|I]; auto. rewrite <- HC by eauto. apply (H m d). auto.
  Qed.
  Lemma ploop_ok rhs : forall lhs, poly_ok lhs -> poly_ok rhs ->
    (poly_safe s lhs rhs -> exists p ok, ploop rhs lhs true = Ok (p, ok) /\ poly_ok p /\ forall m, coeff p m = (coeff lhs m + scoeff rhs m)%Qc) /\
    (~ poly_safe s lhs rhs -> ploop rhs lhs true = UB).
  Proof.
    induction rhs as [|[k c] rhs IH]; intros lhs HL HR.
    - split; [|intros N; exfalso; apply N; intros x e []]. intros _. exists lhs, true. split; auto. split; auto. intros m. cbn. ring.
    - destruct (ok_inv _ _ HR) as (HR' & Hc & Hk & Hn). cbn [fst snd] in *. cbn [ploop].
      destruct (pfind lhs k (poly_ok_sorted _ HL)) as [(a & w & b & E & -> & En & EA & EE)|(NI & -> & a & b & E & EM)]; cbn [bind negb].
      + unfold deref. rewrite En. cbn [bind snd]. rewrite EA. cbn [bind]. assert (CK : coeff lhs k = w) by (rewrite E; apply coeff_at; rewrite <- E; apply poly_ok_sorted; auto). rewrite op_s.
        assert (Hw : w <> 0%Qc). { destruct HL as (_ & F & _). rewrite E, Forall_app, Forall_cons_iff in F. apply F. }
        destruct (Qc_zero (w + s c)) eqn:Z0.
        * apply Qc_zero_spec in Z0. rewrite EE. assert (HP : poly_ok (a ++ b)) by (apply (ok_remove a (k, w)); rewrite <- E; auto).
          destruct rhs as [|t r].
          -- split; [|intros N; exfalso; apply N; intros x e []]. intros _. exists (a ++ b), false. cbn [ploop]. split; auto. split; auto. intros m. rewrite E, !coeff_app. cbn [coeff scoeff]. destruct (mono_dec k m); [|ring].
             assert (Ew : w = (- s c)%Qc) by (transitivity (w + s c - s c)%Qc; [ring|rewrite Z0; ring]). rewrite Ew. ring.
          -- rewrite ploop_stale by (apply poly_ok_sorted; auto). split; auto. intros H. exfalso. destruct (H k c) as [_ Q]; [rewrite removelast_cons by discriminate; cbn; auto|]. apply Q. rewrite CK. auto.
        * apply Qc_zero_false in Z0. assert (HP : poly_ok (a ++ (k, w + s c)%Qc :: b)) by (apply (ok_set a k w); auto; rewrite <- E; auto).
          destruct (IH _ HP HR') as [I1 I2].
          assert (CM : forall m, coeff (a ++ (k, (w + s c)%Qc) :: b) m = (coeff lhs m + if mono_dec k m then s c else 0)%Qc) by (intros m; rewrite E, !coeff_app; cbn [coeff]; destruct (mono_dec k m); ring).
          assert (SF : poly_safe s lhs ((k, c) :: rhs) <-> poly_safe s (a ++ (k, (w + s c)%Qc) :: b) rhs).
          { apply safe_step; auto; try (rewrite CK; auto). intros m Nm. rewrite CM. destruct (mono_dec k m); [congruence|ring]. }
          split.
          -- intros H. apply SF in H. destruct (I1 H) as (p & ok & Ep & P1 & P2). exists p, ok. split; auto. split; auto. intros m. rewrite P2, CM. cbn [scoeff]. ring.
          -- intros H. apply I2. intros H2. apply H, SF. auto.
      + destruct (EM (s c)) as [Ee Se]. rewrite Ee. cbn [bind].
        destruct rhs as [|t r].
        * cbn [ploop]. split; [|intros N; exfalso; apply N; intros x e []]. intros _. exists (a ++ (k, s c) :: b), false. split; auto. split; [apply ok_insert; auto; rewrite <- E; auto|]. intros m. rewrite E, !coeff_app. cbn [coeff scoeff]. ring.
        * rewrite ploop_stale by auto. split; auto. intros H. exfalso. destruct (H k c) as [Q _]; [rewrite removelast_cons by discriminate; cbn; auto|]. apply Q. apply coeff_absent. auto.
  Qed.
  Lemma combine_ok lhs rhs : poly_ok lhs -> poly_ok rhs ->
    (poly_safe s lhs rhs -> exists p, poly_combine_inplace op s lhs rhs = Ok p /\ poly_ok p /\ forall m, coeff p m = (coeff lhs m + scoeff rhs m)%Qc) /\
    (~ poly_safe s lhs rhs -> poly_combine_inplace op s lhs rhs = UB).
  Proof.
    intros HL HR. destruct (ploop_ok rhs lhs HL HR) as [H1 H2]. unfold poly_combine_inplace. fold ploop. split.
    - intros H. destruct (H1 H) as (p & ok & -> & P). exists p. split; auto.
    - intros H. rewrite (H2 H). reflexivity.
  Qed.
End Combine.
Lemma scoeff_id p m : scoeff (fun c => c) p m = coeff p m.
Proof. reflexivity. Qed.
Lemma scoeff_opp p m : scoeff Qcopp p m = (- coeff p m)%Qc.
Proof. induction p as [|[k c] p IH]; [reflexivity|]. cbn [scoeff coeff]. rewrite IH. destruct (mono_dec k m); ring. Qed.
Lemma add_ok p q : poly_ok p -> poly_ok q ->
  (poly_safe (fun c => c) p q -> exists r, poly_add_inplace p q = Ok r /\ poly_ok r /\ forall m, coeff r m = (coeff p m + coeff q m)%Qc) /\
  (~ poly_safe (fun c => c) p q -> poly_add_inplace p q = UB).
Proof.
  intros P Q. exact (combine_ok Qcplus (fun c => c) (fun _ _ => eq_refl) (fun _ E => E) p q P Q).
Qed.
Lemma sub_ok p q : poly_ok p -> poly_ok q ->
  (poly_safe Qcopp p q -> exists r, poly_sub_inplace p q = Ok r /\ poly_ok r /\ forall m, coeff r m = (coeff p m - coeff q m)%Qc) /\
  (~ poly_safe Qcopp p q -> poly_sub_inplace p q = UB).
Proof.
  intros P Q. destruct (combine_ok Qcminus Qcopp) with (lhs := p) (rhs := q) as [H1 H2]; auto.
  - intros c H. transitivity (- - c)%Qc; [ring|rewrite H; ring].
  - split; auto. intros H. destruct (H1 H) as (r & E & R & C). exists r. split; auto. split; auto. intros m. rewrite C, scoeff_opp. ring.
Qed.

(** ** Products *)
Lemma mul_step_ok r k c : poly_ok r -> mono_ok k -> c <> 0%Qc -> exists r', poly_mul_step r k c = Ok r' /\ poly_ok r' /\ forall m, coeff r' m = (coeff r m + if mono_dec k m then c else 0)%Qc.
Proof.
  intros HR Hk Hc. unfold poly_mul_step. destruct (pfind r k (poly_ok_sorted _ HR)) as [(a & w & b & E & -> & En & EA & EE)|(NI & -> & a & b & E & EM)]; cbn [bind].
  - unfold deref. rewrite En. cbn [bind snd]. rewrite EA. cbn [bind]. destruct (Qc_zero (w + c)) eqn:Z0.
    + apply Qc_zero_spec in Z0. rewrite EE. exists (a ++ b). split; auto. split; [apply (ok_remove a (k, w)); rewrite <- E; auto|]. intros m. rewrite E, !coeff_app. cbn [coeff]. destruct (mono_dec k m); [|ring].
      assert (Ew : w = (- c)%Qc) by (transitivity (w + c - c)%Qc; [ring|rewrite Z0; ring]). rewrite Ew. ring.
    + apply Qc_zero_false in Z0. eexists. split; [reflexivity|]. split; [apply (ok_set a k w); auto; rewrite <- E; auto|]. intros m. rewrite E, !coeff_app. cbn [coeff]. destruct (mono_dec k m); ring.
  - destruct (EM c) as [Ee Se]. rewrite Ee. eexists. split; [reflexivity|]. split; [apply ok_insert; auto; rewrite <- E; auto|]. intros m. rewrite E, !coeff_app. cbn [coeff]. ring.
Qed.
Definition ploop_inner (lhs_key : mono) (lhs_coeff : Qc) := fix inner (rhs : poly) (result : poly) : outcome poly :=
            match rhs with
            | [] => Ok result
            | (rhs_key, rhs_coeff) :: rhs =>
                let! new_key := mono_mul_inplace lhs_key rhs_key in
                let! result := poly_mul_step result new_key (lhs_coeff * rhs_coeff)%Qc in
                inner rhs result
            end.
Definition ploop_outer (rhs : poly) := fix outer (lhs : poly) (result : poly) : outcome poly :=
    match lhs with
    | [] => Ok result
    | (lhs_key, lhs_coeff) :: lhs => let! result := ploop_inner lhs_key lhs_coeff rhs result in outer lhs result
    end.
Lemma mono_safe_dec a b : mono_safe a b \/ ~ mono_safe a b.
Proof.
  unfold mono_safe. induction (removelast b) as [|[x e] l IH]; [left; intros x e []|].
  assert (D : occurs a x \/ ~ occurs a x).
  { clear. induction a as [|[y f] a IH]; [right; intros [? []]|]. rewrite !occurs_cons. destruct (Z.eq_dec x y); [auto|]. destruct IH; [auto|right; tauto]. }
  destruct D as [D|D]; [|right; intros H; apply D, (H x e); cbn; auto]. destruct IH as [IH|IH]; [|right; intros H; apply IH; intros y f I; apply (H y f); cbn; auto].
  left. intros y f [[= <- <-]|I]; [auto|eauto].
Qed.
Lemma Qc_mul_nz a b : a <> 0%Qc -> b <> 0%Qc -> (a * b)%Qc <> 0%Qc.
Proof. intros A B H. apply Qcmult_integral in H as [H|H]; auto. Qed.
Lemma inner_ok k c rhs : forall r, mono_ok k -> c <> 0%Qc -> poly_ok rhs -> poly_ok r ->
  ((forall t, In t rhs -> mono_safe k (fst t)) -> exists r', ploop_inner k c rhs r = Ok r' /\ poly_ok r' /\
     forall m, coeff r' m = (coeff r m + sum_terms (fun t => if mono_dec (mtimes k (fst t)) m then (c * snd t)%Qc else 0%Qc) rhs)%Qc) /\
  ((exists t, In t rhs /\ ~ mono_safe k (fst t)) -> ploop_inner k c rhs r = UB).
Proof.
  induction rhs as [|[k' c'] rhs IH]; intros r Hk Hc HR Hr.
  - split; [|intros (t & [] & _)]. intros _. exists r. split; auto. split; auto. intros m. cbn. ring.
  - destruct (ok_inv _ _ HR) as (HR' & Hc' & Hk' & _). cbn [fst snd] in *. cbn [ploop_inner]. destruct (mono_mul_ok k k' Hk Hk') as [M1 M2]. destruct (mono_safe_dec k k') as [S|S].
    + destruct (M1 S) as (n & -> & PR). cbn [bind]. assert (En := product_unique _ _ _ Hk Hk' PR). subst n. destruct (mul_step_ok r (mtimes k k') (c * c')%Qc Hr) as (r1 & -> & R1 & C1); [apply PR|apply Qc_mul_nz; auto|]. cbn [bind].
      destruct (IH r1 Hk Hc HR' R1) as [I1 I2]. split.
      * intros H. destruct I1 as (r' & E & R & C); [intros t I; apply H; cbn; auto|]. exists r'. split; auto. split; auto. intros m. rewrite C, C1. unfold sum_terms. cbn [fold_right fst snd]. ring.
      * intros (t & [<-|I] & N); [cbn in N; tauto|]. apply I2. eauto.
    + rewrite (M2 S). cbn [bind]. split; auto. intros H. exfalso. apply S, (H (k', c')). cbn. auto.
Qed.
Lemma outer_ok rhs lhs : forall r, poly_ok lhs -> poly_ok rhs -> poly_ok r ->
  ((forall s t, In s lhs -> In t rhs -> mono_safe (fst s) (fst t)) -> exists r', ploop_outer rhs lhs r = Ok r' /\ poly_ok r' /\ forall m, coeff r' m = (coeff r m + prod_coeff lhs rhs m)%Qc) /\
  ((exists s t, In s lhs /\ In t rhs /\ ~ mono_safe (fst s) (fst t)) -> ploop_outer rhs lhs r = UB).
Proof.
  induction lhs as [|[k c] lhs IH]; intros r HL HR Hr.
  - split; [|intros (s & t & [] & _)]. intros _. exists r. split; auto. split; auto. intros m. cbn. ring.
  - destruct (ok_inv _ _ HL) as (HL' & Hc & Hk & _). cbn [fst snd] in *. cbn [ploop_outer]. destruct (inner_ok k c rhs r Hk Hc HR Hr) as [I1 I2].
    assert (D : (forall t, In t rhs -> mono_safe k (fst t)) \/ exists t, In t rhs /\ ~ mono_safe k (fst t)).
    { clear. induction rhs as [|t rhs IH]; [left; intros ? []|]. destruct (mono_safe_dec k (fst t)); [|right; exists t; cbn; auto]. destruct IH as [IH|(u & I & N)]; [left; intros u [<-|I]; auto|right; exists u; cbn; auto]. }
    destruct D as [D|D].
    + destruct (I1 D) as (r1 & -> & R1 & C1). cbn [bind]. destruct (IH r1 HL' HR R1) as [J1 J2]. split.
      * intros H. destruct J1 as (r' & E & R & C); [intros; apply H; cbn; auto|]. exists r'. split; auto. split; auto. intros m. rewrite C, C1. unfold prod_coeff. cbn [sum_terms fold_right fst snd]. fold (sum_terms (fun t => if mono_dec (mtimes k (fst t)) m then (c * snd t)%Qc else 0%Qc) rhs). unfold sum_terms. cbn [fold_right fst snd]. ring.
      * intros (s & t & [<-|Is] & It & N); [exfalso; apply N, D; auto|]. apply J2. eauto.
    + rewrite (I2 D). cbn [bind]. split; auto. intros H. exfalso. destruct D as (t & It & N). apply N. apply (H (k, c) t); cbn; auto.
Qed.
Lemma poly_nil_ok : poly_ok []. Proof. split; [constructor|split; constructor]. Qed.
Lemma mul_ok p q : poly_ok p -> poly_ok q ->
  ((forall s t, In s p -> In t q -> mono_safe (fst s) (fst t)) -> exists r, poly_mul_inplace p q = Ok r /\ poly_ok r /\ forall m, coeff r m = prod_coeff p q m) /\
  ((exists s t, In s p /\ In t q /\ ~ mono_safe (fst s) (fst t)) -> poly_mul_inplace p q = UB).
Proof.
  intros P Q. destruct (outer_ok q p [] P Q poly_nil_ok) as [H1 H2]. unfold poly_mul_inplace. change (fix outer (lhs result : poly) {struct lhs} : outcome poly := _) with (ploop_outer q). split.
  - intros H. destruct (H1 H) as (r & E & R & C). exists r. split; auto. split; auto. intros m. rewrite C. cbn. ring.
  - auto.
Qed.
Lemma single_safe a b : (length b <= 1)%nat -> mono_safe a b.
Proof. destruct b as [|x [|y b]]; cbn; intros H z e I; [destruct I|destruct I|lia]. Qed.

(** ** Division, equality, constants *)
Lemma div_ok p c : poly_ok p -> (c = 0%Qc -> poly_div_inplace p c = Throw) /\
  (c <> 0%Qc -> exists r, poly_div_inplace p c = Ok r /\ poly_ok r /\ forall m, coeff r m = (coeff p m / c)%Qc).
Proof.
  intros P. unfold poly_div_inplace. destruct (Qc_zero c) eqn:E; [apply Qc_zero_spec in E|apply Qc_zero_false in E]; split; try congruence. intros _. eexists. split; [reflexivity|]. split.
  - destruct P as (S & F1 & F2). split; [|split].
    + clear -S. induction S as [|x p S IH F]; cbn; constructor; auto. apply Forall_map. cbn. exact F.
    + apply Forall_map. cbn. eapply Forall_impl; [|exact F1]. cbn. intros t Ht H. apply Ht. rewrite <- (Qcmult_div_r (snd t) c E). rewrite H. ring.
    + apply Forall_map. cbn. exact F2.
  - intros m. clear -E. induction p as [|[k d] p IH]; cbn [map coeff fst snd]; unfold Qcdiv in *; [ring|]. rewrite IH. destruct (mono_dec k m); ring.
Qed.
Lemma coeff_in p k c : poly_ok p -> In (k, c) p -> coeff p k = c.
Proof. intros P I. apply in_split in I as (a & b & ->). apply coeff_at. apply P. Qed.
Lemma poly_ext p : forall q, poly_ok p -> poly_ok q -> (forall m, coeff p m = coeff q m) -> p = q.
Proof.
  induction p as [|[k c] p IH]; intros [|[k' c'] q] P Q H; auto.
  - destruct (ok_inv _ _ Q) as (_ & N & _). specialize (H k'). rewrite (coeff_in _ _ _ Q) in H by (cbn; auto). cbn in H, N. congruence.
  - destruct (ok_inv _ _ P) as (_ & N & _). specialize (H k). rewrite (coeff_in _ _ _ P) in H by (cbn; auto). cbn in H, N. congruence.
  - destruct (ok_inv _ _ P) as (P' & Nc & _ & Fk). destruct (ok_inv _ _ Q) as (Q' & Nc' & _ & Fk'). cbn [fst snd] in *.
    assert (LP : forall m v, In (m, v) p -> mono_lt k m = true) by (intros m v I; destruct P as (S & _); inversion S as [|? ? ? F]; subst; rewrite Forall_forall in F; apply F in I; exact I).
    assert (LQ : forall m v, In (m, v) q -> mono_lt k' m = true) by (intros m v I; destruct Q as (S & _); inversion S as [|? ? ? F]; subst; rewrite Forall_forall in F; apply F in I; exact I).
    assert (MEM : forall r m, coeff r m <> 0%Qc -> exists v, In (m, v) r).
    { clear. induction r as [|[j d] r IH]; intros m H; cbn in H; [congruence|]. destruct (mono_dec j m) as [->|]; [exists d; cbn; auto|]. destruct (IH m) as [v I]; [intros E; apply H; rewrite E; ring|]. exists v. cbn. auto. }
    assert (k = k').
    { assert (A : exists v, In (k, v) ((k', c') :: q)) by (apply MEM; rewrite <- H, (coeff_in _ _ _ P) by (cbn; auto); cbn; auto).
      assert (B : exists v, In (k', v) ((k, c) :: p)) by (apply MEM; rewrite H, (coeff_in _ _ _ Q) by (cbn; auto); cbn; auto).
      destruct A as [v [[= -> _]|A]]; auto. destruct B as [w [[= -> _]|B]]; auto. apply LQ in A. apply LP in B. assert (X := mono_lt_trans _ _ _ A B). rewrite mono_lt_irr in X. discriminate. }
    subst k'. assert (c = c'). { specialize (H k). rewrite (coeff_in _ _ c P), (coeff_in _ _ c' Q) in H by (cbn; auto). auto. } subst c'. f_equal. apply IH; auto.
    intros m. specialize (H m). cbn in H. destruct (mono_dec k m) as [->|N]; [rewrite !coeff_absent by auto; auto|]. transitivity (0 + coeff p m)%Qc; [ring|]. rewrite H. ring.
Qed.
Lemma terms_equal_spec a : forall b, terms_equal a b = true <-> a = b.
Proof.
  induction a as [|[k c] a IH]; intros [|[k' c'] b]; cbn; try (split; [discriminate|discriminate]); [tauto|]. rewrite !andb_true_iff, mono_eqb_spec, IH. split.
  - intros [[-> E] ->]. apply Qc_eq_bool_correct in E. congruence.
  - intros [= -> -> ->]. repeat split; auto. unfold Qc_eq_bool. destruct (Qc_eq_dec c' c'); congruence.
Qed.
Lemma cmp_equal_spec p q : poly_ok p -> poly_ok q -> poly_cmp_equal p q = true <-> forall m, coeff p m = coeff q m.
Proof.
  intros P Q. assert (X : poly_cmp_equal p q = true <-> p = q).
  { unfold poly_cmp_equal. destruct (Nat.eqb (length p) (length q)) eqn:E; cbn [negb]; [apply terms_equal_spec|]. apply Nat.eqb_neq in E. split; [discriminate|]. intros ->. congruence. }
  rewrite X. split; [intros ->; auto|apply poly_ext; auto].
Qed.
Lemma is_zero_spec p : poly_ok p -> poly_cmp_is_zero p = true <-> forall m, coeff p m = 0%Qc.
Proof.
  intros P. split; [destruct p; [auto|discriminate]|]. intros H. destruct p as [|[k c] p]; auto. exfalso. destruct (ok_inv _ _ P) as (_ & N & _). apply N. rewrite <- (coeff_in _ k c P) by (cbn; auto). apply H.
Qed.
Lemma is_constant_spec p : poly_ok p -> is_constant p = true <-> forall m, m <> [] -> coeff p m = 0%Qc.
Proof.
  intros P. split.
  - destruct p as [|[k c] [|y p]]; [auto| |discriminate]. destruct k; [|discriminate]. intros _ m N. cbn [coeff]. destruct (mono_dec [] m); [congruence|]. reflexivity.
  - intros H. assert (A : forall k c, In (k, c) p -> k = []). { intros k c I. destruct k as [|x k]; auto. exfalso. assert (X := H (x :: k) ltac:(discriminate)). rewrite (coeff_in _ _ _ P I) in X. destruct P as (_ & F & _). rewrite Forall_forall in F. apply F in I. auto. }
    destruct p as [|[k c] [|[k' c'] p]]; [auto| |].
    + cbn. rewrite (A k c) by (cbn; auto). auto.
    + exfalso. destruct (ok_inv _ _ P) as (_ & _ & _ & N). apply (N c'). cbn [fst]. rewrite (A k c), (A k' c') by (cbn; auto). cbn. auto.
Qed.
Lemma degree_ok p : poly_ok p -> 0 <= poly_degree p /\ (forall m, coeff p m <> 0%Qc -> degree m <= poly_degree p) /\ (0 < poly_degree p -> exists m, coeff p m <> 0%Qc /\ degree m = poly_degree p).
Proof.
  intros P. unfold poly_degree.
  assert (G : forall (q : poly) acc, let r := fold_left (fun acc t => Z.max acc (degree (fst t))) q acc in acc <= r /\ (forall k c, In (k, c) q -> degree k <= r) /\ (acc < r -> exists k c, In (k, c) q /\ degree k = r)).
  { clear. induction q as [|[k c] q IH]; intros acc; cbv zeta; cbn [fold_left fst In]; [split; [lia|split; [intros ? ? []|lia]]|]. destruct (IH (Z.max acc (degree k))) as (A & B & C). split; [lia|]. split.
    - intros j d [[= <- <-]|I]; [lia|]. eapply B; eauto.
    - intros H. destruct (Z_lt_dec (Z.max acc (degree k)) (fold_left (fun a t => Z.max a (degree (fst t))) q (Z.max acc (degree k)))) as [L|L].
      + destruct (C L) as (j & d & I & E). exists j, d. auto.
      + exists k, c. split; auto. lia. }
  destruct (G p 0) as (A & B & C). split; auto. split.
  - intros m H. assert (I : exists v, In (m, v) p).
    { clear -H. induction p as [|[j d] r IH]; cbn in H; [congruence|]. destruct (mono_dec j m) as [->|]; [exists d; cbn; auto|]. destruct IH as [v I]; [intros E; apply H; rewrite E; ring|]. exists v. cbn. auto. }
    destruct I as [v I]. eapply B; eauto.
  - intros H. destruct (C H) as (k & c & I & E). exists k. split; auto. rewrite (coeff_in _ _ _ P I). destruct P as (_ & F & _). rewrite Forall_forall in F. apply F in I. auto.
Qed.

(** ** Exponents and indeterminates *)
Lemma exponent_ok m x : mono_ok m -> exponent m x = Ok (expo m x).
Proof.
  intros H. apply mono_ok_sorted in H. unfold exponent. destruct (find_cases Z.ltb ltb_irr ltb_trans ltb_total m x H) as [(a & w & b & E & -> & En & _)|(NI & -> & _)]; cbn [bind].
  - unfold deref. rewrite En. cbn [bind snd]. f_equal. assert (F := sorted_fresh Z.ltb ltb_irr a x w b). rewrite <- E in F. specialize (F H). rewrite E, expo_app. cbn [expo]. rewrite Z.eqb_refl, !expo_absent; [lia| |]; intros [v I]; apply (F v); apply in_app_iff; auto.
  - f_equal. symmetry. apply expo_absent. intros [e I]. apply (NI e). auto.
Qed.
Lemma lor_add a b n : 0 <= n -> 0 <= b < 2 ^ n -> Z.lor (a * 2 ^ n) b = a * 2 ^ n + b.
Proof.
  intros Hn Hb. rewrite <- Z.shiftl_mul_pow2 by auto. symmetry. apply Z.add_nocarry_lxor || idtac.
  assert (X : Z.land (Z.shiftl a n) b = 0).
  { apply Z.bits_inj'. intros i Hi. rewrite Z.land_spec, Z.bits_0. destruct (Z_lt_dec i n); [rewrite Z.shiftl_spec_low by lia; auto|].
    destruct (Z.eq_dec b 0) as [->|]; [rewrite Z.bits_0; apply andb_false_r|]. rewrite (Z.bits_above_log2 b i); [apply andb_false_r|lia|]. apply Z.log2_lt_pow2; [lia|]. assert (2 ^ n <= 2 ^ i) by (apply Z.pow_le_mono_r; lia). lia. }
  rewrite Z.add_nocarry_lxor by auto. apply Z.lxor_lor. auto.
Qed.
Lemma indet_form c i : -128 <= c < 128 -> 0 <= i < 2 ^ 56 -> indet c i = (c mod 256) * 2 ^ 56 + i.
Proof.
  intros Hc Hi. unfold indet. replace (Z.land i (2 ^ 56 - 1)) with i by (rewrite <- Z.ones_equiv || change (2 ^ 56 - 1) with (Z.ones 56); rewrite Z.land_ones by lia; symmetry; apply Z.mod_small; lia).
  rewrite Z.shiftl_mul_pow2 by lia. replace ((c mod 2 ^ 64 * 2 ^ 56) mod 2 ^ 64) with ((c mod 256) * 2 ^ 56).
  - apply lor_add; lia.
  - change (2 ^ 64) with (256 * 2 ^ 56) at 2. rewrite Z.mul_mod_distr_r by (try lia; cbn; lia). f_equal. change (2 ^ 64) with (256 * 2 ^ 56). rewrite Z.rem_mul_r || idtac; try lia. all: try (rewrite Z.mul_comm, Z.mod_add by lia; rewrite Z.mod_mod by lia; auto).
Qed.
Lemma indet_round c i : -128 <= c < 128 -> 0 <= i < 2 ^ 56 -> indet_prefix (indet c i) = c /\ indet_index (indet c i) = i.
Proof.
  intros Hc Hi. rewrite indet_form by auto. unfold indet_prefix, indet_index. rewrite Z.shiftr_div_pow2 by lia. split.
  - rewrite Z.div_add_l by lia. rewrite (Z.div_small i) by lia. rewrite Z.add_0_r, Z.mod_mod by lia. destruct (Z_lt_dec c 0).
    + replace (c mod 256) with (c + 256) by (rewrite <- (Z.mod_add c 1 256) by lia; symmetry; apply Z.mod_small; lia). destruct (c + 256 <? 128) eqn:E; lia.
    + rewrite (Z.mod_small c) by lia. destruct (c <? 128) eqn:E; lia.
  - change (2 ^ 56 - 1) with (Z.ones 56). rewrite Z.land_ones by lia. rewrite Z.add_comm, Z.mod_add by lia. apply Z.mod_small; lia.
Qed.
Lemma indet_order c i c' i' : -128 <= c < 128 -> -128 <= c' < 128 -> 0 <= i < 2 ^ 56 -> 0 <= i' < 2 ^ 56 ->
  (indet c i <? indet c' i') = true <-> c mod 256 < c' mod 256 \/ (c = c' /\ i < i').
Proof.
  intros Hc Hc' Hi Hi'. rewrite !indet_form by auto. split; intros H.
  - destruct (Z.eq_dec (c mod 256) (c' mod 256)) as [E|E]; [|left; nia]. right. split; [|nia].
    destruct (Z_lt_dec c 0), (Z_lt_dec c' 0); Z.div_mod_to_equations; lia.
  - destruct H as [H|[-> H]]; nia.
Qed.

(** ** What goes wrong *)
Lemma add_to_zero p : poly_ok p -> (2 <= length p)%nat -> poly_add_inplace [] p = UB /\ poly_sub_inplace [] p = UB.
Proof.
  intros P L. destruct p as [|[k c] [|t p]]; cbn in L; try lia. assert (I : In (k, c) (removelast ((k, c) :: t :: p))) by (rewrite removelast_cons by discriminate; cbn; auto).
  split; [apply (add_ok [] _ poly_nil_ok P)|apply (sub_ok [] _ poly_nil_ok P)]; intros H; destruct (H k c I) as [N _]; apply N; reflexivity.
Qed.
Definition poly_one : poly := [([], 1%Qc)].
Lemma poly_one_ok : poly_ok poly_one.
Proof. split; [repeat constructor|]. split; repeat constructor; cbn; discriminate. Qed.
Lemma one_times p k c : poly_ok p -> In (k, c) p -> (2 <= length k)%nat -> poly_mul_inplace poly_one p = UB.
Proof.
  intros P I L. apply (mul_ok _ _ poly_one_ok P). exists ([], 1%Qc), (k, c). split; [cbn; auto|]. split; auto. cbn [fst]. intros H. destruct k as [|[x e] [|y k]]; cbn in L; try lia.
  destruct (H x e) as [f []]. rewrite removelast_cons by discriminate. cbn. auto.
Qed.
Lemma times_one p : poly_ok p -> exists r, poly_mul_inplace p poly_one = Ok r /\ r = p.
Proof.
  intros P. destruct (mul_ok p poly_one P poly_one_ok) as [H _]. destruct H as (r & E & R & C).
  { intros s t _ [<-|[]]. apply single_safe. cbn. lia. }
  exists r. split; auto. apply poly_ext; auto. intros m. rewrite C. clear -P. induction p as [|[k c] p IH]; [reflexivity|]. destruct (ok_inv _ _ P) as (P' & _). cbn [coeff]. rewrite <- (IH P'). unfold prod_coeff, sum_terms. cbn [fold_right fst snd poly_one].
  assert (mtimes k [] = k) as -> by (destruct k as [|[x e] k]; reflexivity). destruct (mono_dec k m); ring.
Qed.
Lemma not_multiplicative : exists a b c, mono_ok a /\ mono_ok b /\ mono_ok c /\ mono_lt a b = true /\ mono_lt (mtimes c a) (mtimes c b) = false /\ mtimes c a <> mtimes c b.
Proof.
  exists [(0, 1)], [(1, 1)], [(0, 1)]. repeat split; try (repeat constructor; fail); discriminate.
Qed.
