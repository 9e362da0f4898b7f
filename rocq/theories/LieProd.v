(** Products of keys with integer coefficients, as functions from basis elements to coefficients. *)
From Coq Require Import ZifyBool Sorted.
From Verif Require Import LieObjModel ShufKeys Alg Words LieSpec T2lLemmas.
Open Scope Z_scope.

Lemma zr_Z z : zr Zcr z = z.
Proof.
  assert (P : forall n, zr Zcr (Z.of_nat n) = Z.of_nat n).
  { induction n as [|n IH]; [reflexivity|]. rewrite Nat2Z.inj_succ. unfold Z.succ. rewrite zr_add, IH. reflexivity. }
  destruct (Z_lt_ge_dec z 0) as [H|H].
  - replace z with (- Z.of_nat (Z.to_nat (- z))) by lia. rewrite zr_opp, P. reflexivity.
  - replace z with (Z.of_nat (Z.to_nat z)) by lia. apply P.
Qed.
Lemma rz_zr (R : cring) z : rz R z = zr R z.
Proof.
  destruct z as [|p|p]; cbn [rz]; [reflexivity| |].
  - rewrite <- zr_rnat. f_equal. lia.
  - rewrite <- zr_rnat, <- zr_opp. f_equal. lia.
Qed.
Lemma zr_sum (K : cring) {B} (l : list B) (f : B -> Z) : zr K (@sum Zcr _ l f) = sum l (fun x => zr K (f x)).
Proof. induction l as [|x l IH]; [reflexivity|]. etransitivity; [apply (zr_add K (f x) (@sum Zcr _ l f))|]. rewrite IH. reflexivity. Qed.

Section Coeffs.
  Variable A : Type.
  Variable eqb : A -> A -> bool.
  Hypothesis eqbP : forall a b, reflect (a = b) (eqb a b).
  Definition co (q : list (A * Z)) (a : A) : Z := @sum Zcr _ q (fun e => if eqb (fst e) a then snd e else 0).
  Definition lf (K : cring) (F : A -> K) (q : list (A * Z)) : K := sum q (fun e => rmul (zr K (snd e)) (F (fst e))).
  Definition lz (F : A -> Z) (q : list (A * Z)) : Z := @sum Zcr _ q (fun e => snd e * F (fst e)).
  Lemma co_cons a v q b : co ((a, v) :: q) b = (if eqb a b then v else 0) + co q b. Proof. reflexivity. Qed.
  Lemma lf_cons K F a v q : lf K F ((a, v) :: q) = radd (rmul (zr K v) (F a)) (lf K F q). Proof. reflexivity. Qed.
  Lemma eq_dec (a b : A) : {a = b} + {a <> b}. Proof. destruct (eqbP a b); auto. Qed.
  Section Ring.
    Variable K : cring.
    Add Ring Kr1 : (rth K).
    Lemma lf_sum (F : A -> K) q S : NoDup S -> incl (map fst q) S -> lf K F q = sum S (fun a => rmul (zr K (co q a)) (F a)).
    Proof.
      intros ND. induction q as [|[a v] q IH]; intros I.
      - symmetry. apply sum_zero. intros x _. unfold co. cbn [sum]. change (zr K (@r0 Zcr)) with (@r0 K). ring.
      - rewrite lf_cons, IH by (intros x Hx; apply I; right; auto).
        rewrite (sum_ext K S (fun a0 => rmul (zr K (co ((a, v) :: q) a0)) (F a0)) (fun b => radd (if eqb a b then rmul (zr K v) (F a) else r0) (rmul (zr K (co q b)) (F b)))).
        2:{ intros b _. rewrite co_cons, zr_add. destruct (eqbP a b) as [<-|]; [ring|]. change (zr K 0) with (@r0 K). ring. }
        rewrite sum_add. f_equal. symmetry. rewrite (sum_single K S _ a).
        + destruct (eqbP a a); congruence.
        + auto.
        + apply I. left. reflexivity.
        + intros y _ Hy. destruct (eqbP a y); congruence.
    Qed.
    Lemma lf_co (F : A -> K) q q' : (forall a, co q a = co q' a) -> lf K F q = lf K F q'.
    Proof.
      intros E. set (S := nodup eq_dec (map fst q ++ map fst q')). assert (ND := NoDup_nodup eq_dec (map fst q ++ map fst q')). fold S in ND.
      rewrite (lf_sum F q S), (lf_sum F q' S); auto.
      - apply sum_ext. intros a _. rewrite E. reflexivity.
      - intros x Hx. apply nodup_In, in_or_app. auto.
      - intros x Hx. apply nodup_In, in_or_app. auto.
    Qed.
    Lemma lf_ext (F G : A -> K) q : (forall e, In e q -> F (fst e) = G (fst e)) -> lf K F q = lf K G q.
    Proof. intros E. apply sum_ext. intros e He. rewrite E; auto. Qed.
    Lemma lf_zr (F : A -> Z) q : zr K (lz F q) = lf K (fun a => zr K (F a)) q.
    Proof. unfold lz. rewrite zr_sum. apply sum_ext. intros e _. apply zr_mul. Qed.
    Lemma lf_ind q a : zr K (co q a) = lf K (fun b => if eqb b a then r1 else r0) q.
    Proof. unfold co. rewrite zr_sum. apply sum_ext. intros e _. destruct (eqb (fst e) a); [ring|]. change (zr K 0) with (@r0 K). ring. Qed.
  End Ring.
  Lemma lz_lf F q : lz F q = lf Zcr F q.
  Proof. unfold lz, lf. apply (sum_ext Zcr). intros e _. rewrite zr_Z. reflexivity. Qed.
  Lemma lz_co F q q' : (forall a, co q a = co q' a) -> lz F q = lz F q'.
  Proof. intros E. rewrite !lz_lf. apply (lf_co Zcr). auto. Qed.
  Lemma lz_ext F G q : (forall e, In e q -> F (fst e) = G (fst e)) -> lz F q = lz G q.
  Proof. intros E. apply (sum_ext Zcr). intros e He. rewrite E; auto. Qed.
  Lemma lz_cons F a v q : lz F ((a, v) :: q) = v * F a + lz F q. Proof. reflexivity. Qed.

  (** *** Lists of keys that stand for coefficients *)
  Variable key : A -> Z.
  Notation keyed := (map (fun e : A * Z => (key (fst e), snd e))).
  Definition rep (P : A -> Prop) (p : kprod) (g : A -> Z) : Prop :=
    exists q, p = keyed q /\ (forall e, In e q -> P (fst e)) /\ forall a, co q a = g a.
  Lemma rep_nil P : rep P [] (fun _ => 0).
  Proof. exists []. split; [reflexivity|]. split; [intros e []|]. reflexivity. Qed.
  Lemma rep_ext P p g g' : (forall a, g a = g' a) -> rep P p g -> rep P p g'.
  Proof. intros E (q & -> & Hq & C). exists q. split; [auto|]. split; [auto|]. intros a. rewrite C. auto. Qed.
  Lemma rep_imp (P P' : A -> Prop) p g : (forall a, P a -> P' a) -> rep P p g -> rep P' p g.
  Proof. intros E (q & -> & Hq & C). exists q. split; [auto|]. split; auto. Qed.
  Definition srt (p : kprod) : Prop := StronglySorted Z.lt (map fst p).
  Lemma srt_nil : srt []. Proof. constructor. Qed.

  Lemma m_upd_srt k f m : srt m -> exists m', m_upd Ok k f m = Ok m' /\ srt m' /\ forall x, In x (map fst m') -> x = k \/ In x (map fst m).
  Proof.
    unfold srt. induction m as [|[q y] m IH]; intros S; cbn [m_upd bind].
    - eexists. split; [reflexivity|]. split; [cbn; constructor; auto; constructor|]. cbn. intuition.
    - cbn [map fst] in S. apply StronglySorted_inv in S. destruct S as [S F]. destruct (Z.ltb_spec k q).
      + eexists. split; [reflexivity|]. split; [|cbn; intuition]. cbn [map fst]. constructor; [constructor; auto|]. constructor; [auto|].
        rewrite Forall_forall in *. intros x Hx. specialize (F x Hx). lia.
      + destruct (Z.eqb_spec q k).
        * eexists. split; [reflexivity|]. split; [constructor; auto|]. cbn. intuition.
        * destruct (IH S) as (m' & E & S' & I'). rewrite E. cbn [bind]. eexists. split; [reflexivity|]. split.
          -- cbn [map fst]. constructor; auto. rewrite Forall_forall in *. intros x Hx. destruct (I' x Hx) as [->|Hx']; [lia|auto].
          -- cbn [map fst]. intros x [<-|Hx]; [right; left; auto|]. destruct (I' x Hx); [auto|right; right; auto].
  Qed.
  Section Pred.
    Variable P : A -> Prop.
    Hypothesis inj : forall a b, P a -> P b -> key a = key b -> a = b.
    Lemma upd_ok p g a f s : rep P p g -> srt p -> P a -> (forall y, f y = y + s) ->
      exists p', m_upd Ok (key a) f p = Ok p' /\ srt p' /\ rep P p' (fun b => g b + (if eqb a b then s else 0)).
    Proof.
      intros (q & -> & Hq & C) S Pa Hf. destruct (m_upd_srt (key a) f _ S) as (m' & E & S' & _). exists m'. split; [auto|]. split; [auto|]. clear S S'.
      revert g m' C E. induction q as [|[b v] q IH]; intros g m' C E; cbn [map fst snd m_upd bind] in E.
      - injection E as <-. exists [(a, f 0)]. split; [reflexivity|]. split; [intros e [<-|[]]; auto|]. intros x. rewrite <- C. unfold co. cbn. rewrite Hf. destruct (eqb a x); lia.
      - assert (Pb := Hq (b, v) (or_introl eq_refl)). cbn [fst] in Pb. destruct (key a <? key b).
        + injection E as <-. exists ((a, f 0) :: (b, v) :: q). split; [reflexivity|]. split; [intros e [<-|He]; auto|]. intros x. rewrite co_cons, C, Hf. destruct (eqb a x); lia.
        + destruct (Z.eqb_spec (key b) (key a)) as [Ek|Nk].
          * assert (b = a) by (apply inj; auto). subst b. injection E as <-. exists ((a, f v) :: q). split; [reflexivity|]. split; [intros e [<-|He]; auto; apply Hq; right; auto|].
            intros x. rewrite <- C, !co_cons, Hf. destruct (eqb a x); lia.
          * destruct (m_upd Ok (key a) f (keyed q)) as [r| | |] eqn:Er; try discriminate. cbn [bind] in E. injection E as <-.
            destruct (IH (fun e He => Hq e (or_intror He)) (co q) r (fun _ => eq_refl) eq_refl) as (q' & -> & Hq' & C').
            exists ((b, v) :: q'). split; [reflexivity|]. split; [intros e [<-|He]; auto|]. intros x. rewrite co_cons, C', <- C, co_cons. lia.
    Qed.
    (** [tmp[inner.first] += v * inner.second] over a product *)
    Lemma add_loop f (F : Z -> Z) s p g : (forall v, f v = Ok (F v)) -> (forall v, F v = s * v) -> rep P p g -> forall m h, rep P m h -> srt m ->
      exists m', for_ p m (fun inner m => let! v := f (snd inner) in m_upd Ok (fst inner) (fun y => y + v) m) = Ok m' /\ srt m' /\ rep P m' (fun a => h a + s * g a).
    Proof.
      intros Hf HF (q & -> & Hq & C). assert (X : forall m h, rep P m h -> srt m ->
        exists m', for_ (keyed q) m (fun inner m => let! v := f (snd inner) in m_upd Ok (fst inner) (fun y => y + v) m) = Ok m' /\ srt m' /\ rep P m' (fun a => h a + s * co q a)).
      { clear g C. induction q as [|[a v] q IH]; intros m h Hm S; cbn [map for_ fst snd].
        - exists m. split; [reflexivity|]. split; [auto|]. eapply rep_ext; [|exact Hm]. intros a. unfold co. cbn. lia.
        - rewrite Hf. cbn [bind]. destruct (upd_ok m h a (fun y => y + F v) (s * v) Hm S (Hq (a, v) (or_introl eq_refl)) ltac:(intros; rewrite HF; lia)) as (m1 & -> & S1 & R1). cbn [bind].
          destruct (IH (fun e He => Hq e (or_intror He)) m1 _ R1 S1) as (m2 & -> & S2 & R2). exists m2. split; [auto|]. split; [auto|].
          eapply rep_ext; [|exact R2]. intros b. cbv beta. rewrite co_cons. destruct (eqb a b); lia. }
      intros m h Hm S. destruct (X m h Hm S) as (m' & E & S' & R'). exists m'. split; [auto|]. split; [auto|]. eapply rep_ext; [|exact R']. intros a. cbv beta. rewrite C. reflexivity.
    Qed.
    Lemma sub_loop f (F : Z -> Z) s p g : (forall v, f v = Ok (F v)) -> (forall v, F v = s * v) -> rep P p g -> forall m h, rep P m h -> srt m ->
      exists m', for_ p m (fun inner m => let! v := f (snd inner) in m_upd Ok (fst inner) (fun y => y - v) m) = Ok m' /\ srt m' /\ rep P m' (fun a => h a - s * g a).
    Proof.
      intros Hf HF (q & -> & Hq & C). assert (X : forall m h, rep P m h -> srt m ->
        exists m', for_ (keyed q) m (fun inner m => let! v := f (snd inner) in m_upd Ok (fst inner) (fun y => y - v) m) = Ok m' /\ srt m' /\ rep P m' (fun a => h a - s * co q a)).
      { clear g C. induction q as [|[a v] q IH]; intros m h Hm S; cbn [map for_ fst snd].
        - exists m. split; [reflexivity|]. split; [auto|]. eapply rep_ext; [|exact Hm]. intros a. unfold co. cbn. lia.
        - rewrite Hf. cbn [bind]. destruct (upd_ok m h a (fun y => y - F v) (- (s * v)) Hm S (Hq (a, v) (or_introl eq_refl)) ltac:(intros; rewrite HF; lia)) as (m1 & -> & S1 & R1). cbn [bind].
          destruct (IH (fun e He => Hq e (or_intror He)) m1 _ R1 S1) as (m2 & -> & S2 & R2). exists m2. split; [auto|]. split; [auto|].
          eapply rep_ext; [|exact R2]. intros b. cbv beta. rewrite co_cons. destruct (eqb a b); lia. }
      intros m h Hm S. destruct (X m h Hm S) as (m' & E & S' & R'). exists m'. split; [auto|]. split; [auto|]. eapply rep_ext; [|exact R']. intros a. cbv beta. rewrite C. reflexivity.
    Qed.
    Lemma uminus_ok p g : rep P p g -> exists p', p_uminus Ok p = Ok p' /\ rep P p' (fun a => - g a).
    Proof.
      intros (q & -> & Hq & C). exists (keyed (map (fun e => (fst e, - snd e)) q)). split.
      - unfold p_uminus. clear. induction q as [|e q IH]; [reflexivity|]. cbn [map omap fst snd]. rewrite IH. reflexivity.
      - exists (map (fun e => (fst e, - snd e)) q). split; [auto|]. split.
        + intros e He. apply in_map_iff in He. destruct He as (x & <- & Hx). apply (Hq x Hx).
        + intros a. rewrite <- C. clear. induction q as [|[b v] q IH]; [reflexivity|]. cbn [map fst snd]. rewrite !co_cons, IH. destruct (eqb b a); lia.
    Qed.
    Lemma fold_insert p : srt p -> fold_left (fun m e => m_insert (fst e) (snd e) m) p [] = p.
    Proof.
      intros S. assert (X : forall l r, srt (l ++ r) -> fold_left (fun m e => m_insert (fst e) (snd e) m) r l = l ++ r).
      { intros l r. revert l. induction r as [|[k v] r IH]; intros l Sl; cbn [fold_left fst snd]; [rewrite app_nil_r; auto|].
        rewrite insert_last.
        - rewrite IH; rewrite <- app_assoc; auto.
        - clear - Sl. unfold srt in Sl. induction l as [|e l IH]; [constructor|]. cbn [app map] in Sl. apply StronglySorted_inv in Sl. destruct Sl as [S F]. constructor; [|auto].
          rewrite Forall_forall in F. apply F. rewrite map_app. apply in_or_app. right. left. reflexivity. }
      apply X. auto.
    Qed.
    Lemma p_sub_ok p p' g g' : rep P p g -> srt p -> rep P p' g' -> exists r, p_sub Ok p p' = Ok r /\ srt r /\ rep P r (fun a => g a - g' a).
    Proof.
      intros Hp S Hp'. unfold p_sub. rewrite fold_insert by auto.
      destruct (sub_loop (fun v => Ok v) (fun v => v) 1 p' g' (fun _ => eq_refl) ltac:(intros; cbv beta; lia) Hp' p g Hp S) as (m & E & S' & R'). cbn [bind] in E.
      exists m. split; [exact E|]. split; [auto|]. eapply rep_ext; [|exact R']. intros a. cbv beta. lia.
    Qed.
    (** Products of combinations, from products of keys *)
    Variable C : Type.
    Variable Inv : hcache -> Prop.
    Section Key.
      Variable op : Z -> Z -> hcache -> outcome (kprod * hcache).
      Variables (B1 : Type) (eqb1 : B1 -> B1 -> bool) (key1 : B1 -> Z).
      Lemma p_mul_key_ok q rhs (G : B1 -> A -> Z) : (forall e, In e q -> forall c, Inv c -> exists p c', op (key1 (fst e)) rhs c = Ok (p, c') /\ Inv c' /\ rep P p (G (fst e))) ->
        forall c, Inv c -> exists p c', p_mul_key Ok op (map (fun e : B1 * Z => (key1 (fst e), snd e)) q) rhs c = Ok (p, c') /\ Inv c' /\ srt p /\
          rep P p (fun a => @sum Zcr _ q (fun e => snd e * G (fst e) a)).
      Proof.
        intros Hop c Hc. unfold p_mul_key.
        set (body := fun outer : Z * Z => fun s : kprod * hcache => let '(m, c) := s in
            let! (p, c) := op (fst outer) rhs c in
            let! m := for_ p m (fun inner m => let! v := Ok (snd outer * snd inner) in m_upd Ok (fst inner) (fun y => y + v) m) in
            Ok (m, c)).
        assert (X : forall m h c, rep P m h -> srt m -> Inv c -> exists p c', for_ (map (fun e : B1 * Z => (key1 (fst e), snd e)) q) (m, c) body = Ok (p, c') /\ Inv c' /\ srt p /\
            rep P p (fun a => h a + @sum Zcr _ q (fun e => snd e * G (fst e) a))).
        { clear c Hc. induction q as [|e q IH]; intros m h c Hm S Hc; cbn [map for_].
          - exists m, c. split; [reflexivity|]. split; [auto|]. split; [auto|]. eapply rep_ext; [|exact Hm]. intros a. cbn. lia.
          - unfold body at 1. cbn [fst snd]. destruct (Hop e (or_introl eq_refl) c Hc) as (p & c1 & -> & Hc1 & Rp). cbn [bind].
            destruct (add_loop (fun v => Ok (snd e * v)) (fun v => snd e * v) (snd e) p _ (fun _ => eq_refl) (fun _ => eq_refl) Rp m h Hm S) as (m1 & E1 & S1 & R1). cbn [bind] in E1. rewrite E1. cbn [bind].
            destruct (IH (fun x Hx => Hop x (or_intror Hx)) m1 _ c1 R1 S1 Hc1) as (m2 & c2 & -> & Hc2 & S2 & R2). exists m2, c2. split; [auto|]. split; [auto|]. split; [auto|].
            eapply rep_ext; [|exact R2]. intros a. cbn. lia. }
        destruct (X [] _ c (rep_nil P) srt_nil Hc) as (p & c' & E & Hc' & S & Rp). exists p, c'. split; [exact E|]. split; [auto|]. split; [auto|]. eapply rep_ext; [|exact Rp]. intros a. cbv beta. lia.
      Qed.
      Lemma p_mul_ok q q2 (G : B1 -> B1 -> A -> Z) : (forall e e2, In e q -> In e2 q2 -> forall c, Inv c -> exists p c', op (key1 (fst e)) (key1 (fst e2)) c = Ok (p, c') /\ Inv c' /\ rep P p (G (fst e) (fst e2))) ->
        forall c, Inv c -> exists p c', p_mul Ok op (map (fun e : B1 * Z => (key1 (fst e), snd e)) q) (map (fun e : B1 * Z => (key1 (fst e), snd e)) q2) c = Ok (p, c') /\ Inv c' /\ srt p /\
          rep P p (fun a => @sum Zcr _ q (fun e => snd e * @sum Zcr _ q2 (fun e2 => snd e2 * G (fst e) (fst e2) a))).
      Proof.
        intros Hop c Hc. unfold p_mul.
        set (body := fun litem ritem : Z * Z => fun s : kprod * hcache => let '(m, c) := s in
            let! (p, c) := op (fst litem) (fst ritem) c in
            let! m := for_ p m (fun inner m => let! v := Ok (snd inner * snd litem) in let! v := Ok (v * snd ritem) in m_upd Ok (fst inner) (fun y => y + v) m) in
            Ok (m, c)).
        assert (X1 : forall e, In e q -> forall m h c, rep P m h -> srt m -> Inv c -> exists p c',
          for_ (map (fun e : B1 * Z => (key1 (fst e), snd e)) q2) (m, c) (body (key1 (fst e), snd e)) = Ok (p, c') /\ Inv c' /\ srt p /\
            rep P p (fun a => h a + snd e * @sum Zcr _ q2 (fun e2 => snd e2 * G (fst e) (fst e2) a))).
        { intros e He. specialize (fun e2 => Hop e e2 He). clear c Hc He. induction q2 as [|e2 q2' IH]; intros m h c Hm S Hc; cbn [map for_].
          - exists m, c. split; [reflexivity|]. split; [auto|]. split; [auto|]. eapply rep_ext; [|exact Hm]. intros a. cbn. lia.
          - unfold body at 1. cbn [fst snd]. destruct (Hop e2 (or_introl eq_refl) c Hc) as (p & c1 & -> & Hc1 & Rp). cbn [bind].
            destruct (add_loop (fun v => Ok (v * snd e * snd e2)) (fun v => v * snd e * snd e2) (snd e * snd e2) p _ (fun _ => eq_refl) ltac:(intros; cbv beta; lia) Rp m h Hm S) as (m1 & E1 & S1 & R1). cbn [bind] in E1. rewrite E1. cbn [bind].
            destruct (IH (fun x Hx => Hop x (or_intror Hx)) m1 _ c1 R1 S1 Hc1) as (m2 & c2 & -> & Hc2 & S2 & R2). exists m2, c2. split; [auto|]. split; [auto|]. split; [auto|].
            eapply rep_ext; [|exact R2]. intros a. cbn. lia. }
        clear Hop. assert (X : forall m h c, rep P m h -> srt m -> Inv c -> exists p c',
          for_ (map (fun e : B1 * Z => (key1 (fst e), snd e)) q) (m, c) (fun litem s => for_ (map (fun e : B1 * Z => (key1 (fst e), snd e)) q2) s (body litem)) = Ok (p, c') /\ Inv c' /\ srt p /\
            rep P p (fun a => h a + @sum Zcr _ q (fun e => snd e * @sum Zcr _ q2 (fun e2 => snd e2 * G (fst e) (fst e2) a)))).
        { clear c Hc. induction q as [|e q' IH]; intros m h c Hm S Hc; cbn [map for_].
          - exists m, c. split; [reflexivity|]. split; [auto|]. split; [auto|]. eapply rep_ext; [|exact Hm]. intros a. cbn. lia.
          - destruct (X1 e (or_introl eq_refl) m h c Hm S Hc) as (m1 & c1 & -> & Hc1 & S1 & R1). cbn [bind].
            destruct (IH (fun x Hx => X1 x (or_intror Hx)) m1 _ c1 R1 S1 Hc1) as (m2 & c2 & -> & Hc2 & S2 & R2). exists m2, c2. split; [auto|]. split; [auto|]. split; [auto|].
            eapply rep_ext; [|exact R2]. intros a. cbn. lia. }
        destruct (X [] _ c (rep_nil P) srt_nil Hc) as (p & c' & E & Hc' & S & Rp). exists p, c'. split; [exact E|]. split; [auto|]. split; [auto|]. eapply rep_ext; [|exact Rp]. intros a. cbv beta. lia.
      Qed.
    End Key.
  End Pred.
End Coeffs.
