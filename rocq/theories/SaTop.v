(** Proofs: every command, then every program. *)
From Verif Require Import SaSpec SaProofs.
Open Scope nat_scope.

Section Top.
  Variables T V : Type.
  Variable ty_eqb : T -> T -> bool.
  Hypothesis ty_eqb_spec : forall a b, ty_eqb a b = true <-> a = b.
  Variable zero : T -> V.
  Notation world := (world T V).
  Notation does := (does T V zero).
  Notation step := (step T V ty_eqb zero).
  Notation run := (run T V ty_eqb zero).
  Notation R := (R T V).
  Notation wf := (wf T V).
  Notation conc := (conc T).
  Notation count := (count T).
  Notation own := (own T).
  Notation good := (good T V).
  Notation Rm := (Rm T V).

  Definition answers (s : state T V) (c : cmd T V) (o : reply V) (s' : state T V) : Prop :=
    match o with
    | RDone _ => step s c = Ok (s', None)
    | RValue _ v => step s c = Ok (s', Some v)
    | RError _ => step s c = Throw /\ s' = s
    end.

  Lemma var_is (w : world) e x a : e = map (option_map conc) (arrays T V w) -> is T V w x a -> var e x = Some (conc a).
  Proof.
    intros -> H. unfold is in H. unfold var. rewrite nth_error_map. rewrite H. reflexivity.
  Qed.
  Lemma wf_new w a : wf w -> good (regions T V w) (Some a) -> wf (with_new T V w a).
  Proof. intros W G x b H. cbn in H. apply nth_app_inv in H. destruct H as [H|[_ ->]]; [now apply (W x)|assumption]. Qed.
  Lemma wf_put w x a : wf w -> good (regions T V w) a -> wf (with_array T V w x a).
  Proof. intros W G y b H. cbn in H. apply put_inv in H. destruct H as [[_ ->]|[_ H]]; [assumption|now apply (W y)]. Qed.
  Lemma R_new w m m' e a : R w (m, e) -> Rm (regions T V w) (fun r => count r (arrays T V w) + own r (Some a)) m' -> R (with_new T V w a) (m', e ++ [Some (conc a)]).
  Proof.
    intros [E _] H. split; cbn in *; [rewrite map_app; now rewrite E|]. revert H. apply Rm_ext. intros r _. now rewrite count_app.
  Qed.
  Lemma R_new_view w m e a : R w (m, e) -> (forall r, own r (Some a) = 0) -> R (with_new T V w a) (m, e ++ [Some (conc a)]).
  Proof. intros HR H. eapply R_new; [eassumption|]. destruct HR as [_ HR]. revert HR. apply Rm_ext. intros r _. rewrite H. lia. Qed.
  Lemma own_le w x a : is T V w x a -> forall r, own r (Some a) <= count r (arrays T V w).
  Proof. intros H r. now apply own_le_count with (x := x). Qed.

  Lemma simulates w c w' o : does w c w' o -> wf w -> forall s, R w s -> exists s', answers s c o s' /\ R w' s' /\ wf w'.
  Proof.
    intros D W [m e] HR. assert (E : e = map (option_map conc) (arrays T V w)) by apply HR. assert (HM := proj2 HR). cbn [fst] in HM.
    destruct D as [|t n Hn|t|obj const r off n g Hg Hgv Hl|x a Hx|x Hx|x obj t k p n Hx|x a Hx|x a Hx|x y a Hx Hy|x y a obj t r off n l N Hx Hy Hel
      |x a Hx|x y a obj t p n N Hx Hy|x y a b N Hx Hy Hb|x i obj t k r off n g v Hx Al Hi Hg Hv|x i obj t k p n Hx Hi|x i v obj t k r off n g Hx Hk Al Hi Hg
      |x i v obj t p n Hx|x i v obj t k p n Hx Hi|const x b q obj t k p n Hx Hbe Hp Hc|const x b q obj t k p n Hx Hq|const x b q obj t n Hx|x b q obj t p n Hx
      |const x obj t k p n Hx Hp Hc|x obj t p n Hx|const x obj t n Hx];
      try (pose proof (var_is _ _ _ _ E Hx) as Vx); try (pose proof (var_is _ _ _ _ E Hy) as Vy); try (pose proof (W _ _ Hx) as Gx); try (pose proof (W _ _ Hy) as Gy).
    - exists (m, e ++ [Some (null T)]). split; [reflexivity|]. split; [apply (R_new_view w m e (Nothing T)); auto|]. now apply wf_new.
    - destruct n as [|n]; [lia|]. destruct (alloc_ok T V (regions T V w) (fun r => count r (arrays T V w) + own r (Some (Array T true t AOwn (Some (length (regions T V w), 0)) (S n)))) m t (repeat (zero t) (S n))) as [HA HB].
      + revert HM. apply Rm_ext. intros r Hr. unfold SaProofs.own. cbn. destruct (Nat.eqb_spec r (length (regions T V w))); lia.
      + rewrite no_new with (1 := W). unfold SaProofs.own. cbn. now rewrite Nat.eqb_refl.
      + eexists. split; [cbn; reflexivity|]. split.
        * split; cbn [fst snd regions arrays].
          -- rewrite map_app. rewrite E. cbn. destruct HM as [-> _]. reflexivity.
          -- revert HA. apply Rm_ext. intros r _. now rewrite count_app.
        * intros x b H. cbn [arrays regions] in *. apply nth_app_inv in H. destruct H as [H|[_ ->]]; [apply good_app; now apply (W x)|].
          cbn [SaProofs.good]. eexists. split; [apply nth_app_new|]. cbn [rg_ty rg_vals rg_given]. rewrite repeat_length. repeat split; auto with arith.
    - exists (m, e ++ [Some (conc (Array T true t AConst None 0))]). split; [reflexivity|]. split; [apply R_new_view; auto|]. apply wf_new; [assumption|exact I].
    - exists (m, e ++ [Some (conc (Array T obj (rg_ty T V g) (if const then AConst else AMut) (Some (r, off)) n))]).
      split; [destruct const; reflexivity|]. split; [apply R_new_view; [assumption|]; intros r'; destruct const; reflexivity|]. apply wf_new; [assumption|].
      exists g. split; [assumption|]. split; [reflexivity|]. split; [assumption|]. destruct const; discriminate.
    - destruct (copy_ok T V _ _ m a HM Gx (own_le _ _ _ Hx)) as (m' & Ec & Hm'). exists (m', e ++ [Some (conc a)]). split; [cbn; rewrite Vx, Ec; reflexivity|].
      split; [now apply (R_new w m)|]. now apply wf_new.
    - exists (m, put x (Some (conc (Nothing T))) e ++ [Some (conc (Nothing T))]). split; [cbn; rewrite Vx; reflexivity|].
      assert (put x (Some (conc (Nothing T))) e = e) as ->. { apply put_id. rewrite E, nth_error_map. unfold is in Hx. rewrite Hx. reflexivity. }
      split; [apply R_new_view; auto|]. now apply wf_new.
    - exists (m, put x (Some (conc (Array T obj t k None n))) e ++ [Some (conc (Array T obj t k p n))]). split; [cbn; rewrite Vx; reflexivity|]. split.
      + split; cbn [fst snd regions arrays with_new with_array].
        * rewrite map_app, map_put. now rewrite E.
        * revert HM. apply Rm_ext. intros r _. rewrite count_app. pose proof (count_put T r (Some (Array T obj t k None n)) _ _ _ Hx) as C.
          assert (own r (Some (Array T obj t k None n)) = 0) by (destruct k; reflexivity). cbn beta in *. lia.
      + apply wf_new; [apply wf_put; [assumption|exact I]|exact Gx].
    - destruct (destroy_ok T V _ _ m a HM Gx (own_le _ _ _ Hx)) as (m' & Ec & Hm'). exists (m', put x None e). split; [cbn; rewrite Vx, Ec; reflexivity|]. split.
      + split; cbn [fst snd regions arrays with_array]; [rewrite map_put; now rewrite E|]. revert Hm'. apply Rm_ext. intros r _.
        pose proof (count_put T r None _ _ _ Hx) as C. cbn in C. change (own r None) with 0 in C. lia.
      + apply wf_put; [assumption|exact I].
    - exists (m, e). split; [cbn; rewrite Vx, Nat.eqb_refl; reflexivity|]. now split.
    - exists (m, e). split; [|now split]. cbn. rewrite Vx, Vy. destruct (Nat.eqb x y); [reflexivity|]. cbn. rewrite put_id; [reflexivity|].
      rewrite E, nth_error_map. unfold is in Hx. rewrite Hx. reflexivity.
    - destruct Hel as (g & Hg & ->). cbn [SaProofs.good] in Gy. destruct Gy as (g' & Hg' & Ht & Hln & Ho). rewrite Hg in Hg'. injection Hg' as <-. destruct (Ho eq_refl) as [-> Hgv]. subst t.
      set (ny := Array T obj (rg_ty T V g) AOwn (Some (length (regions T V w), 0)) n).
      destruct (destroy_ok T V _ _ m a HM Gx (own_le _ _ _ Hx)) as (m1 & Ec & Hm1).
      assert (P : 0 < count r (arrays T V w) - own r (Some a)).
      { pose proof (count_put T r None _ _ _ Hx) as C. change (own r None) with 0 in C. assert (0 < count r (put x None (arrays T V w))); [|lia].
        apply count_pos. exists y. eexists. split; [rewrite put_other by assumption; exact Hy|]. cbn. apply Nat.eqb_refl. }
      pose proof (load_from_ok T V ty_eqb ty_eqb_spec _ _ _ r g n 0 Hm1 Hg (or_intror P) Hln) as HL.
      destruct (alloc_ok T V (regions T V w) (fun r => count r (put x (Some ny) (arrays T V w))) m1 (rg_ty T V g) (firstn n (skipn 0 (rg_vals T V g)))) as [HA HB].
      + revert Hm1. apply Rm_ext. intros r' Hr'. pose proof (count_put T r' (Some ny) _ _ _ Hx) as C.
        assert (own r' (Some ny) = 0) by (unfold SaProofs.own; cbn; destruct (Nat.eqb_spec r' (length (regions T V w))); lia). lia.
      + pose proof (count_put T (length (regions T V w)) (Some ny) _ _ _ Hx) as C. rewrite no_new with (1 := W) in C.
        pose proof (own_le _ _ _ Hx (length (regions T V w))) as C'. rewrite no_new with (1 := W) in C'.
        assert (own (length (regions T V w)) (Some ny) = 1) by (unfold SaProofs.own; cbn; now rewrite Nat.eqb_refl). lia.
      + exists (m1 ++ [Some (mkBlock T V (rg_ty T V g) (firstn n (skipn 0 (rg_vals T V g))) (Some 1))], put x (Some (conc ny)) e). split; [|split].
        * cbn [answers SaModel.step]. rewrite Vx, Vy. rewrite (proj2 (Nat.eqb_neq x y) N). unfold assign. cbn [SaProofs.conc a_ty a_mode a_slot a_size SaProofs.conc_mode SaProofs.conc_slot].
          rewrite Ec. cbn [bind]. destruct Hm1 as [Lm _]. unfold ny. cbn [SaProofs.conc SaProofs.conc_mode SaProofs.conc_slot].
          destruct obj.
          -- destruct n as [|n]; [cbn; now rewrite Lm|]. unfold pointer. cbn [a_mode a_slot raw_pointer bind]. cbv beta iota.
             unfold raw_pointer. cbn [a_mode a_slot bind]. rewrite HL. cbn [bind raw_alloc]. now rewrite Lm.
          -- unfold raw_pointer. cbn [a_mode a_slot bind]. rewrite HL. cbn [bind raw_alloc]. now rewrite Lm.
        * split; cbn [fst snd regions arrays]; [rewrite map_put; now rewrite E|exact HA].
        * intros z b H. cbn [arrays regions] in *. apply put_inv in H. destruct H as [[_ ->]|[_ H]]; [|apply good_app; now apply (W z)].
          cbn [SaProofs.good ny]. eexists. split; [apply nth_app_new|]. cbn [rg_ty rg_vals rg_given skipn]. rewrite firstn_length. repeat split; auto. cbn in Hln. lia.
    - exists (m, e). split; [cbn; rewrite Vx, Nat.eqb_refl; reflexivity|]. now split.
    - destruct (destroy_ok T V _ _ m a HM Gx (own_le _ _ _ Hx)) as (m1 & Ec & Hm1).
      exists (m1, put y (Some (conc (Array T obj t AOwn None n))) (put x (Some (conc (Array T obj t AOwn p n))) e)). split; [|split].
      + cbn [answers SaModel.step]. rewrite Vx, Vy. rewrite (proj2 (Nat.eqb_neq x y) N). unfold move_assign. rewrite Ec. reflexivity.
      + split; cbn [fst snd regions arrays with_array]; [rewrite !map_put; now rewrite E|]. revert Hm1. apply Rm_ext. intros r _.
        pose proof (count_put T r (Some (Array T obj t AOwn p n)) _ _ _ Hx) as C.
        assert (Hy' : nth_error (put x (Some (Array T obj t AOwn p n)) (arrays T V w)) y = Some (Some (Array T obj t AOwn p n))) by (rewrite put_other by assumption; exact Hy).
        pose proof (count_put T r (Some (Array T obj t AOwn None n)) _ _ _ Hy') as C'. change (own r (Some (Array T obj t AOwn None n))) with 0 in C'.
        pose proof (own_le _ _ _ Hx r). lia.
      + apply wf_put; [apply wf_put; [assumption|exact Gy]|exact I].
    - destruct (destroy_ok T V _ _ m a HM Gx (own_le _ _ _ Hx)) as (m1 & Ec & Hm1).
      exists (m1, put x (Some (conc b)) e). split; [|split].
      + cbn [answers SaModel.step]. rewrite Vx, Vy. rewrite (proj2 (Nat.eqb_neq x y) N). unfold move_assign. rewrite Ec. cbn [bind].
        assert (a_mode T (conc b) <> Owned) as Hm. { destruct b as [|obj t k p n]; [discriminate|]. cbn. destruct k; try discriminate. exfalso. now apply (Hb obj t p n). }
        replace (match a_mode T (conc b) with Owned => _ | _ => conc b end) with (conc b) by (destruct (a_mode T (conc b)); congruence).
        do 3 f_equal. apply put_id. rewrite put_other by assumption. rewrite E, nth_error_map. unfold is in Hy. rewrite Hy. reflexivity.
      + split; cbn [fst snd regions arrays with_array]; [rewrite map_put; now rewrite E|]. revert Hm1. apply Rm_ext. intros r _.
        pose proof (count_put T r (Some b) _ _ _ Hx) as C.
        assert (own r (Some b) = 0). { unfold SaProofs.own. destruct b as [|obj t k p n]; [reflexivity|]. cbn. destruct k; try reflexivity. exfalso. now apply (Hb obj t p n). }
        pose proof (own_le _ _ _ Hx r). lia.
      + apply wf_put; [assumption|exact Gy].
    - exists (m, e). split; [|now split]. cbn [answers SaModel.step]. rewrite Vx. cbn [SaProofs.good] in Gx. destruct Gx as (g' & Hg' & Ht & Hln & Ho). rewrite Hg in Hg'. injection Hg' as <-. subst t.
      apply alive_cnt in Al. destruct Al as (g' & Hg' & Al). rewrite Hg in Hg'. injection Hg' as <-.
      pose proof (load_ok T V ty_eqb ty_eqb_spec _ _ _ _ _ _ _ HM Hg Al Hv) as HL. apply Nat.ltb_lt in Hi.
      unfold get. cbn [SaProofs.conc a_ty a_size]. rewrite Hi. unfold raw_pointer. cbn [SaProofs.conc a_mode a_slot].
      destruct k; cbn [SaProofs.conc_mode SaProofs.conc_slot bind]; try (rewrite HL; reflexivity). destruct (Ho eq_refl) as [-> _]. rewrite HL. reflexivity.
    - exists (m, e). split; [|now split]. cbn [answers SaModel.step]. rewrite Vx. unfold get. cbn [SaProofs.conc a_ty a_size]. destruct (Nat.ltb_spec i n); [lia|]. now split.
    - cbn [SaProofs.good] in Gx. destruct Gx as (g' & Hg' & Ht & Hln & Ho). rewrite Hg in Hg'. injection Hg' as <-. subst t.
      apply alive_cnt in Al. destruct Al as (g' & Hg' & Al). rewrite Hg in Hg'. injection Hg' as <-.
      destruct (store_ok T V ty_eqb ty_eqb_spec _ _ m r g (off + i) v HM Hg Al ltac:(lia)) as (m' & HS & HM').
      exists (m', e). split; [|split].
      + cbn [answers SaModel.step]. rewrite Vx. unfold set. cbn [SaProofs.conc a_ty a_size]. unfold is_const, raw_pointer. cbn [SaProofs.conc a_mode a_slot]. apply Nat.ltb_lt in Hi. rewrite Hi.
        destruct k; cbn [SaProofs.conc_mode SaProofs.conc_slot bind]; [congruence|rewrite HS; reflexivity|]. destruct (Ho eq_refl) as [-> _]. rewrite HS. reflexivity.
      + split; [exact E|exact HM'].
      + intros z b H. cbn [arrays regions] in *. specialize (W z b H). destruct b as [[|obj' t' k' [[r' off']|] n']|]; auto. cbn [SaProofs.good] in *.
        destruct W as (h & Hh & Q1 & Q2 & Q3). destruct (Nat.eq_dec r r') as [<-|Nr].
        * rewrite Hg in Hh. injection Hh as <-. eexists. split; [apply put_same; now apply nth_lt in Hg|]. cbn [rg_ty rg_vals rg_given]. rewrite put_length. auto.
        * exists h. rewrite put_other by assumption. auto.
    - exists (m, e). split; [|now split]. cbn [answers SaModel.step]. rewrite Vx. now split.
    - exists (m, e). split; [|now split]. cbn [answers SaModel.step]. rewrite Vx. unfold set. cbn [SaProofs.conc a_ty a_size]. destruct (is_const T _); [now split|]. destruct (Nat.ltb_spec i n); [lia|]. now split.
    - set (na := Array T obj t (if const then AConst else AMut) (match p with Some (r, off) => Some (r, off + b) | None => None end) (q - b)).
      exists (m, e ++ [Some (conc na)]). split; [|split].
      + cbn [answers SaModel.step]. rewrite Vx. destruct Hbe as [Hbq Hqn]. apply Nat.leb_le in Hbq. apply Nat.leb_le in Hqn.
        assert (HO : forall o, k = AOwn -> p = Some o -> snd o = 0). { intros [r o] -> ->. cbn [SaProofs.good] in Gx. destruct Gx as (g & _ & _ & _ & Ho). now apply Ho. }
        unfold na. destruct const.
        * unfold slice, pointer, raw_pointer. cbn [SaProofs.conc a_ty a_mode a_slot a_size]. rewrite Hqn.
          destruct p as [[r off]|]; destruct k; cbn [SaProofs.conc_mode SaProofs.conc_slot bind]; try (now destruct (Hp eq_refl)); rewrite Hbq; try reflexivity.
          pose proof (HO _ eq_refl eq_refl) as O. cbn in O. subst off. reflexivity.
        * destruct Hc as [Hc|Hc]; [discriminate|]. unfold slice_mut, mut_pointer, pointer, raw_pointer. cbn [SaProofs.conc a_ty a_mode a_slot a_size]. rewrite Hqn.
          destruct p as [[r off]|]; destruct k; cbn [SaProofs.conc_mode SaProofs.conc_slot bind]; try congruence; try (now destruct (Hp eq_refl)); rewrite Hbq; try reflexivity.
          pose proof (HO _ eq_refl eq_refl) as O. cbn in O. subst off. reflexivity.
      + apply R_new_view; [assumption|]. intros r. unfold SaProofs.own, na. destruct const; reflexivity.
      + apply wf_new; [assumption|]. unfold na. destruct p as [[r off]|]; [|exact I]. cbn [SaProofs.good] in *. destruct Gx as (g & Hg & Ht & Hln & _). exists g. repeat split; auto; try lia; destruct const; discriminate.
    - exists (m, e). split; [|now split]. cbn [answers SaModel.step]. rewrite Vx. unfold slice, slice_mut. cbn [SaProofs.conc a_size]. destruct (Nat.leb_spec q n); [lia|]. destruct const; now split.
    - exists (m, e). split; [|now split]. cbn [answers SaModel.step]. rewrite Vx. unfold slice, slice_mut. cbn [SaProofs.conc a_size]. destruct (Nat.leb q n); destruct const; now split.
    - exists (m, e). split; [|now split]. cbn [answers SaModel.step]. rewrite Vx. unfold slice, slice_mut. cbn [SaProofs.conc a_size]. destruct (Nat.leb q n); now split.
    - set (na := Array T obj t (if const then AConst else AMut) p n).
      exists (m, e ++ [Some (conc na)]). split; [|split].
      + cbn [answers SaModel.step]. rewrite Vx.
        assert (HO : forall o, k = AOwn -> p = Some o -> snd o = 0). { intros [r o] -> ->. cbn [SaProofs.good] in Gx. destruct Gx as (g & _ & _ & _ & Ho). now apply Ho. }
        unfold na. destruct const.
        * unfold borrow, pointer, raw_pointer. cbn [SaProofs.conc a_ty a_mode a_slot a_size].
          destruct p as [[r off]|]; destruct k; cbn [SaProofs.conc_mode SaProofs.conc_slot bind slot_at]; try (now destruct (Hp eq_refl)); rewrite ?Nat.add_0_r; try reflexivity.
          pose proof (HO _ eq_refl eq_refl) as O. cbn in O. subst off. reflexivity.
        * destruct Hc as [Hc|Hc]; [discriminate|]. unfold borrow_mut, mut_pointer, pointer, raw_pointer. cbn [SaProofs.conc a_ty a_mode a_slot a_size].
          destruct p as [[r off]|]; destruct k; cbn [SaProofs.conc_mode SaProofs.conc_slot bind slot_at]; try congruence; try (now destruct (Hp eq_refl)); rewrite ?Nat.add_0_r; try reflexivity.
          pose proof (HO _ eq_refl eq_refl) as O. cbn in O. subst off. reflexivity.
      + apply R_new_view; [assumption|]. intros r. unfold SaProofs.own, na. destruct const; destruct p as [[? ?]|]; reflexivity.
      + apply wf_new; [assumption|]. unfold na. destruct p as [[r off]|]; [|exact I]. cbn [SaProofs.good] in *. destruct Gx as (g & Hg & Ht & Hln & _). exists g. repeat split; auto; destruct const; discriminate.
    - exists (m, e). split; [|now split]. cbn [answers SaModel.step]. rewrite Vx. now split.
    - exists (m, e). split; [|now split]. cbn [answers SaModel.step]. rewrite Vx. destruct const; now split.
  Qed.
End Top.
