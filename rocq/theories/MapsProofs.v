(** Which histories of maps objects are free of double deletion and use after deletion. *)
From Coq Require Import ZArith List Bool Lia Arith.
Import ListNotations.
From Verif Require Import Outcome MapsModel.
Open Scope nat_scope.

(** ** Specification: read off the history alone *)
Definition is_new (o : mop) : bool := match o with NewBases | NewWD _ => true | _ => false end.
Definition news (l : list mop) : nat := length (filter is_new l).
(** Object [h] is the one made by this occurrence of [NewWD a]. *)
Definition made (l : list mop) (h : nat) (a : wd) (later : list mop) : Prop := exists earlier, l = earlier ++ NewWD a :: later /\ news earlier = h.
(** No copies; objects are used and deleted only while they exist. *)
Definition proper (l : list mop) : Prop := forall pre o post, l = pre ++ o :: post ->
  match o with CopyOf _ => False | Use h | Del h => h < news pre /\ ~ In (Del h) pre | _ => True end.
Definition deletes_cached (l : list mop) : Prop := exists h a later, made l h a later /\ In (Del h) l.
Definition uses_replaced (l : list mop) : Prop := exists pre h post a later, l = pre ++ Use h :: post /\ made pre h a later /\ In (NewWD a) later.

(** ** Proof *)
Lemma wd_eqb_iff a b : wd_eqb a b = true <-> a = b.
Proof. unfold wd_eqb. rewrite andb_true_iff, !Z.eqb_eq. destruct a, b; cbn. split; [intros [-> ->]; auto|intros Q; injection Q; auto]. Qed.
Lemma set_nth_len l n b : length (set_nth l n b) = length l. Proof. revert n. induction l as [|x l IH]; intros [|n]; cbn; auto. Qed.
Lemma set_nth_at l n m : nth m (set_nth l n false) false = if Nat.eqb n m then false else nth m l false.
Proof. revert n m. induction l as [|x l IH]; intros [|n] [|m]; cbn; auto; try (destruct (Nat.eqb n m); reflexivity). Qed.
Lemma lookup_assign c a i b : m_lookup (m_assign c a i) b = if wd_eqb a b then Some i else m_lookup c b.
Proof.
  induction c as [|(x, j) c IH]; cbn.
  - destruct (wd_eqb a b); auto.
  - destruct (wd_eqb x a) eqn:E; cbn; [apply wd_eqb_iff in E; subst; destruct (wd_eqb a b); auto|]. rewrite IH. destruct (wd_eqb x b) eqn:E2; auto.
    destruct (wd_eqb a b) eqn:E3; auto. apply wd_eqb_iff in E2, E3. subst. rewrite (proj2 (wd_eqb_iff b b) eq_refl) in E. discriminate.
Qed.
Lemma assign_keys c a i : NoDup (map fst c) -> NoDup (map fst (m_assign c a i)) /\ (forall x, In x (map fst (m_assign c a i)) -> x = a \/ In x (map fst c)).
Proof.
  induction c as [|(x, j) c IH]; intros ND; cbn [m_assign map fst] in *; [split; [repeat constructor; auto|intros y [<-|[]]; auto]|].
  inversion ND as [|? ? N1 N2]; subst. destruct (wd_eqb x a) eqn:E; cbn [map fst].
  - split; auto.
  - destruct (IH N2) as [A B]. split.
    + constructor; auto. intros Q. destruct (B _ Q) as [->|Q2]; [rewrite (proj2 (wd_eqb_iff a a) eq_refl) in E; discriminate|auto].
    + intros y [<-|Q]; [right; left; auto|]. destruct (B _ Q); auto. right; right; auto.
Qed.
Lemma lookup_in c a i : NoDup (map fst c) -> m_lookup c a = Some i <-> In (a, i) c.
Proof.
  induction c as [|(x, j) c IH]; intros ND; cbn [m_lookup map fst In] in *; [split; [discriminate|intros []]|]. inversion ND as [|? ? N1 N2]; subst.
  destruct (wd_eqb x a) eqn:E.
  - apply wd_eqb_iff in E. subst. split; [intros Q; injection Q as <-; auto|]. intros [Q|Q]; [injection Q as <-; auto|]. exfalso. apply N1. apply in_map_iff. exists (a, i). auto.
  - rewrite IH by auto. split; auto. intros [Q|Q]; [|auto]. injection Q as -> ->. rewrite (proj2 (wd_eqb_iff a a) eq_refl) in E. discriminate.
Qed.
Lemma run_app l1 l2 s : m_run (l1 ++ l2) s = let! s := m_run l1 s in m_run l2 s.
Proof. revert s. induction l1 as [|o l1 IH]; intros s; cbn [app m_run]; [reflexivity|]. destruct (m_step o s); cbn [bind]; auto. Qed.
Lemma news_app a b : news (a ++ b) = news a + news b. Proof. unfold news. rewrite filter_app, app_length. auto. Qed.
Lemma snoc_split (l pre post : list mop) (o x : mop) : l ++ [o] = pre ++ x :: post -> (post = [] /\ l = pre /\ o = x) \/ (exists post', post = post' ++ [o] /\ l = pre ++ x :: post').
Proof.
  intros E. destruct post as [|p post] using rev_ind.
  - left. apply app_inj_tail in E. destruct E; auto.
  - right. rewrite app_comm_cons, app_assoc in E. apply app_inj_tail in E. destruct E as [E ->]. eauto.
Qed.
Lemma made_snoc l o h a later : made (l ++ [o]) h a later <-> (later = [] /\ o = NewWD a /\ news l = h) \/ (exists later', later = later' ++ [o] /\ made l h a later').
Proof.
  split.
  - intros (e & E & N). apply snoc_split in E. destruct E as [(-> & -> & ->)|(p & -> & ->)]; [auto|]. right. exists p. split; auto. exists e. auto.
  - intros [(-> & -> & N)|(l' & -> & e & -> & N)].
    + exists l. auto.
    + exists e. rewrite <- app_assoc. auto.
Qed.
(** Last object made for [a]. *)
Definition latest (l : list mop) (a : wd) (h : nat) : Prop := exists later, made l h a later /\ ~ In (NewWD a) later.
Definition replaced (l : list mop) (h : nat) : Prop := exists a later, made l h a later /\ In (NewWD a) later.
Definition inv (l : list mop) (s : mstate) : Prop :=
  length (heap s) = news l /\ objs s = seq 0 (news l) /\ NoDup (map fst (cache s)) /\
  (forall a h, m_lookup (cache s) a = Some h <-> latest l a h) /\
  (forall h, h < news l -> (nth h (heap s) false = true <-> ~ In (Del h) l /\ ~ replaced l h)).
Lemma made_lt l h a later : made l h a later -> h < news l.
Proof. intros (e & -> & <-). rewrite news_app. cbn. lia. Qed.
Lemma latest_snoc l o a h : latest (l ++ [o]) a h <-> (o = NewWD a /\ news l = h) \/ (o <> NewWD a /\ latest l a h).
Proof.
  unfold latest. split.
  - intros (later & M & N). apply made_snoc in M. destruct M as [(-> & -> & E)|(p & -> & M)]; [auto|]. right. rewrite in_app_iff in N. split; [intros ->; apply N; right; left; auto|]. exists p. split; auto.
  - intros [[-> E]|[Ho (later & M & N)]].
    + exists []. split; [apply made_snoc; auto|intros []].
    + exists (later ++ [o]). split; [apply made_snoc; eauto|]. rewrite in_app_iff. intros [Q|[Q|[]]]; auto.
Qed.
Lemma replaced_snoc l o h : replaced (l ++ [o]) h <-> replaced l h \/ (exists a, o = NewWD a /\ latest l a h).
Proof.
  unfold replaced. split.
  - intros (a & later & M & N). apply made_snoc in M. destruct M as [(-> & _)|(p & -> & M)]; [destruct N|]. apply in_app_iff in N. destruct (in_dec (fun x y : mop => ltac:(repeat decide equality) : {x = y} + {x <> y}) (NewWD a) p) as [I|I]; [left; eauto|].
    destruct N as [N|[N|[]]]; [contradiction|]. right. exists a. split; auto. exists p. auto.
  - intros [(a & later & M & N)|(a & -> & later & M & N)].
    + exists a, (later ++ [o]). split; [apply made_snoc; eauto|apply in_app_iff; auto].
    + exists a, (later ++ [NewWD a]). split; [apply made_snoc; eauto|apply in_app_iff; right; left; auto].
Qed.
Lemma made_fun l h a later a' later' : made l h a later -> made l h a' later' -> a = a' /\ later = later'.
Proof.
  revert later later'. induction l as [|o l IH] using rev_ind; intros later later' M M'.
  - destruct M as (e & E & _). destruct e; discriminate.
  - apply made_snoc in M, M'. destruct M as [(-> & E1 & N)|(p & -> & M)], M' as [(-> & E1' & N')|(p' & -> & M')].
    + split; auto. congruence. + apply made_lt in M'. lia. + apply made_lt in M. lia. + destruct (IH _ _ M M') as [-> ->]. auto.
Qed.
Lemma proper_snoc l o : proper (l ++ [o]) -> proper l /\ match o with CopyOf _ => False | Use h | Del h => h < news l /\ ~ In (Del h) l | _ => True end.
Proof.
  intros P. split.
  - intros pre x post E. apply (P pre x (post ++ [o])). rewrite E, <- app_assoc. reflexivity.
  - apply (P l o []). reflexivity.
Qed.
(** One step from a state described by the history. *)
Definition step_bad (l : list mop) (o : mop) : Prop :=
  match o with
  | NewWD a => exists h, latest l a h /\ In (Del h) l
  | Use h | Del h => replaced l h
  | _ => False
  end.
Lemma del_old l h : proper l -> In (Del h) l -> h < news l.
Proof. intros P I. apply in_split in I. destruct I as (a & b & E). assert (Q := P a (Del h) b E). cbn in Q. rewrite E, news_app. lia. Qed.
Lemma del_dec h l : {In (Del h) l} + {~ In (Del h) l}. Proof. apply in_dec. repeat decide equality. Qed.
Lemma step_inv l o s : proper (l ++ [o]) -> inv l s -> (step_bad l o -> m_step o s = UB) /\ (~ step_bad l o -> exists s', m_step o s = Ok s' /\ inv (l ++ [o]) s').
Proof.
  intros P (I1 & I2 & I3 & I4 & I5). apply proper_snoc in P. destruct P as [Pl Po].
  assert (NTH : forall h, h < news l -> nth_error (objs s) h = Some h).
  { intros h Hh. rewrite I2. rewrite (nth_error_nth' _ 0) by (rewrite seq_length; auto). rewrite seq_nth by auto. auto. }
  destruct o as [|a|x|x|x]; cbn [step_bad m_step].
  - (* NewBases *)
    split; [tauto|]. intros _. eexists. split; [reflexivity|]. unfold inv. cbn [heap cache objs]. rewrite news_app. cbn [news filter is_new length]. fold (news l).
    split; [rewrite app_length; cbn; lia|]. split; [rewrite I2, I1, seq_app; cbn; auto|]. split; [auto|]. split.
    + intros a h. rewrite latest_snoc, I4. split; [intros; right; split; [discriminate|auto]|]. intros [[Q _]|[_ Q]]; [discriminate|auto].
    + intros h Hh. rewrite replaced_snoc, in_app_iff. destruct (Nat.eq_dec h (news l)) as [->|].
      * rewrite app_nth2 by lia. rewrite I1, Nat.sub_diag. cbn. split; [|auto]. intros _. split.
        -- intros [Q|[Q|[]]]; [|discriminate]. apply del_old in Q; auto. lia.
        -- intros [(a & la & M & _)|(a & Q & _)]; [apply made_lt in M; lia|discriminate].
      * rewrite app_nth1 by lia. rewrite I5 by (unfold news in *; cbn in *; lia). split.
        -- intros [A B]. split; [intros [Q|[Q|[]]]; [auto|discriminate]|]. intros [Q|(a & Q & _)]; [auto|discriminate].
        -- intros [A B]. split; intros Q; [apply A|apply B]; auto.
  - (* NewWD *)
    assert (FR : forall h, h < news l -> nth h (heap s ++ [true]) false = nth h (heap s) false) by (intros h Hh; apply app_nth1; lia).
    split.
    + intros (h & Lh & Dh). rewrite (proj2 (I4 a h) Lh). unfold m_free. assert (Hh : h < news l) by (apply del_old; auto). rewrite FR by auto.
      destruct (nth h (heap s) false) eqn:E; [|reflexivity]. apply I5 in E; auto. tauto.
    + intros NB.
      assert (ALL : forall hp, (forall h, h < news l -> nth h hp false = (if match m_lookup (cache s) a with Some old => Nat.eqb old h | None => false end then false else nth h (heap s) false)) -> nth (news l) hp false = true -> length hp = S (news l) ->
                 inv (l ++ [NewWD a]) (mkMS hp (m_assign (cache s) a (length (heap s))) (objs s ++ [length (heap s)]))).
      { intros hp H1 H2 H3. unfold inv. cbn [heap cache objs]. rewrite news_app. cbn [news filter is_new length]. fold (news l).
        split; [lia|]. split; [rewrite I2, I1, seq_app; cbn; auto|]. split; [apply assign_keys; auto|]. split.
        - intros b h. rewrite lookup_assign, latest_snoc, I1. destruct (wd_eqb a b) eqn:E.
          + apply wd_eqb_iff in E. subst b. split; [intros Q; injection Q as <-; auto|]. intros [[_ <-]|[Q _]]; [auto|congruence].
          + rewrite I4. split; [intros Q; right; split; auto; intros X; injection X as ->; rewrite (proj2 (wd_eqb_iff b b) eq_refl) in E; discriminate|]. intros [[Q _]|[_ Q]]; [|auto]. injection Q as ->. rewrite (proj2 (wd_eqb_iff b b) eq_refl) in E; discriminate.
        - intros h Hh. rewrite replaced_snoc, in_app_iff. destruct (Nat.eq_dec h (news l)) as [->|].
          + rewrite H2. split; [|auto]. intros _. split.
            * intros [Q|[Q|[]]]; [|discriminate]. apply del_old in Q; auto. lia.
            * intros [(b & la & M & _)|(b & Q & la & M & _)]; apply made_lt in M; lia.
          + assert (Hh2 : h < news l) by (unfold news in *; cbn in *; lia). rewrite H1 by auto.
            destruct (m_lookup (cache s) a) as [old|] eqn:EL.
            * apply I4 in EL. destruct (Nat.eqb_spec old h) as [->|Ne].
              -- split; [discriminate|]. intros [_ B]. exfalso. apply B. right. eauto.
              -- rewrite I5 by auto. split.
                 ++ intros [A B]. split; [intros [Q|[Q|[]]]; [auto|discriminate]|]. intros [Q|(b & Q & L)]; [auto|]. injection Q as <-. apply I4 in L, EL. congruence.
                 ++ intros [A B]. split; intros Q; [apply A|apply B]; auto.
            * rewrite I5 by auto. split.
              -- intros [A B]. split; [intros [Q|[Q|[]]]; [auto|discriminate]|]. intros [Q|(b & Q & L)]; [auto|]. injection Q as <-. apply I4 in L. congruence.
              -- intros [A B]. split; intros Q; [apply A|apply B]; auto. }
      destruct (m_lookup (cache s) a) as [old|] eqn:EL.
      * assert (Lo := proj1 (I4 _ _) EL). assert (Ho : old < news l). { destruct Lo as (la & M & _). apply made_lt in M. auto. }
        unfold m_free. rewrite FR by auto. assert (E : nth old (heap s) false = true).
        { apply I5; auto. split; [intros Q; apply NB; eauto|]. intros (b & la & M & N). destruct Lo as (la' & M' & N'). destruct (made_fun _ _ _ _ _ _ M M') as [-> ->]. auto. }
        rewrite E. cbn [bind]. eexists. split; [reflexivity|]. apply ALL.
        -- intros h Hh. rewrite set_nth_at. destruct (Nat.eqb old h); auto.
        -- rewrite set_nth_at. destruct (Nat.eqb_spec old (news l)); [lia|]. rewrite app_nth2 by lia. rewrite I1, Nat.sub_diag. reflexivity.
        -- rewrite set_nth_len, app_length. cbn. lia.
      * cbn [bind]. eexists. split; [reflexivity|]. apply ALL.
        -- intros h Hh. auto.
        -- rewrite app_nth2 by lia. rewrite I1, Nat.sub_diag. reflexivity.
        -- rewrite app_length. cbn. lia.
  - destruct Po.
  - (* Use *)
    destruct Po as [Hx Hd]. rewrite NTH by auto. split.
    + intros R. destruct (nth x (heap s) false) eqn:E; [|reflexivity]. apply I5 in E; auto. tauto.
    + intros R. rewrite (proj2 (I5 x Hx) (conj Hd R)). exists s. split; [reflexivity|]. unfold inv. rewrite news_app. cbn [news filter is_new length]. fold (news l). rewrite Nat.add_0_r.
      split; [auto|]. split; [auto|]. split; [auto|]. split.
      * intros a h. rewrite latest_snoc, I4. split; [intros; right; split; [discriminate|auto]|]. intros [[Q _]|[_ Q]]; [discriminate|auto].
      * intros h Hh. rewrite replaced_snoc, in_app_iff, I5 by auto. split.
        -- intros [A B]. split; [intros [Q|[Q|[]]]; [auto|discriminate]|]. intros [Q|(a & Q & _)]; [auto|discriminate].
        -- intros [A B]. split; intros Q; [apply A|apply B]; auto.
  - (* Del *)
    destruct Po as [Hx Hd]. rewrite NTH by auto. unfold m_free. split.
    + intros R. destruct (nth x (heap s) false) eqn:E; [|reflexivity]. apply I5 in E; auto. tauto.
    + intros R. rewrite (proj2 (I5 x Hx) (conj Hd R)). cbn [bind]. eexists. split; [reflexivity|]. unfold inv. cbn [heap cache objs]. rewrite news_app. cbn [news filter is_new length]. fold (news l). rewrite Nat.add_0_r.
      split; [rewrite set_nth_len; auto|]. split; [auto|]. split; [auto|]. split.
      * intros a h. rewrite latest_snoc, I4. split; [intros; right; split; [discriminate|auto]|]. intros [[Q _]|[_ Q]]; [discriminate|auto].
      * intros h Hh. rewrite replaced_snoc, in_app_iff, set_nth_at. destruct (Nat.eqb_spec x h) as [->|Ne].
        -- split; [discriminate|]. intros [A _]. exfalso. apply A. right; left; auto.
        -- rewrite I5 by auto. split.
           ++ intros [A B]. split; [intros [Q|[Q|[]]]; [auto|injection Q as ->; auto]|]. intros [Q|(a & Q & _)]; [auto|discriminate].
           ++ intros [A B]. split; intros Q; [apply A|apply B]; auto.
Qed.
Lemma mop_dec (x y : mop) : {x = y} + {x <> y}. Proof. repeat decide equality. Qed.
Lemma latest_dec l a h : latest l a h \/ ~ latest l a h.
Proof.
  induction l as [|o l IH] using rev_ind.
  - right. intros (la & (e & E & _) & _). destruct e; discriminate.
  - rewrite latest_snoc. destruct (mop_dec o (NewWD a)) as [->|N].
    + destruct (Nat.eq_dec (news l) h); [left; auto|right]. intros [[_ Q]|[Q _]]; auto.
    + destruct IH as [Q|Q]; [left; auto|right]. intros [[X _]|[_ X]]; auto.
Qed.
Lemma replaced_dec l h : replaced l h \/ ~ replaced l h.
Proof.
  induction l as [|o l IH] using rev_ind.
  - right. intros (a & la & (e & E & _) & _). destruct e; discriminate.
  - rewrite replaced_snoc. destruct IH as [Q|Q]; [left; auto|]. destruct o as [|a|x|x|x]; try (right; intros [X|(b & X & _)]; [auto|discriminate]).
    destruct (latest_dec l a h) as [L|L]; [left; right; eauto|right]. intros [X|(b & X & Y)]; [auto|]. injection X as <-. auto.
Qed.
Lemma step_bad_dec l o s : inv l s -> step_bad l o \/ ~ step_bad l o.
Proof.
  intros (_ & _ & _ & I4 & _). destruct o as [|a|x|x|x]; cbn [step_bad]; auto; try apply replaced_dec.
  destruct (m_lookup (cache s) a) as [h|] eqn:E.
  - assert (L := proj1 (I4 _ _) E). destruct (del_dec h l) as [D|D]; [left; eauto|]. right. intros (h' & L' & D'). apply I4 in L'. congruence.
  - right. intros (h' & L' & D'). apply I4 in L'. congruence.
Qed.
Lemma inv0 : inv [] m0.
Proof.
  split; [reflexivity|]. split; [reflexivity|]. split; [constructor|]. split.
  - intros a h. cbn. split; [discriminate|]. intros (la & (e & E & _) & _). destruct e; discriminate.
  - intros h Hh. cbn in Hh. lia.
Qed.
Lemma m_run_inv l : proper l -> (exists s, m_run l m0 = Ok s /\ inv l s /\ forall pre o post, l = pre ++ o :: post -> ~ step_bad pre o) \/
  (m_run l m0 = UB /\ exists pre o post, l = pre ++ o :: post /\ step_bad pre o).
Proof.
  induction l as [|o l IH] using rev_ind; intros P.
  - left. exists m0. split; [reflexivity|]. split; [apply inv0|]. intros [|? pre] o post E; discriminate.
  - destruct (IH (proj1 (proper_snoc _ _ P))) as [(s & E & I & NB)|(E & pre & x & post & -> & B)].
    + destruct (step_inv _ _ _ P I) as [S1 S2]. rewrite run_app, E. cbn [bind m_run]. destruct (step_bad_dec _ o _ I) as [B|B].
      * right. rewrite S1 by auto. split; [reflexivity|]. exists l, o, []. auto.
      * left. destruct (S2 B) as (s' & -> & I'). cbn [bind]. exists s'. split; [reflexivity|]. split; [auto|]. intros pre x post Q. apply snoc_split in Q. destruct Q as [(_ & <- & <-)|(p & _ & Q)]; [auto|]. eapply NB; eauto.
    + right. rewrite run_app, E. split; [reflexivity|]. exists pre, x, (post ++ [o]). rewrite <- app_assoc. auto.
Qed.
Lemma frees_ok : forall c h, NoDup (map snd c) -> (forall i, In i (map snd c) -> nth i h false = true) -> exists h', m_frees c h = Ok h' /\ length h' = length h /\ forall i, nth i h' false = if in_dec Nat.eq_dec i (map snd c) then false else nth i h false.
Proof.
  induction c as [|(a, i) c IH]; intros h ND A; cbn [m_frees map snd] in *.
  - exists h. auto.
  - inversion ND as [|? ? N1 N2]; subst. unfold m_free at 1. rewrite A by (left; auto). cbn [bind].
    destruct (IH (set_nth h i false)) as (h' & -> & L & F); auto.
    + intros j Hj. rewrite set_nth_at. destruct (Nat.eqb_spec i j) as [->|]; [contradiction|]. apply A. right; auto.
    + exists h'. split; [reflexivity|]. split; [rewrite L; apply set_nth_len|]. intros j. rewrite F, set_nth_at. destruct (in_dec Nat.eq_dec j (map snd c)), (in_dec Nat.eq_dec j (i :: map snd c)) as [Q|Q]; auto.
      * exfalso. apply Q. right; auto.
      * destruct Q as [->|Q]; [|contradiction]. rewrite Nat.eqb_refl. auto.
      * destruct (Nat.eqb_spec i j) as [->|]; [|auto]. exfalso. apply Q. left; auto.
Qed.
Lemma frees_bad : forall c h i, In i (map snd c) -> nth i h false = false -> m_frees c h = UB.
Proof.
  induction c as [|(a, j) c IH]; intros h i Hi Hn; cbn [m_frees map snd] in *; [destruct Hi|]. unfold m_free at 1. destruct (nth j h false) eqn:E; [|reflexivity]. cbn [bind].
  destruct Hi as [->|Hi]; [congruence|]. apply (IH _ i); auto. rewrite set_nth_at. destruct (Nat.eqb j i); auto.
Qed.
Lemma cache_ids l s : inv l s -> NoDup (map snd (cache s)) /\ (forall i, In i (map snd (cache s)) <-> exists a, latest l a i).
Proof.
  intros (_ & _ & I3 & I4 & _).
  assert (X : forall i, In i (map snd (cache s)) <-> exists a, latest l a i).
  { intros i. rewrite in_map_iff. split.
    - intros ((a, j) & <- & Q). exists a. apply I4. apply lookup_in; auto.
    - intros (a & L). exists (a, i). split; auto. apply I4 in L. apply lookup_in in L; auto. }
  split; [|auto]. assert (J : forall a b i, In (a, i) (cache s) -> In (b, i) (cache s) -> a = b).
  { intros a b i Qa Qb. apply lookup_in in Qa, Qb; auto. apply I4 in Qa, Qb. destruct Qa as (la & Ma & _), Qb as (lb & Mb & _). destruct (made_fun _ _ _ _ _ _ Ma Mb); auto. }
  clear X I4. induction (cache s) as [|(a, i) c IH]; cbn [map snd fst] in *; [constructor|]. inversion I3 as [|? ? N1 N2]; subst. constructor.
  - intros Q. apply in_map_iff in Q. destruct Q as ((b, j) & E & Q). cbn in E. subst j. assert (a = b) by (apply (J a b i); [left; auto|right; auto]). subst b. apply N1. apply in_map_iff. exists (a, i). auto.
  - apply IH; auto. intros x y j Qx Qy. apply (J x y j); right; auto.
Qed.
Lemma first_new a l : In (NewWD a) l -> exists p q, l = p ++ NewWD a :: q /\ ~ In (NewWD a) p.
Proof.
  induction l as [|o l IH]; [intros []|]. destruct (mop_dec o (NewWD a)) as [->|N]; [intros _; exists [], l; auto|].
  intros [Q|Q]; [contradiction|]. destruct (IH Q) as (p & q & -> & Np). exists (o :: p), q. split; auto. intros [X|X]; auto.
Qed.
Lemma bad_iff l : proper l -> (exists pre o post, l = pre ++ o :: post /\ step_bad pre o) \/ (exists a h, latest l a h /\ In (Del h) l) <-> deletes_cached l \/ uses_replaced l.
Proof.
  intros P. split.
  - intros [(pre & o & post & -> & B)|(a & h & (la & M & _) & D)].
    + assert (UP : forall h a la, made pre h a la -> made (pre ++ o :: post) h a (la ++ o :: post)).
      { intros h a la (e & -> & N). exists e. rewrite <- app_assoc. auto. }
      destruct o as [|a|x|x|x]; cbn [step_bad] in B; try destruct B.
      * destruct H as ((la & M & _) & D). left. exists x, a, (la ++ NewWD a :: post). split; [auto|]. apply in_app_iff; auto.
      * destruct H as (la & M & N). right. exists pre, x, post, x0, la. auto.
      * destruct H as (la & M & N). left. exists x, x0, (la ++ Del x :: post). split; [auto|]. apply in_app_iff; right; left; auto.
    + left. exists h, a, la. auto.
  - intros [(h & a & la & M & D)|(pre & h & post & a & la & -> & M & N)].
    + destruct (in_dec mop_dec (NewWD a) la) as [I|I]; [|right; exists a, h; split; auto; exists la; auto]. left.
      destruct M as (e & -> & N). destruct (first_new _ _ I) as (p & q & -> & Np).
      apply in_app_iff in D. destruct D as [D|[D|D]]; [|discriminate|].
      { exfalso. apply in_split in D. destruct D as (x & y & E). assert (Q := P x (Del h) (y ++ NewWD a :: p ++ NewWD a :: q)). rewrite E, <- app_assoc in Q. specialize (Q eq_refl). cbn in Q. rewrite E, news_app in N. lia. }
      assert (LT : latest (e ++ NewWD a :: p) a h) by (exists p; split; [exists e; auto|auto]).
      apply in_app_iff in D. destruct D as [D|[D|D]]; [|discriminate|].
      * exists (e ++ NewWD a :: p), (NewWD a), q. split; [rewrite <- app_assoc; auto|]. exists h. split; [auto|]. apply in_app_iff. right; right; auto.
      * apply in_split in D. destruct D as (x & y & ->). exists (e ++ NewWD a :: p ++ NewWD a :: x), (Del h), y. split; [rewrite <- app_assoc; cbn; rewrite <- app_assoc; auto|].
        exists a, (p ++ NewWD a :: x). split; [exists e; auto|]. apply in_app_iff. right; left; auto.
    + left. exists pre, (Use h), post. split; auto. exists a, la. auto.
Qed.
Theorem program_safe l : proper l -> ~ deletes_cached l -> ~ uses_replaced l ->
  exists heap, m_program l = Ok heap /\ forall h, h < news l -> (nth h heap false = true <-> (forall a later, ~ made l h a later) /\ ~ In (Del h) l).
Proof.
  intros P N1 N2. unfold m_program. destruct (m_run_inv l P) as [(s & -> & I & NB)|(_ & B)]; [|exfalso; destruct (proj1 (bad_iff l P) (or_introl B)); auto]. cbn [bind].
  destruct (cache_ids _ _ I) as [ND CI]. assert (I' := I). destruct I' as (_ & _ & _ & I4 & I5).
  destruct (frees_ok (cache s) (heap s) ND) as (hp & E & _ & F).
  - intros i Q. apply CI in Q. destruct Q as (a & L). apply I5; [destruct L as (la & M & _); apply made_lt in M; auto|]. split.
    + intros D. destruct (proj1 (bad_iff l P)) as [X|X]; auto. right. eauto.
    + intros (b & la & M & Nw). destruct L as (la' & M' & Nw'). destruct (made_fun _ _ _ _ _ _ M M') as [-> ->]. auto.
  - exists hp. split; [exact E|]. intros h Hh. rewrite F. destruct (in_dec Nat.eq_dec h (map snd (cache s))) as [Q|Q].
    + split; [discriminate|]. intros [X _]. apply CI in Q. destruct Q as (a & la & M & _). destruct (X _ _ M).
    + rewrite I5 by auto. split.
      * intros [A B]. split; [|auto]. intros a la M. destruct (in_dec mop_dec (NewWD a) la) as [J|J]; [apply B; exists a, la; auto|]. apply Q. apply CI. exists a, la. auto.
      * intros [A B]. split; auto. intros (a & la & M & _). exact (A _ _ M).
Qed.
Theorem program_unsafe l : proper l -> deletes_cached l \/ uses_replaced l -> m_program l = UB.
Proof.
  intros P B. unfold m_program. destruct (m_run_inv l P) as [(s & -> & I & NB)|(-> & _)]; [|reflexivity]. cbn [bind].
  apply (bad_iff l P) in B. destruct B as [(pre & o & post & E & B)|(a & h & L & D)]; [exfalso; eapply NB; eauto|].
  destruct (cache_ids _ _ I) as [_ CI]. unfold m_exit. apply (frees_bad _ _ h); [apply CI; eauto|]. destruct I as (_ & _ & _ & _ & I5).
  destruct (nth h (heap s) false) eqn:E; [|auto]. apply I5 in E; [tauto|]. destruct L as (la & M & _). apply made_lt in M. auto.
Qed.
(** Copies share the pointer. *)
Lemma run_lens l : forall s s', m_run l s = Ok s' -> length (objs s) <= length (objs s') /\ forall x i, nth_error (objs s) x = Some i -> nth_error (objs s') x = Some i.
Proof.
  induction l as [|o l IH]; intros s s' E; cbn [m_run] in E; [injection E as <-; auto|]. destruct (m_step o s) as [s1| | |] eqn:E1; try discriminate. cbn [bind] in E. destruct (IH _ _ E) as [L K].
  assert (X : exists t, objs s1 = objs s ++ t).
  { destruct o as [|a|x|x|x]; cbn [m_step] in E1.
    - injection E1 as <-. cbn. eauto.
    - destruct (m_lookup (cache s) a) as [old|]; [destruct (m_free (heap s ++ [true]) old); try discriminate|]; cbn [bind] in E1; injection E1 as <-; cbn; eauto.
    - destruct (nth_error (objs s) x); [|discriminate]. injection E1 as <-. cbn. eauto.
    - destruct (nth_error (objs s) x) as [i|]; [|discriminate]. destruct (nth i (heap s) false); [|discriminate]. injection E1 as <-. exists []. rewrite app_nil_r. auto.
    - destruct (nth_error (objs s) x) as [i|]; [|discriminate]. destruct (m_free (heap s) i); try discriminate. cbn [bind] in E1. injection E1 as <-. exists []. cbn. rewrite app_nil_r. auto. }
  destruct X as (t & X). rewrite X, app_length in L. split; [lia|]. intros x i Hx. apply K. rewrite X, nth_error_app1; auto. apply nth_error_Some. congruence.
Qed.
Lemma run_dead l : forall s s' i, m_run l s = Ok s' -> i < length (heap s) -> nth i (heap s) false = false -> nth i (heap s') false = false.
Proof.
  induction l as [|o l IH]; intros s s' i E Hi Hn; cbn [m_run] in E; [injection E as <-; auto|]. destruct (m_step o s) as [s1| | |] eqn:E1; try discriminate. cbn [bind] in E.
  assert (FR : forall h j h', m_free h j = Ok h' -> length h' = length h /\ (nth i h false = false -> nth i h' false = false)).
  { intros h j h' Q. unfold m_free in Q. destruct (nth j h false); [|discriminate]. injection Q as <-. split; [apply set_nth_len|]. intros. rewrite set_nth_at. destruct (Nat.eqb j i); auto. }
  assert (X : i < length (heap s1) /\ nth i (heap s1) false = false).
  { assert (AP : i < length (heap s ++ [true]) /\ nth i (heap s ++ [true]) false = false) by (rewrite app_length, app_nth1 by lia; cbn; split; [lia|auto]).
    destruct o as [|a|x|x|x]; cbn [m_step] in E1.
    - injection E1 as <-. auto.
    - destruct (m_lookup (cache s) a) as [old|]; [destruct (m_free (heap s ++ [true]) old) as [h'| | |] eqn:E2; try discriminate|]; cbn [bind] in E1; injection E1 as <-; cbn [heap]; auto.
      destruct (FR _ _ _ E2) as [A B]. rewrite A. split; [tauto|apply B; tauto].
    - destruct (nth_error (objs s) x); [|discriminate]. injection E1 as <-. auto.
    - destruct (nth_error (objs s) x) as [j|]; [|discriminate]. destruct (nth j (heap s) false); [|discriminate]. injection E1 as <-. auto.
    - destruct (nth_error (objs s) x) as [j|]; [|discriminate]. destruct (m_free (heap s) j) as [h'| | |] eqn:E2; try discriminate. cbn [bind] in E1. injection E1 as <-. cbn [heap]. destruct (FR _ _ _ E2) as [A B]. rewrite A. auto. }
  destruct X. eapply IH; eauto.
Qed.
Theorem copies_unsafe s h l2 l3 s' : m_run (CopyOf h :: l2 ++ Del h :: l3) s = Ok s' ->
  m_step (Use (length (objs s))) s' = UB /\ m_step (Del (length (objs s))) s' = UB.
Proof.
  cbn [m_run m_step]. destruct (nth_error (objs s) h) as [i|] eqn:EH; [|discriminate]. cbn [bind]. rewrite run_app.
  set (s1 := mkMS (heap s) (cache s) (objs s ++ [i])). destruct (m_run l2 s1) as [s2| | |] eqn:E2; try discriminate. cbn [bind m_run]. destruct (run_lens _ _ _ E2) as [_ K2].
  assert (A : nth_error (objs s2) h = Some i). { apply K2. cbn. rewrite nth_error_app1; auto. apply nth_error_Some. congruence. }
  assert (B : nth_error (objs s2) (length (objs s)) = Some i). { apply K2. cbn. rewrite nth_error_app2, Nat.sub_diag by lia. reflexivity. }
  cbn [m_step]. rewrite A. unfold m_free. destruct (nth i (heap s2) false) eqn:EN; [|discriminate]. cbn [bind]. intros E3.
  assert (Hi : i < length (heap s2)). { destruct (Nat.lt_ge_cases i (length (heap s2))); [auto|]. rewrite nth_overflow in EN by auto. discriminate. }
  destruct (run_lens _ _ _ E3) as [_ K3]. assert (C := K3 _ _ B). assert (D : nth i (heap s') false = false).
  { eapply run_dead; [exact E3|cbn; rewrite set_nth_len; auto|]. cbn. rewrite set_nth_at, Nat.eqb_refl. auto. }
  rewrite C, D. auto.
Qed.
