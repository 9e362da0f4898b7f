(** Proofs: programs of scalar arrays do what [does] says, and memory is freed exactly when nothing owns it. *)
From Verif Require Import SaSpec.
Open Scope nat_scope.

Section Put.
  Context {A : Type}.
  Lemma put_length : forall (l : list A) p c, length (put p c l) = length l.
  Proof. induction l as [|x l IH]; intros [|p] c; cbn; auto. Qed.
  Lemma put_same : forall (l : list A) p c, p < length l -> nth_error (put p c l) p = Some c.
  Proof. induction l as [|x l IH]; intros [|p] c; cbn; try lia; auto. intros H. apply IH. lia. Qed.
  Lemma put_other : forall (l : list A) p q c, p <> q -> nth_error (put p c l) q = nth_error l q.
  Proof. induction l as [|x l IH]; intros [|p] [|q] c H; cbn; auto; try congruence. Qed.
  Lemma put_id : forall (l : list A) p c, nth_error l p = Some c -> put p c l = l.
  Proof. induction l as [|x l IH]; intros [|p] c; cbn; try discriminate; [congruence|]. intros H. now rewrite IH. Qed.
  Lemma put_put : forall (l : list A) p c d, put p c (put p d l) = put p c l.
  Proof. induction l as [|x l IH]; intros [|p] c d; cbn; auto. now rewrite IH. Qed.
  Lemma nth_lt (l : list A) p a : nth_error l p = Some a -> p < length l.
  Proof. intros H. apply nth_error_Some. congruence. Qed.
  Lemma nth_app_old (l : list A) x p a : nth_error l p = Some a -> nth_error (l ++ [x]) p = Some a.
  Proof. intros H. rewrite nth_error_app1; [assumption|]. now apply nth_lt in H. Qed.
  Lemma nth_app_new (l : list A) x : nth_error (l ++ [x]) (length l) = Some x.
  Proof. rewrite nth_error_app2 by lia. now rewrite Nat.sub_diag. Qed.
  Lemma nth_app_inv (l : list A) x p a : nth_error (l ++ [x]) p = Some a -> nth_error l p = Some a \/ (p = length l /\ a = x).
  Proof.
    intros H. destruct (Nat.lt_ge_cases p (length l)) as [L|L]; [left; now rewrite nth_error_app1 in H|right].
    rewrite nth_error_app2 in H by assumption. destruct (p - length l) as [|k] eqn:E; cbn in H; [|destruct k; discriminate].
    split; [lia|congruence].
  Qed.
  Lemma put_inv (l : list A) p c q a : nth_error (put p c l) q = Some a -> (q = p /\ a = c) \/ (q <> p /\ nth_error l q = Some a).
  Proof.
    intros H. destruct (Nat.eq_dec p q) as [->|N]; [left|right; split; [congruence|now rewrite put_other in H]].
    split; [reflexivity|]. pose proof (nth_lt _ _ _ H) as L. rewrite put_length in L. rewrite put_same in H by assumption. congruence.
  Qed.
End Put.
Lemma map_put {A B} (f : A -> B) : forall l p c, map f (put p c l) = put p (f c) (map f l).
Proof. induction l as [|x l IH]; intros [|p] c; cbn; auto. now rewrite IH. Qed.

Section Proofs.
  Variables T V : Type.
  Variable ty_eqb : T -> T -> bool.
  Hypothesis ty_eqb_spec : forall a b, ty_eqb a b = true <-> a = b.
  Variable zero : T -> V.
  Notation array := (array T).
  Notation region := (region T V).
  Notation world := (world T V).
  Notation mkRegion := (mkRegion T V).
  Notation mkWorld := (mkWorld T V).
  Notation Array := (Array T).
  Notation does := (does T V zero).
  Notation mkBlock := (mkBlock T V).

  Lemma ty_refl t : ty_eqb t t = true.
  Proof. now apply ty_eqb_spec. Qed.

  (** *** Worlds as memory *)
  Definition conc_slot (k : access) (p : option (nat * nat)) : slot :=
    match p, k with None, _ => SNull | Some (r, _), AOwn => SBuf r | Some (r, o), _ => SPtr r o end.
  Definition conc_mode (k : access) : mode := match k with AConst => BorrowConst | AMut => BorrowMut | AOwn => Owned end.
  Definition conc (a : array) : arr T :=
    match a with Nothing _ => null T | SaSpec.Array _ obj t k p n => mkArr T (Some (obj, t)) (conc_mode k) (conc_slot k p) n end.
  Definition own (r : nat) (a : option array) : nat := if owns T r a then 1 else 0.
  Fixpoint count (r : nat) (l : list (option array)) : nat := match l with [] => 0 | a :: l => own r a + count r l end.
  Definition block_of (g : region) (n : nat) : option (block T V) :=
    if rg_given T V g then Some (mkBlock (rg_ty T V g) (rg_vals T V g) None)
    else match n with O => None | _ => Some (mkBlock (rg_ty T V g) (rg_vals T V g) (Some n)) end.
  Definition Rm (regs : list region) (cnt : nat -> nat) (m : mem T V) : Prop :=
    length m = length regs /\ forall r g, nth_error regs r = Some g -> nth_error m r = Some (block_of g (cnt r)).
  Definition R (w : world) (s : state T V) : Prop :=
    snd s = map (option_map conc) (arrays T V w) /\ Rm (regions T V w) (fun r => count r (arrays T V w)) (fst s).
  Definition good (regs : list region) (a : option array) : Prop :=
    match a with
    | Some (SaSpec.Array _ obj t k (Some (r, off)) n) =>
        exists g, nth_error regs r = Some g /\ rg_ty T V g = t /\ off + n <= length (rg_vals T V g) /\ (k = AOwn -> off = 0 /\ rg_given T V g = false)
    | _ => True
    end.
  Definition wf (w : world) : Prop := forall x a, nth_error (arrays T V w) x = Some a -> good (regions T V w) a.

  Lemma count_app r l a : count r (l ++ [a]) = count r l + own r a.
  Proof. induction l as [|b l IH]; cbn; [lia|]. rewrite IH. lia. Qed.
  Lemma count_put r b : forall l x a, nth_error l x = Some a -> count r (put x b l) + own r a = count r l + own r b.
  Proof.
    induction l as [|c l IH]; intros [|x] a H; cbn in *; try discriminate.
    - injection H as ->. lia.
    - specialize (IH _ _ H). lia.
  Qed.
  Lemma count_pos r : forall l, 0 < count r l <-> exists x a, nth_error l x = Some a /\ owns T r a = true.
  Proof.
    induction l as [|c l IH]; cbn.
    - split; [lia|]. intros [[|x] (a & H & _)]; discriminate.
    - unfold own. destruct (owns T r c) eqn:E.
      + split; [|lia]. intros _. exists 0, c. now split.
      + cbn. rewrite IH. split; intros [x (a & H & O)].
        * exists (S x), a. now split.
        * destruct x as [|x]; cbn in H; [congruence|]. exists x, a. now split.
  Qed.
  Lemma own_le_count r l x a : nth_error l x = Some a -> own r a <= count r l.
  Proof.
    intros H. unfold own. destruct (owns T r a) eqn:E; [|lia]. assert (0 < count r l) by (apply count_pos; now exists x, a). lia.
  Qed.
  Lemma Rm_ext regs f f' m : (forall r, r < length regs -> f r = f' r) -> Rm regs f m -> Rm regs f' m.
  Proof.
    intros E [L H]. split; [assumption|]. intros r g Hg. rewrite (H _ _ Hg). now rewrite (E r (nth_lt _ _ _ Hg)).
  Qed.
  Lemma owned_region regs r a : good regs (Some a) -> owns T r (Some a) = true ->
    exists obj t n g, a = Array obj t AOwn (Some (r, 0)) n /\ nth_error regs r = Some g /\ rg_given T V g = false /\ rg_ty T V g = t /\ n <= length (rg_vals T V g).
  Proof.
    destruct a as [|obj t k [[r' off]|] n]; cbn; try discriminate; destruct k; try discriminate.
    intros (g & Hg & Ht & Hn & Ho) E. apply Nat.eqb_eq in E. subst r'. destruct (Ho eq_refl) as [-> Hgv].
    exists obj, t, n, g. auto.
  Qed.
  Lemma no_new w : wf w -> count (length (regions T V w)) (arrays T V w) = 0.
  Proof.
    intros W. destruct (count _ _) eqn:E; [reflexivity|]. exfalso. assert (P : 0 < count (length (regions T V w)) (arrays T V w)) by lia.
    apply count_pos in P. destruct P as (x & [a|] & H & O); [|discriminate].
    destruct (owned_region _ _ _ (W _ _ H) O) as (obj & t & n' & g & _ & Hg & _). apply nth_lt in Hg. lia.
  Qed.

  Lemma destroy_ok regs cnt m a : Rm regs cnt m -> good regs (Some a) -> (forall r, own r (Some a) <= cnt r) ->
    exists m', destroy T V m (conc a) = Ok m' /\ Rm regs (fun r => cnt r - own r (Some a)) m'.
  Proof.
    intros [L H] G C. destruct a as [|obj t k p n]; [exists m; split; [reflexivity|]; apply (Rm_ext _ cnt); [cbn; intros; lia|now split]|].
    destruct k; try (exists m; split; [reflexivity|]; apply (Rm_ext _ cnt); [unfold own; destruct p as [[? ?]|]; cbn; intros; lia|now split]).
    destruct p as [[r off]|]; [|exists m; split; [reflexivity|]; apply (Rm_ext _ cnt); [cbn; intros; lia|now split]].
    destruct G as (g & Hg & Ht & Hn & Ho). destruct (Ho eq_refl) as [-> Hgv].
    specialize (C r) as Cr. unfold own in Cr. cbn in Cr. rewrite Nat.eqb_refl in Cr.
    pose proof (H _ _ Hg) as Hb. unfold block_of in Hb. rewrite Hgv in Hb. destruct (cnt r) as [|c] eqn:Ec; [lia|].
    cbn. unfold dec_ref. rewrite Hb. eexists. split; [reflexivity|]. split; [now rewrite put_length|].
    intros r' g' Hg'. destruct (Nat.eq_dec r r') as [<-|N].
    - rewrite put_same by (rewrite L; now apply nth_lt in Hg). rewrite Hg in Hg'. injection Hg' as <-.
      unfold block_of. rewrite Hgv, Ec. unfold own. cbn. rewrite Nat.eqb_refl. destruct c as [|c]; reflexivity.
    - rewrite put_other by assumption. rewrite (H _ _ Hg'). unfold own. cbn. destruct (Nat.eqb_spec r' r); [congruence|]. now rewrite Nat.sub_0_r.
  Qed.
  Lemma copy_ok regs cnt m a : Rm regs cnt m -> good regs (Some a) -> (forall r, own r (Some a) <= cnt r) ->
    exists m', copy T V m (conc a) = Ok (m', conc a) /\ Rm regs (fun r => cnt r + own r (Some a)) m'.
  Proof.
    intros [L H] G C. destruct a as [|obj t k p n]; [exists m; split; [reflexivity|]; apply (Rm_ext _ cnt); [cbn; intros; lia|now split]|].
    destruct k; try (exists m; split; [reflexivity|]; apply (Rm_ext _ cnt); [unfold own; destruct p as [[? ?]|]; cbn; intros; lia|now split]).
    destruct p as [[r off]|]; [|exists m; split; [reflexivity|]; apply (Rm_ext _ cnt); [cbn; intros; lia|now split]].
    destruct G as (g & Hg & Ht & Hn & Ho). destruct (Ho eq_refl) as [-> Hgv].
    specialize (C r) as Cr. unfold own in Cr. cbn in Cr. rewrite Nat.eqb_refl in Cr.
    pose proof (H _ _ Hg) as Hb. unfold block_of in Hb. rewrite Hgv in Hb. destruct (cnt r) as [|c] eqn:Ec; [lia|].
    unfold copy. cbn. unfold inc_ref. rewrite Hb. cbn. eexists. split; [reflexivity|]. split; [now rewrite put_length|].
    intros r' g' Hg'. destruct (Nat.eq_dec r r') as [<-|N].
    - rewrite put_same by (rewrite L; now apply nth_lt in Hg). rewrite Hg in Hg'. injection Hg' as <-.
      unfold block_of. rewrite Hgv, Ec. unfold own. cbn. rewrite Nat.eqb_refl. now rewrite Nat.add_1_r.
    - rewrite put_other by assumption. rewrite (H _ _ Hg'). unfold own. cbn. destruct (Nat.eqb_spec r' r); [congruence|]. now rewrite Nat.add_0_r.
  Qed.
  Lemma alloc_ok regs cnt m t l : Rm regs cnt m -> cnt (length regs) = 1 ->
    Rm (regs ++ [mkRegion false t l]) cnt (m ++ [Some (mkBlock t l (Some 1))]) /\ snd (raw_alloc T V m t l) = length regs.
  Proof.
    intros [L H] C. split; [|assumption]. split; [rewrite !app_length; cbn; now rewrite L|].
    intros r g Hg. apply nth_app_inv in Hg. destruct Hg as [Hg|[-> ->]].
    - apply nth_app_old. now apply H.
    - rewrite <- L at 1. rewrite nth_app_new. unfold block_of. cbn. now rewrite C.
  Qed.
  Lemma good_app regs g a : good regs a -> good (regs ++ [g]) a.
  Proof.
    destruct a as [[|obj t k [[r off]|] n]|]; cbn; auto. intros (h & Hh & Q). exists h. split; [now apply nth_app_old|exact Q].
  Qed.

  (** Reading and writing *)
  Lemma load_ok regs cnt m r g i v : Rm regs cnt m -> nth_error regs r = Some g -> (rg_given T V g = true \/ 0 < cnt r) -> nth_error (rg_vals T V g) i = Some v ->
    load T V ty_eqb m (rg_ty T V g) r i = Ok v.
  Proof.
    intros [L H] Hg A Hv. unfold load. rewrite (H _ _ Hg). unfold block_of. destruct (rg_given T V g) eqn:E.
    - cbn. now rewrite ty_refl, Hv.
    - destruct A as [A|A]; [discriminate|]. destruct (cnt r) eqn:Ec; [lia|]. cbn. now rewrite ty_refl, Hv.
  Qed.
  Lemma load_all_ok regs cnt m r g : Rm regs cnt m -> nth_error regs r = Some g -> (rg_given T V g = true \/ 0 < cnt r) ->
    forall n o, o + n <= length (rg_vals T V g) -> load_all T V ty_eqb m (rg_ty T V g) r o n = Ok (firstn n (skipn o (rg_vals T V g))).
  Proof.
    intros HR Hg A. induction n as [|n IH]; intros o Ho; [reflexivity|]. cbn [load_all].
    destruct (nth_error (rg_vals T V g) o) as [v|] eqn:Ev; [|apply nth_error_None in Ev; lia].
    rewrite (load_ok _ _ _ _ _ _ _ HR Hg A Ev). cbn. rewrite IH by lia. cbn.
    clear - Ev. revert o Ev. generalize (rg_vals T V g) as l. induction l as [|a l IH]; intros [|o] Ev; cbn in *; try discriminate; [congruence|].
    now apply IH.
  Qed.
  Lemma load_from_ok regs cnt m r g n o : Rm regs cnt m -> nth_error regs r = Some g -> (rg_given T V g = true \/ 0 < cnt r) -> o + n <= length (rg_vals T V g) ->
    load_from T V ty_eqb m (rg_ty T V g) (Some (r, o)) n = Ok (firstn n (skipn o (rg_vals T V g))).
  Proof. intros HR Hg A Ho. unfold load_from. destruct n as [|n]; [reflexivity|]. now apply (load_all_ok regs cnt). Qed.
  Lemma store_ok regs cnt m r g i v : Rm regs cnt m -> nth_error regs r = Some g -> (rg_given T V g = true \/ 0 < cnt r) -> i < length (rg_vals T V g) ->
    exists m', store T V ty_eqb m (rg_ty T V g) r i v = Ok m' /\ Rm (put r (mkRegion (rg_given T V g) (rg_ty T V g) (put i v (rg_vals T V g))) regs) cnt m'.
  Proof.
    intros [L H] Hg A Hi. unfold store. rewrite (H _ _ Hg). unfold block_of. pose proof (nth_lt _ _ _ Hg) as Lr. destruct (rg_given T V g) eqn:E.
    - cbn [bk_ty bk_vals bk_refs]. rewrite ty_refl. apply Nat.ltb_lt in Hi. rewrite Hi. cbn [andb]. eexists. split; [reflexivity|]. split; [now rewrite !put_length|].
      intros r' g' Hg'. apply put_inv in Hg'. destruct Hg' as [[-> ->]|[N Hg']].
      + rewrite put_same by now rewrite L. reflexivity.
      + rewrite put_other by congruence. now apply H.
    - destruct A as [A|A]; [discriminate|]. destruct (cnt r) as [|c] eqn:Ec; [lia|]. cbn [bk_ty bk_vals bk_refs]. rewrite ty_refl. apply Nat.ltb_lt in Hi. rewrite Hi. cbn [andb]. eexists. split; [reflexivity|]. split; [now rewrite !put_length|].
      intros r' g' Hg'. apply put_inv in Hg'. destruct Hg' as [[-> ->]|[N Hg']].
      + rewrite put_same by now rewrite L. unfold block_of. cbn. now rewrite Ec.
      + rewrite put_other by congruence. now apply H.
  Qed.
  Lemma alive_cnt w r : alive T V w r -> exists g, nth_error (regions T V w) r = Some g /\ (rg_given T V g = true \/ 0 < count r (arrays T V w)).
  Proof. intros (g & Hg & [A|A]); exists g; split; auto. right. now apply count_pos. Qed.
End Proofs.
