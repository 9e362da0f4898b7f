(** Proofs about CacheArray. *)
From Coq Require Import ZifyBool Lia.
From Verif Require Import CarrSpec.
Open Scope Z_scope.

Section Proofs.
  Context {T : Type}.
  Variable I : Z.
  Hypothesis HI : 0 <= I.
  Definition live (m : blocks T) : nat := length (filter bk_live m).
  Lemma nth_split (m : blocks T) p b : nth_error m p = Some b -> m = firstn p m ++ b :: skipn (S p) m /\ length (firstn p m) = p.
  Proof.
    revert p. induction m as [|x m IH]; intros [|p] E; cbn in *; try discriminate.
    - injection E as ->. auto.
    - destruct (IH p E) as [E1 E2]. split; congruence.
  Qed.
  Lemma live_set m p b b' : nth_error m p = Some b -> (live (set_block m p b') + (if bk_live b then 1 else 0) = live m + (if bk_live b' then 1 else 0))%nat.
  Proof.
    intros E. destruct (nth_split m p b E) as [E1 _]. unfold live, set_block. rewrite E1 at 3. rewrite !filter_app, !app_length. cbn [filter].
    destruct (bk_live b), (bk_live b'); cbn [length]; lia.
  Qed.
  Lemma nth_set (m : blocks T) p b b' : nth_error m p = Some b -> nth_error (set_block m p b') p = Some b'.
  Proof.
    intros E. destruct (nth_split m p b E) as [_ E2]. unfold set_block. rewrite nth_error_app2 by lia. rewrite E2, Nat.sub_diag. reflexivity.
  Qed.
  Lemma live_app m b : live (m ++ [b]) = (live m + if bk_live b then 1 else 0)%nat.
  Proof. unfold live. rewrite filter_app, app_length. cbn [filter]. destruct (bk_live b); reflexivity. Qed.
  Lemma nth_last (m : blocks T) b : nth_error (m ++ [b]) (length m) = Some b.
  Proof. rewrite nth_error_app2, Nat.sub_diag by lia. reflexivity. Qed.

  Definition elem (s : state T) (i : Z) : option T :=
    match ca_ptr (snd s) with
    | None => match ca_un (snd s) with Elems x => Some (x i) | Alloc _ => None end
    | Some p => match nth_error (fst s) p with Some b => Some (bat (bk_buf b) i) | None => None end
    end.
  Definition inv (rs : list Z) (w : Z -> option T) (s : state T) : Prop :=
    let '(m, a) := s in
    ca_size a = shown I rs /\ rs <> [] /\ (forall i v, w i = Some v -> elem s i = Some v) /\
    match ca_ptr a with
    | None => Forall (fun n => n <= I) rs /\ (exists x, ca_un a = Elems x) /\ live m = O
    | Some p => exists b, nth_error m p = Some b /\ bk_live b = true /\ blen (bk_buf b) > I /\ last_request rs <= blen (bk_buf b) /\
        (last_request rs > I -> ca_un a = Alloc (blen (bk_buf b)) /\ blen (bk_buf b) = top I rs) /\
        live m = (drops I rs + if last_request rs >? I then 1 else 0)%nat
    end.
  Lemma shown_small rs : (shown I rs <=? I) = (last_request rs <=? I).
  Proof.
    induction rs as [|n rs IH]; cbn [shown last_request hd]; [reflexivity|]. destruct (n <=? I) eqn:E; cbn [andb]; [|exact E].
    destruct rs as [|m rs]; [exact E|]. cbn [last_request hd] in *. destruct (m <=? I) eqn:E2; [|exact E]. rewrite IH. reflexivity.
  Qed.
  Lemma drops_cc n m r : drops I (n :: m :: r) = if (n <=? I) && (m >? I) then S (drops I (m :: r)) else drops I (m :: r).
  Proof. reflexivity. Qed.
  Lemma construct_inv size junk : 0 <= size -> inv [size] (fun _ => None) (construct I [] size junk).
  Proof.
    intros H. unfold construct, allocate. destruct (size >? I) eqn:E; cbn.
    - split; [destruct (size <=? I); reflexivity|]. split; [discriminate|]. split; [discriminate|]. eexists. split; [reflexivity|]. cbn. rewrite E. repeat split; auto; lia.
    - split; [destruct (size <=? I); reflexivity|]. split; [discriminate|]. split; [discriminate|]. split; [constructor; [lia|constructor]|]. eauto.
  Qed.
  Lemma resize_inv rs w s n junk : 0 <= n -> inv rs w s -> exists s', resize I s n junk = Ok s' /\ inv (n :: rs) (fun _ => None) s'.
  Proof.
    intros Hn H. destruct s as [m a]. destruct H as (Hs & Hrs & Hw & HP). unfold resize, is_inline. rewrite Hs, shown_small.
    destruct rs as [|l rs]; [congruence|]. cbn [last_request hd] in *. destruct (l <=? I) eqn:El.
    - destruct (n >? I) eqn:En.
      + unfold allocate. eexists. split; [reflexivity|]. split; [|split; [discriminate|split; [discriminate|]]].
        { cbn [ca_size shown]. replace (n <=? I) with false by lia. reflexivity. }
        cbn [ca_ptr]. eexists. split; [apply nth_last|]. cbn [bk_live bk_buf blen last_request hd ca_un]. split; auto. split; [lia|]. split; [lia|]. split.
        * intros _. split; auto. cbn [top]. rewrite En. destruct (l >? I) eqn:X; [lia|]. lia.
        * rewrite live_app. cbn [bk_live]. rewrite drops_cc. replace (n <=? I) with false by lia. cbn [andb]. cbn [last_request hd]. rewrite En.
          destruct (ca_ptr a) as [p|].
          -- destruct HP as (b & _ & _ & _ & _ & _ & L). replace (l >? I) with false in L by lia. lia.
          -- destruct HP as (F & _ & L). rewrite L. assert (D : forall r, Forall (fun n => n <= I) r -> drops I r = O).
             { induction r as [|x [|y r] IH]; intros F'; [reflexivity|reflexivity|]. apply Forall_cons_iff in F' as [F1 F2]. rewrite drops_cc. assert (y <= I) by (apply Forall_cons_iff in F2 as [? _]; auto). replace (y >? I) with false by lia. rewrite andb_false_r. apply IH; auto. }
             rewrite (D _ F). reflexivity.
      + eexists. split; [reflexivity|]. split; [|split; [discriminate|split; [discriminate|]]].
        { change (shown I (n :: l :: rs)) with (if (n <=? I) && (l <=? I) then shown I (l :: rs) else n). replace ((n <=? I) && (l <=? I)) with true by lia. exact Hs. }
        destruct (ca_ptr a) as [p|].
        * destruct HP as (b & E1 & E2 & E3 & E4 & E5 & E6). exists b. cbn [last_request hd]. repeat split; auto; try lia.
          change (drops I (n :: l :: rs)) with (if (n <=? I) && (l >? I) then S (drops I (l :: rs)) else drops I (l :: rs)). replace (l >? I) with false by lia. rewrite andb_false_r, En. replace (l >? I) with false in E6 by lia. exact E6.
        * destruct HP as (F & X & L). split; [constructor; [lia|auto]|]. auto.
    - destruct (ca_ptr a) as [p|] eqn:Ep; [|destruct HP as (F & _); apply Forall_cons_iff in F as [F _]; lia].
      destruct HP as (b & E1 & E2 & E3 & E4 & E5 & E6). destruct (E5 ltac:(lia)) as [E7 E8]. unfold get_alloc. rewrite E7. cbn [bind]. destruct (n >? blen (bk_buf b)) eqn:En.
      + unfold deallocate. rewrite E1, E2, Z.eqb_refl. cbn [andb bind]. unfold allocate. eexists. split; [reflexivity|]. split; [|split; [discriminate|split; [discriminate|]]].
        { cbn [ca_size shown]. replace (n <=? I) with false by lia. reflexivity. }
        cbn [ca_ptr]. eexists. split; [apply nth_last|]. cbn [bk_live bk_buf blen last_request hd ca_un]. split; auto. split; [lia|]. split; [lia|]. split.
        * intros _. split; auto. change (top I (n :: l :: rs)) with (if n >? I then Z.max n (top I (l :: rs)) else 0). rewrite <- E8. replace (n >? I) with true by lia. lia.
        * rewrite live_app. cbn [bk_live]. assert (X := live_set m p b (mkBlock (bk_buf b) false) E1). rewrite E2 in X. cbn [bk_live] in X.
          change (drops I (n :: l :: rs)) with (if (n <=? I) && (l >? I) then S (drops I (l :: rs)) else drops I (l :: rs)). replace (n <=? I) with false by lia. cbn [andb]. replace (n >? I) with true by lia. replace (l >? I) with true in E6 by lia. lia.
      + eexists. split; [reflexivity|]. split; [|split; [discriminate|split; [discriminate|]]].
        { cbn [ca_size]. change (shown I (n :: l :: rs)) with (if (n <=? I) && (l <=? I) then shown I (l :: rs) else n). replace (l <=? I) with false by lia. rewrite andb_false_r. reflexivity. }
        cbn [ca_ptr]. rewrite ?Ep. exists b. cbn [last_request hd ca_un]. repeat split; auto; try lia.
        * change (top I (n :: l :: rs)) with (if n >? I then Z.max n (top I (l :: rs)) else 0). rewrite <- E8. replace (n >? I) with true by lia. lia.
        * change (drops I (n :: l :: rs)) with (if (n <=? I) && (l >? I) then S (drops I (l :: rs)) else drops I (l :: rs)). replace (l >? I) with true in * by lia. rewrite andb_true_r.
          destruct (n <=? I) eqn:X; destruct (n >? I) eqn:Y; try lia.
  Qed.
  Lemma inv_bound rs w m a : inv rs w (m, a) -> ca_ptr a = None -> last_request rs <= I.
  Proof. intros (_ & Hrs & _ & HP) E. rewrite E in HP. destruct HP as (F & _). destruct rs; [congruence|]. apply Forall_cons_iff in F as [F _]. exact F. Qed.
  Lemma write_inv rs w s i v junk : 0 <= i < last_request rs -> inv rs w s ->
    exists s', write I s i v junk = Ok s' /\ inv rs (fun j => if j =? i then Some v else w j) s'.
  Proof.
    intros Hi H. destruct s as [m a]. assert (HB := inv_bound rs w m a H). destruct H as (Hs & Hrs & Hw & HP). unfold write. destruct (ca_ptr a) as [p|] eqn:Ep.
    - destruct HP as (b & E1 & E2 & E3 & E4 & E5 & E6). rewrite E1, E2. rewrite bset_ok by lia. cbn [bind]. eexists. split; [reflexivity|]. split; [exact Hs|]. split; [exact Hrs|]. split.
      + intros j u. unfold elem. cbn [fst snd]. rewrite Ep, (nth_set m p b) by auto. cbn [bk_buf bat]. destruct (j =? i) eqn:Ej; [auto|]. intros E. apply Hw in E. unfold elem in E. cbn [fst snd] in E. rewrite Ep, E1 in E. exact E.
      + rewrite Ep. eexists. split; [apply (nth_set m p b); auto|]. cbn [bk_live bk_buf blen]. repeat split; auto; try apply E5; auto.
        assert (X := live_set m p b (mkBlock (mkbuf (blen (bk_buf b)) (fun k => if k =? i then v else bat (bk_buf b) k)) true) E1). rewrite E2 in X. cbn [bk_live] in X. lia.
    - assert (Hl := HB eq_refl). replace ((0 <=? i) && (i <? I)) with true by lia. destruct HP as (F & [x Ex] & L). rewrite Ex. eexists. split; [reflexivity|]. split; [exact Hs|]. split; [exact Hrs|]. split.
      + intros j u. unfold elem. cbn [fst snd ca_ptr ca_un]. destruct (j =? i) eqn:Ej; [auto|]. intros E. apply Hw in E. unfold elem in E. cbn [fst snd] in E. rewrite Ep, Ex in E. exact E.
      + cbn [ca_ptr ca_un]. eauto.
  Qed.
  Lemma read_inv rs w s i : 0 <= i < last_request rs -> inv rs w s -> exists v, read I s i = Ok v /\ forall u, w i = Some u -> v = u.
  Proof.
    intros Hi H. destruct s as [m a]. assert (HB := inv_bound rs w m a H). destruct H as (Hs & Hrs & Hw & HP). unfold read. destruct (ca_ptr a) as [p|] eqn:Ep.
    - destruct HP as (b & E1 & E2 & E3 & E4 & E5 & E6). rewrite E1, E2. rewrite bget_ok by lia. eexists. split; [reflexivity|]. intros u E. apply Hw in E. unfold elem in E. cbn [fst snd] in E. rewrite Ep, E1 in E. congruence.
    - assert (Hl := HB eq_refl). replace ((0 <=? i) && (i <? I)) with true by lia. destruct HP as (F & [x Ex] & L). rewrite Ex. eexists. split; [reflexivity|]. intros u E. apply Hw in E. unfold elem in E. cbn [fst snd] in E. rewrite Ep, Ex in E. congruence.
  Qed.
  Lemma capacity_inv rs w s : inv rs w s -> capacity I s = Ok (if shown I rs <=? I then I else top I rs).
  Proof.
    intros H. destruct s as [m a]. assert (HB := inv_bound rs w m a H). destruct H as (Hs & Hrs & Hw & HP). unfold capacity, is_inline. cbn [snd]. rewrite Hs. destruct (shown I rs <=? I) eqn:E; [reflexivity|].
    rewrite shown_small in E. destruct (ca_ptr a); [|specialize (HB eq_refl); lia]. destruct HP as (b & E1 & E2 & E3 & E4 & E5 & E6). destruct (E5 ltac:(lia)) as [X Y]. unfold get_alloc. rewrite X, Y. reflexivity.
  Qed.
  Definition req_step (rs : list Z) (u : use T) : list Z := match u with Resize n _ => n :: rs | _ => rs end.
  Definition wr_step (i : Z) (o : option T) (u : use T) : option T := match u with Resize _ _ => None | Write j v _ => if i =? j then Some v else o | _ => o end.
  Lemma inv_ext rs w w' s : (forall i, w' i = w i) -> inv rs w s -> inv rs w' s.
  Proof. destruct s as [m a]. intros E (A & B & C & D). split; auto. split; auto. split; auto. intros i v X. apply C. rewrite <- E. exact X. Qed.
  Lemma uses_inv us : forall rs w s, inv rs w s -> proper (last_request rs) us ->
    exists s' l, uses I s us = Ok (s', l) /\ inv (fold_left req_step us rs) (fun i => fold_left (wr_step i) us (w i)) s' /\ length l = length us /\
      forall p, match nth_error us p with
      | Some (Read i) => exists x, nth_error l p = Some (Value x) /\ forall v, fold_left (wr_step i) (firstn p us) (w i) = Some v -> x = v
      | Some Size => nth_error l p = Some (Count (shown I (fold_left req_step (firstn p us) rs)))
      | Some Capacity => nth_error l p = Some (Count (if shown I (fold_left req_step (firstn p us) rs) <=? I then I else top I (fold_left req_step (firstn p us) rs)))
      | _ => True
      end.
  Proof.
    induction us as [|u us IH]; intros rs w s H P.
    - exists s, []. cbn. split; auto. split; auto. split; auto. intros [|p]; cbn; auto.
    - assert (X : exists s1 t, step I s u = Ok (s1, t) /\ inv (req_step rs u) (fun i => wr_step i (w i) u) s1 /\ proper (last_request (req_step rs u)) us /\
        match u with Read i => exists x, t = Value x /\ forall v, w i = Some v -> x = v | Size => t = Count (shown I rs) | Capacity => t = Count (if shown I rs <=? I then I else top I rs) | _ => True end).
      { destruct u as [n junk|i v junk|i| |]; cbn [step proper req_step wr_step] in *.
        - destruct P as [P1 P2]. destruct (resize_inv rs w s n junk P1 H) as (s1 & -> & H1). exists s1, Done. cbn. auto.
        - destruct P as [P1 P2]. destruct (write_inv rs w s i v junk P1 H) as (s1 & -> & H1). exists s1, Done. cbn. auto.
        - destruct P as [P1 P2]. destruct (read_inv rs w s i P1 H) as (x & -> & H1). exists s, (Value x). cbn. split; auto. split; auto. split; auto. eauto.
        - exists s, (Count (size_of s)). split; auto. split; auto. split; auto. destruct s as [m a]. destruct H as (Hs & _). cbn [size_of snd]. unfold size_of. cbn [snd]. rewrite Hs. reflexivity.
        - rewrite (capacity_inv rs w s H). exists s. eexists. cbn. auto. }
      destruct X as (s1 & t & E & H1 & P1 & A). destruct (IH _ _ _ H1 P1) as (s' & l & E2 & H2 & L & G). exists s', (t :: l). cbn [uses]. rewrite E. cbn [bind]. rewrite E2. cbn [bind]. split; auto. split; auto.
      split; [cbn; congruence|]. intros [|p]; cbn [nth_error firstn fold_left].
      + destruct u; auto; [destruct A as (x & -> & A)|rewrite A|rewrite A]; eauto.
      + apply G.
  Qed.
  Lemma uses_ok size junk us : 0 <= size -> proper size us ->
    exists s l, uses I (construct I [] size junk) us = Ok (s, l) /\ answers_ok I size us l /\ inv (requests size us) (last_write us) s.
  Proof.
    intros H P. destruct (uses_inv us [size] (fun _ => None) _ (construct_inv size junk H) P) as (s & l & E & H2 & L & G). exists s, l. split; auto. split; [split; [exact L|exact G]|exact H2].
  Qed.
  Lemma top_last rs : last_request rs > I -> last_request rs <= top I rs.
  Proof. destruct rs as [|n rs]; cbn; [lia|]. intros H. replace (n >? I) with true by lia. lia. Qed.
  Lemma life_ok size (junk : Z -> T) us : 0 <= size -> proper size us -> let rs := requests size us in
    (last_request rs <= I \/ last_request rs = top I rs -> exists l m, life I size junk us = Ok (l, m) /\ answers_ok I size us l /\ length m = drops I rs) /\
    (last_request rs > I /\ last_request rs <> top I rs -> life I size junk us = UB).
  Proof.
    intros H P rs. destruct (uses_ok size junk us H P) as (s & l & E & A & V). fold rs in V. destruct s as [m a]. unfold life. rewrite E. cbn [bind]. unfold destroy, is_inline.
    assert (HB := inv_bound rs _ m a V). destruct V as (Hs & Hrs & _ & HP). rewrite Hs, shown_small. destruct (last_request rs <=? I) eqn:El; cbn [negb].
    - split; [intros _|lia]. cbn [bind]. exists l, (filter bk_live m). split; auto. split; auto. fold (live m). destruct (ca_ptr a).
      + destruct HP as (b & _ & _ & _ & _ & _ & L). replace (last_request rs >? I) with false in L by lia. lia.
      + destruct HP as (F & _ & L). rewrite L. clear -F. induction rs as [|x [|y r] IH]; [reflexivity|reflexivity|]. apply Forall_cons_iff in F as [F1 F2]. rewrite drops_cc. assert (y <= I) by (apply Forall_cons_iff in F2 as [? _]; auto). replace (y >? I) with false by lia. rewrite andb_false_r. apply IH; auto.
    - destruct (ca_ptr a) as [p|]; [|specialize (HB eq_refl); lia]. destruct HP as (b & E1 & E2 & E3 & E4 & E5 & E6). destruct (E5 ltac:(lia)) as [X Y]. unfold deallocate. rewrite E1, E2. cbn [andb]. rewrite Y.
      assert (SH : shown I rs = last_request rs). { destruct rs as [|n r]; [congruence|]. cbn [last_request hd] in *. cbn [shown]. rewrite El. reflexivity. }
      rewrite SH. destruct (top I rs =? last_request rs) eqn:Et; (split; [intros Q|intros Q]); try lia.
      + cbn [bind]. eexists _, _. split; [reflexivity|]. split; auto. fold (live (set_block m p (mkBlock (bk_buf b) false))). assert (Z1 := live_set m p b (mkBlock (bk_buf b) false) E1). rewrite E2 in Z1. cbn [bk_live] in Z1. replace (last_request rs >? I) with true in E6 by lia. lia.
      + reflexivity.
  Qed.
  Lemma growing_top rs : growing I rs -> shown I rs = last_request rs /\ drops I rs = O /\ (last_request rs <= I \/ last_request rs = top I rs).
  Proof.
    induction rs as [|n rs IH]; [cbn; lia|]. destruct rs as [|m r].
    - intros _. cbn. rewrite andb_false_r. split; auto. split; auto. destruct (n >? I) eqn:E; lia.
    - intros (H1 & H2 & H3). destruct (IH H3) as (A & B & C).
      change (shown I (n :: m :: r)) with (if (n <=? I) && (m <=? I) then shown I (m :: r) else n). change (drops I (n :: m :: r)) with (if (n <=? I) && (m >? I) then S (drops I (m :: r)) else drops I (m :: r)).
      change (top I (n :: m :: r)) with (if n >? I then Z.max n (top I (m :: r)) else 0). replace (n <=? I) with false by lia. cbn [andb last_request hd]. split; auto. split; auto. right. replace (n >? I) with true by lia.
      cbn [last_request hd] in C. destruct C as [C|C]; [|lia]. cbn [top]. replace (m >? I) with false by lia. lia.
  Qed.
End Proofs.

Lemma grows {T} I size (junk : Z -> T) us : 0 <= I -> 0 <= size -> proper size us -> growing I (requests size us) ->
  exists l, life I size junk us = Ok (l, []) /\ answers_ok I size us l.
Proof.
  intros H0 H P G. destruct (growing_top I H0 _ G) as (_ & D & X). destruct (life_ok I size junk us H P) as [L _]. destruct (L X) as (l & m & E & A & B). exists l. rewrite D in B. destruct m; [auto|discriminate].
Qed.
Lemma inline_size {T} I a b (junk junk' : Z -> T) : 0 <= a <= I -> 0 <= b <= I -> life I a junk [Resize b junk'; Size] = Ok ([Done; Count a], []).
Proof.
  intros Ha Hb. unfold life, construct. replace (a >? I) with false by lia. cbn [uses step]. unfold resize, is_inline. cbn [ca_size]. replace (a <=? I) with true by lia. replace (b >? I) with false by lia. cbn [bind].
  unfold destroy, is_inline, size_of. cbn [snd ca_size]. replace (a <=? I) with true by lia. reflexivity.
Qed.
Lemma shrink_leaks {T} I a b (junk junk' : Z -> T) : 0 <= b <= I -> I < a -> exists l m, life I a junk [Resize b junk'] = Ok (l, m) /\ length m = 1%nat.
Proof.
  intros Hb Ha. destruct (life_ok I a junk [Resize b junk'] ltac:(lia)) as [L _]; [cbn; lia|]. destruct L as (l & m & E & _ & D); [cbn; lia|]. exists l, m. split; auto. rewrite D. cbn. replace (b <=? I) with true by lia. replace (a >? I) with true by lia. reflexivity.
Qed.
Lemma shrink_mismatch {T} I a b (junk junk' : Z -> T) : 0 <= I < b -> b < a -> life I a junk [Resize b junk'] = UB.
Proof.
  intros Hb Ha. destruct (life_ok I a junk [Resize b junk'] ltac:(lia)) as [_ L]; [cbn; lia|]. apply L. cbn. replace (b >? I) with true by lia. replace (a >? I) with true by lia. lia.
Qed.
Lemma life_ex : let us := [Write 1 5 (fun _ => 0); Resize 40 (fun _ => 9); Write 39 7 (fun _ => 0); Read 39; Size; Resize 50 (fun _ => 8); Capacity; Size; Read 0] in
  proper 3 us /\ growing 32 (requests 3 us) /\ life 32 3 (fun _ => 1) us = Ok ([Done; Done; Done; Value 7; Count 40; Done; Count 50; Count 50; Value 8], []).
Proof. cbn. split; [lia|]. split; [lia|]. reflexivity. Qed.
Lemma life_full {T} I : 0 <= I -> forall size (junk : Z -> T) us, 0 <= size -> proper size us -> let rs := requests size us in
  (exists s l, uses I (construct I [] size junk) us = Ok (s, l) /\ answers_ok I size us l) /\
  (last_request rs <= I \/ last_request rs = top I rs -> exists l m, life I size junk us = Ok (l, m) /\ answers_ok I size us l /\ length m = drops I rs) /\
  (last_request rs > I /\ last_request rs <> top I rs -> life I size junk us = UB).
Proof. intros HI size junk us H P rs. split; [|apply life_ok; auto]. destruct (uses_ok I size junk us H P) as (s & l & E & A & _). eauto. Qed.
Lemma grows_full {T} I size (junk : Z -> T) us : 0 <= I -> 0 <= size -> proper size us -> growing I (requests size us) ->
  shown I (requests size us) = last_request (requests size us) /\ exists l, life I size junk us = Ok (l, []) /\ answers_ok I size us l.
Proof. intros. split; [apply growing_top; auto|apply grows; auto]. Qed.
