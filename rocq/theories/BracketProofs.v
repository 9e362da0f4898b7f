(** The cached bracket equals a cache-free recursive function, for every history. *)
From Coq Require Import ZifyBool Sorted.
From Verif Require Import Outcome Alg Words Mem Mobius HallModel HallSpec HallTab HallCount HallDim HallProofs HallTrees HallLookup BracketModel.
Local Open Scope Z_scope.

Definition neg (e : list (Z * Z)) : list (Z * Z) := map (fun p => (fst p, - snd p)) e.
Lemma neg_neg e : neg (neg e) = e.
Proof. unfold neg. rewrite map_map. rewrite <- (map_id e) at 2. apply map_ext. intros [k v]. cbn. f_equal. lia. Qed.
Lemma neg_vals_add m k v : neg (vals_add m k v) = vals_add (neg m) k (- v).
Proof.
  induction m as [|[k' x] m IH]; cbn [vals_add neg map fst snd].
  - destruct (v =? 0) eqn:E; [replace (- v =? 0) with true by lia|replace (- v =? 0) with false by lia]; reflexivity.
  - destruct (k <? k').
    + destruct (v =? 0) eqn:E; [replace (- v =? 0) with true by lia|replace (- v =? 0) with false by lia]; reflexivity.
    + destruct (k =? k').
      * destruct (x + v =? 0) eqn:E; [replace (- x + - v =? 0) with true by lia|replace (- x + - v =? 0) with false by lia]; [reflexivity|].
        cbn [map fst snd]. f_equal. f_equal. lia.
      * cbn [map fst snd]. f_equal. apply IH.
Qed.
Lemma neg_vals_add_all f ip : forall m, neg (vals_add_all f ip m) = vals_add_all (- f) ip (neg m).
Proof.
  unfold vals_add_all. induction ip as [|p ip IH]; intros m; cbn [fold_left]; [reflexivity|]. rewrite IH, neg_vals_add. f_equal. f_equal. lia.
Qed.
(** sorted by key, no zero coefficient *)
Definition vok (m : list (Z * Z)) : Prop := StronglySorted Z.lt (map fst m) /\ forall p, In p m -> snd p <> 0.
Lemma vals_add_fst m k v x : In x (map fst (vals_add m k v)) -> x = k \/ In x (map fst m).
Proof.
  induction m as [|[k' y] m IH]; cbn [vals_add].
  - destruct (v =? 0); cbn; intuition auto.
  - destruct (k <? k').
    + destruct (v =? 0); cbn; intuition auto.
    + destruct (k =? k'); [destruct (y + v =? 0); cbn; intuition auto|]. cbn. intros [|Hx]; auto. apply IH in Hx. tauto.
Qed.
Lemma vals_add_ok m k v : vok m -> vok (vals_add m k v).
Proof.
  induction m as [|[k' y] m IH]; intros [Hs Hz]; cbn [vals_add].
  - destruct (v =? 0) eqn:E; [split; auto|]. split; [repeat constructor|]. intros p [<-|[]]. cbn. lia.
  - inversion Hs as [|? ? Hs' Hf]; subst. rewrite Forall_forall in Hf. fold (map fst m) in *.
    destruct (k <? k') eqn:E1.
    + destruct (v =? 0) eqn:E; [split; auto|]. split.
      * cbn [map fst]. constructor; auto. rewrite Forall_forall. intros x [<-|Hx]; [lia|]. apply Hf in Hx. lia.
      * intros p [<-|Hp]; [cbn; lia|]. apply Hz; auto.
    + destruct (k =? k') eqn:E2.
      * destruct (y + v =? 0) eqn:E; [split; auto; intros p Hp; apply Hz; right; auto|]. split; [cbn [map fst]; constructor; auto; rewrite Forall_forall; auto|].
        intros p [<-|Hp]; [cbn; lia|]. apply Hz; right; auto.
      * destruct IH as [I1 I2]; [split; auto; intros p Hp; apply Hz; right; auto|]. split.
        -- cbn [map fst]. constructor; auto. rewrite Forall_forall. intros x Hx. apply vals_add_fst in Hx. destruct Hx as [->|Hx]; [lia|auto].
        -- intros p [<-|Hp]; [apply (Hz (k', y)); left; auto|auto].
Qed.
Lemma vals_add_all_ok f ip : forall m, vok m -> vok (vals_add_all f ip m).
Proof. unfold vals_add_all. induction ip as [|p ip IH]; intros m Hm; cbn [fold_left]; auto. apply IH, vals_add_ok; auto. Qed.
Lemma vals_add_all_fst f ip x : forall m, In x (map fst (vals_add_all f ip m)) -> In x (map fst ip) \/ In x (map fst m).
Proof.
  unfold vals_add_all. induction ip as [|p ip IH]; intros m Hm; cbn [fold_left] in Hm; [auto|]. apply IH in Hm. destruct Hm as [Hm|Hm]; [left; right; auto|].
  apply vals_add_fst in Hm. destruct Hm as [->|Hm]; [left; left; auto|auto].
Qed.

Section Bracket.
  Variables (w N M : Z) (db L R : Z -> Z).
  Hypothesis H : hall_data w N M db L R.

  Definition dg (k : Z) : Z := Z.of_nat (dgof N db k).
  Lemma dg_level k : 1 <= k <= M -> 1 <= dg k <= N /\ db (dg k) <= k < db (dg k + 1).
  Proof.
    intros Hk. destruct (level_ex _ _ _ _ _ _ H k Hk) as (d & Hd & Hkd). unfold dg. rewrite (dgof_level _ _ _ _ _ _ H d k Hd Hkd).
    rewrite Z2Nat.id by lia. auto.
  Qed.
  Lemma dg_eq d k : 1 <= d <= N -> db d <= k < db (d + 1) -> dg k = d.
  Proof. intros Hd Hk. unfold dg. rewrite (dgof_level _ _ _ _ _ _ H d k Hd Hk). lia. Qed.
  Lemma dg_mono a b : 1 <= a <= M -> 1 <= b <= M -> dg a < dg b -> a < b.
  Proof.
    intros Ha Hb Hlt. destruct (dg_level a Ha) as [A1 A2]. destruct (dg_level b Hb) as [B1 B2].
    assert (X := db_mono _ _ _ _ _ _ H (dg a + 1) (dg b) ltac:(lia) ltac:(lia) ltac:(lia)). lia.
  Qed.
  Lemma dg_le a b : 1 <= a <= M -> 1 <= b <= M -> a <= b -> dg a <= dg b.
  Proof. intros Ha Hb Hle. destruct (Z_le_gt_dec (dg a) (dg b)); auto. assert (b < a) by (apply dg_mono; auto; lia). lia. Qed.

  Definition find_key (i j : Z) : option Z := find (fun k => (L k =? i) && (R k =? j)) (zrng 1 (M + 1)).
  Definition valid (a b : Z) : Prop := 1 <= a <= M /\ 1 <= b <= M /\ dg a + dg b <= N.
  Definition mu (a b : Z) : Z := (dg a + dg b) * (M + 1) - Z.min a b.

  Lemma node_dg k : 1 <= k <= M -> w < k ->
    1 <= L k <= M /\ 1 <= R k <= M /\ dg (L k) + dg (R k) = dg k /\ L k < R k /\ L (R k) <= L k /\ R k < k.
  Proof.
    intros Hk Hw. destruct (dg_level k Hk) as [D1 D2].
    destruct (Z.eq_dec (dg k) 1) as [E|E]; [rewrite E in D2; apply (level_letter _ _ _ _ _ _ H) in D2; lia|].
    destruct (lvl_node _ _ _ _ _ _ H (dg k) k ltac:(lia) D2) as (a & A1 & A2 & A3 & A4 & A5 & A6 & A7 & A8 & A9).
    assert (P1 := lpos _ _ _ _ _ _ H _ _ A3 ltac:(lia)). assert (P2 := lpos _ _ _ _ _ _ H _ _ A4 ltac:(lia)).
    rewrite (dg_eq a (L k)), (dg_eq (dg k - a) (R k)) by (auto; lia). repeat split; lia.
  Qed.
  Lemma find_key_some i j k : 1 <= i -> find_key i j = Some k -> 1 <= k <= M /\ L k = i /\ R k = j /\ dg k = dg i + dg j.
  Proof.
    intros Hi E. apply find_some in E. destruct E as [E1 E2]. apply zrng_In in E1.
    assert (Hw : w < k). { destruct (Z_lt_ge_dec w k); auto. destruct (hd_let _ _ _ _ _ _ H k ltac:(lia)). lia. }
    destruct (node_dg k ltac:(lia) Hw) as (A1 & A2 & A3 & _). replace i with (L k) by lia. replace j with (R k) by lia. lia.
  Qed.
  Lemma find_key_none i j : valid i j -> i < j -> find_key i j = None -> i < L j /\ w < j.
  Proof.
    intros (Hi & Hj & Hd) Hij E. assert (X : i < L j).
    { destruct (Z_lt_ge_dec i (L j)); auto. exfalso. destruct (dg_level i Hi) as [D1 D2]. destruct (dg_level j Hj) as [E1 E2].
      destruct (hd_all _ _ _ _ _ _ H (dg i) (dg j) i j ltac:(lia) ltac:(lia) Hd D2 E2 Hij ltac:(lia)) as (k & K1 & K2 & K3).
      assert (Hk := lpos _ _ _ _ _ _ H _ _ K1 ltac:(lia)). assert (X : In k (zrng 1 (M + 1))) by (apply zrng_In; lia). apply (find_none _ _ E) in X. cbn beta in X. lia. }
    split; auto. destruct (Z_lt_ge_dec w j); auto. destruct (hd_let _ _ _ _ _ _ H j ltac:(lia)). lia.
  Qed.
  Lemma find_key_unique i j k : 1 <= i -> 1 <= k <= M -> L k = i -> R k = j -> find_key i j = Some k.
  Proof.
    intros Hi Hk El Er. destruct (find_key i j) as [k'|] eqn:E.
    - apply find_key_some in E; auto. destruct E as (K1 & K2 & K3 & K4). f_equal.
      assert (Hw : w < k). { destruct (Z_lt_ge_dec w k); auto. destruct (hd_let _ _ _ _ _ _ H k ltac:(lia)). lia. }
      destruct (node_dg k Hk Hw) as (B1 & B2 & B3 & _).
      assert (Ed : dg k' = dg k) by (subst i j; lia).
      destruct (dg_level k Hk) as [D1 D2]. destruct (dg_level k' K1) as [D1' D2']. rewrite Ed in *.
      assert (Hd2 : 2 <= dg k). { destruct (Z.eq_dec (dg k) 1) as [E1|E1]; [rewrite E1 in D2; apply (level_letter _ _ _ _ _ _ H) in D2; lia|lia]. }
      destruct (Z.lt_trichotomy k k') as [X|[X|X]]; auto.
      + destruct (hd_sorted _ _ _ _ _ _ H (dg k) k k' ltac:(lia) ltac:(lia) X ltac:(lia)) as [Y|[Y1 Y2]]; cbn in *; lia.
      + destruct (hd_sorted _ _ _ _ _ _ H (dg k) k' k ltac:(lia) ltac:(lia) X ltac:(lia)) as [Y|[Y1 Y2]]; cbn in *; lia.
    - exfalso. assert (X : In k (zrng 1 (M + 1))) by (apply zrng_In; lia). apply (find_none _ _ E) in X. cbn beta in X. lia.
  Qed.

  (** The cache-free bracket. *)
  Fixpoint brk (f : nat) (a b : Z) : list (Z * Z) :=
    match f with
    | O => []
    | S f =>
      if a =? b then [] else
      let '(i, j, sign) := if a >? b then (b, a, -1) else (a, b, 1) in
      match find_key i j with
      | Some k => [(k, sign)]
      | None =>
        let v1 := fold_left (fun m p => vals_add_all (sign * snd p) (brk f (fst p) (R j)) m) (brk f i (L j)) [] in
        fold_left (fun m p => vals_add_all (- sign * snd p) (brk f (fst p) (L j)) m) (brk f i (R j)) v1
      end
    end.

  Lemma fold_vok (g : Z * Z -> Z) (h : Z * Z -> list (Z * Z)) l : forall m, vok m ->
    vok (fold_left (fun m p => vals_add_all (g p) (h p) m) l m).
  Proof. induction l as [|p l IH]; intros m Hm; cbn [fold_left]; auto. apply IH, vals_add_all_ok; auto. Qed.
  Lemma fold_fst (P : Z -> Prop) (g : Z * Z -> Z) (h : Z * Z -> list (Z * Z)) l : forall m,
    (forall p, In p l -> forall q, In q (h p) -> P (fst q)) -> (forall q, In q m -> P (fst q)) ->
    forall q, In q (fold_left (fun m p => vals_add_all (g p) (h p) m) l m) -> P (fst q).
  Proof.
    induction l as [|p l IH]; intros m H1 H2 q Hq; cbn [fold_left] in Hq; [auto|]. eapply IH; [| |exact Hq].
    - intros p' Hp'. apply H1. right; auto.
    - intros q' Hq'. assert (X : In (fst q') (map fst (vals_add_all (g p) (h p) m))) by (apply in_map; auto).
      apply vals_add_all_fst in X. destruct X as [X|X]; apply in_map_iff in X; destruct X as (r & <- & Hr); [apply (H1 p); auto; left; auto|auto].
  Qed.
  Lemma brk_vok f a b : vok (brk f a b).
  Proof.
    destruct f as [|f]; cbn [brk]; [split; [constructor|intros p []]|]. destruct (a =? b); [split; [constructor|intros p []]|].
    destruct (a >? b); (destruct (find_key _ _); [split; [repeat constructor|intros p [<-|[]]; cbn; lia]|]); repeat apply fold_vok; split; try constructor; intros p [].
  Qed.
  Lemma fold_neg (c : Z) (h : Z * Z -> list (Z * Z)) l : forall m,
    neg (fold_left (fun m p => vals_add_all (c * snd p) (h p) m) l m) = fold_left (fun m p => vals_add_all (- c * snd p) (h p) m) l (neg m).
  Proof. induction l as [|p l IH]; intros m; cbn [fold_left]; [reflexivity|]. rewrite IH, neg_vals_add_all. f_equal. f_equal. lia. Qed.
  Lemma brk_swap f a b : brk f b a = neg (brk f a b).
  Proof.
    assert (G : forall a b, a < b -> brk f b a = neg (brk f a b)).
    { clear a b. intros a b Hab. destruct f as [|f]; [reflexivity|]. cbn [brk]. replace (b =? a) with false by lia. replace (a =? b) with false by lia.
      replace (b >? a) with true by lia. replace (a >? b) with false by lia. destruct (find_key a b) as [k|]; [reflexivity|].
      rewrite !fold_neg. reflexivity. }
    destruct (Z.lt_trichotomy a b) as [|[->|]]; [apply G; auto| |rewrite (G b a) by auto; rewrite neg_neg; reflexivity].
    destruct f as [|f]; [reflexivity|]. cbn [brk]. rewrite Z.eqb_refl. reflexivity.
  Qed.

  Lemma min_dg a b : valid a b -> 0 <= mu a b.
  Proof.
    intros (Ha & Hb & Hd). destruct (dg_level a Ha) as [D1 _]. destruct (dg_level b Hb) as [D2 _]. unfold mu. nia.
  Qed.
  Lemma mu_sym a b : mu a b = mu b a.
  Proof. unfold mu. rewrite Z.min_comm. lia. Qed.
  (** The four recursive calls of the slow case. *)
  Lemma slow_calls i j : valid i j -> i < j -> find_key i j = None ->
    (valid i (L j) /\ mu i (L j) < mu i j) /\ (valid i (R j) /\ mu i (R j) < mu i j) /\
    (forall x, 1 <= x <= M -> dg x = dg i + dg (L j) -> valid x (R j) /\ mu x (R j) < mu i j /\ dg x + dg (R j) = dg i + dg j) /\
    (forall x, 1 <= x <= M -> dg x = dg i + dg (R j) -> valid x (L j) /\ mu x (L j) < mu i j /\ dg x + dg (L j) = dg i + dg j) /\
    i < L j < R j /\ R j < j /\ 1 <= L j /\ R j <= M.
  Proof.
    intros V Hij E. destruct (find_key_none i j V Hij E) as [Hc Hw]. destruct V as (Hi & Hj & Hd).
    destruct (node_dg j Hj Hw) as (A1 & A2 & A3 & A4 & A5 & A6).
    destruct (dg_level i Hi) as [D1 _]. destruct (dg_level (L j) A1) as [D2 _]. destruct (dg_level (R j) A2) as [D3 _].
    assert (HM : 0 <= M) by lia.
    split; [|split; [|split; [|split]]].
    - split; [unfold valid; lia|]. unfold mu. nia.
    - split; [unfold valid; lia|]. unfold mu. nia.
    - intros x Hx Dx. assert (i < x) by (apply dg_mono; auto; lia). repeat split; try lia.
      unfold mu. replace (dg x + dg (R j)) with (dg i + dg j) by lia. lia.
    - intros x Hx Dx. assert (i < x) by (apply dg_mono; auto; lia). repeat split; try lia.
      unfold mu. replace (dg x + dg (L j)) with (dg i + dg j) by lia. lia.
    - lia.
  Qed.

  Lemma brk_keys f : forall a b, valid a b -> mu a b < Z.of_nat f -> forall p, In p (brk f a b) -> 1 <= fst p <= M /\ dg (fst p) = dg a + dg b.
  Proof.
    induction f as [|f IH]; intros a b V Hf; [assert (X := min_dg a b V); lia|].
    assert (G : forall a b, valid a b -> mu a b < Z.of_nat (S f) -> a < b -> forall p, In p (brk (S f) a b) -> 1 <= fst p <= M /\ dg (fst p) = dg a + dg b).
    { clear a b V Hf. intros a b V Hf Hab p Hp. cbn [brk] in Hp. replace (a =? b) with false in Hp by lia. replace (a >? b) with false in Hp by lia.
      destruct (find_key a b) as [k|] eqn:E.
      - destruct Hp as [<-|[]]. cbn [fst]. destruct V as (Ha & Hb & _). apply find_key_some in E; [|lia]. tauto.
      - destruct (slow_calls a b V Hab E) as ([V1 M1] & [V2 M2] & C1 & C2 & _).
        revert Hp. apply (fold_fst (fun x => 1 <= x <= M /\ dg x = dg a + dg b)).
        + intros q Hq r Hr. destruct (IH _ _ V2 ltac:(lia) q Hq) as [X1 X2]. destruct (C2 _ X1 X2) as (Y1 & Y2 & Y3).
          destruct (IH _ _ Y1 ltac:(lia) r Hr). lia.
        + intros q Hq. revert Hq. apply (fold_fst (fun x => 1 <= x <= M /\ dg x = dg a + dg b)); [|intros ? []].
          intros q' Hq r Hr. destruct (IH _ _ V1 ltac:(lia) q' Hq) as [X1 X2]. destruct (C1 _ X1 X2) as (Y1 & Y2 & Y3).
          destruct (IH _ _ Y1 ltac:(lia) r Hr). lia. }
    intros p Hp. destruct (Z.lt_trichotomy a b) as [|[->|Hgt]]; [apply G; auto| |].
    - cbn [brk] in Hp. rewrite Z.eqb_refl in Hp. destruct Hp.
    - rewrite brk_swap in Hp. unfold neg in Hp. apply in_map_iff in Hp. destruct Hp as (q & <- & Hq). cbn [fst].
      rewrite (Z.add_comm (dg a)). apply (G b a); [unfold valid in *; lia|rewrite mu_sym; auto|lia|auto].
  Qed.

  Lemma fold_ext_in {A B} (f g : B -> A -> B) l : forall m, (forall m x, In x l -> f m x = g m x) -> fold_left f l m = fold_left g l m.
  Proof. induction l as [|x l IH]; intros m E; cbn [fold_left]; [reflexivity|]. rewrite E by (left; auto). apply IH. intros; apply E; right; auto. Qed.
  Lemma brk_fuel f : forall f' a b, valid a b -> mu a b < Z.of_nat f -> mu a b < Z.of_nat f' -> brk f a b = brk f' a b.
  Proof.
    induction f as [|f IH]; intros f' a b V Hf Hf'; [assert (X := min_dg a b V); lia|]. destruct f' as [|f']; [assert (X := min_dg a b V); lia|].
    assert (G : forall a b, valid a b -> mu a b < Z.of_nat (S f) -> mu a b < Z.of_nat (S f') -> a < b -> brk (S f) a b = brk (S f') a b).
    { clear a b V Hf Hf'. intros a b V Hf Hf' Hab. cbn [brk]. replace (a =? b) with false by lia. replace (a >? b) with false by lia.
      destruct (find_key a b) as [k|] eqn:E; [reflexivity|].
      destruct (slow_calls a b V Hab E) as ([V1 M1] & [V2 M2] & C1 & C2 & _).
      rewrite <- (IH f' a (L b)), <- (IH f' a (R b)) by (auto; lia).
      rewrite (fold_ext_in (fun m p => vals_add_all (1 * snd p) (brk f (fst p) (R b)) m) (fun m p => vals_add_all (1 * snd p) (brk f' (fst p) (R b)) m)).
      - apply fold_ext_in. intros m p Hp. destruct (brk_keys f a (R b) V2 ltac:(lia) p Hp) as [X1 X2]. destruct (C2 _ X1 X2) as (Y1 & Y2 & _).
        rewrite (IH f'); auto; lia.
      - intros m p Hp. destruct (brk_keys f a (L b) V1 ltac:(lia) p Hp) as [X1 X2]. destruct (C1 _ X1 X2) as (Y1 & Y2 & _).
        rewrite (IH f'); auto; lia. }
    destruct (Z.lt_trichotomy a b) as [|[->|Hgt]]; [apply G; auto| |].
    - cbn [brk]. rewrite Z.eqb_refl. reflexivity.
    - rewrite (brk_swap (S f) b a), (brk_swap (S f') b a). f_equal. apply G; try (rewrite mu_sym; auto); try lia. unfold valid in *; lia.
  Qed.

  Definition BR (a b : Z) : list (Z * Z) := brk (S (Z.to_nat (mu a b))) a b.
  Lemma BR_brk f a b : valid a b -> mu a b < Z.of_nat f -> brk f a b = BR a b.
  Proof. intros V Hf. apply brk_fuel; auto. lia. Qed.
  Lemma BR_swap a b : BR b a = neg (BR a b).
  Proof. unfold BR. rewrite mu_sym. apply brk_swap. Qed.
  Lemma BR_same a : BR a a = [].
  Proof. unfold BR. cbn [brk]. rewrite Z.eqb_refl. reflexivity. Qed.
  Lemma BR_keys a b : valid a b -> forall p, In p (BR a b) -> 1 <= fst p <= M /\ dg (fst p) = dg a + dg b.
  Proof. intros V. apply brk_keys; auto. lia. Qed.
  Lemma BR_hall i j k : i < j -> find_key i j = Some k -> BR i j = [(k, 1)].
  Proof. intros Hij E. unfold BR. cbn [brk]. replace (i =? j) with false by lia. replace (i >? j) with false by lia. rewrite E. reflexivity. Qed.
  (** one half of the slow case *)
  Definition half (o : list (Z * Z)) (r sign : Z) (m : list (Z * Z)) : list (Z * Z) :=
    fold_left (fun m p => vals_add_all (sign * snd p) (BR (fst p) r) m) o m.
  Lemma BR_slow i j : valid i j -> i < j -> find_key i j = None ->
    BR i j = half (BR i (R j)) (L j) (-1) (half (BR i (L j)) (R j) 1 []).
  Proof.
    intros V Hij E. destruct (slow_calls i j V Hij E) as ([V1 M1] & [V2 M2] & C1 & C2 & _).
    assert (P := min_dg i j V). assert (P1 := min_dg _ _ V1). assert (P2 := min_dg _ _ V2).
    unfold BR at 1. set (f := Z.to_nat (mu i j)). cbn [brk]. replace (i =? j) with false by lia. replace (i >? j) with false by lia. rewrite E.
    rewrite (BR_brk f i (L j)), (BR_brk f i (R j)) by (auto; lia).
    unfold half. change (- (1)) with (-1).
    rewrite (fold_ext_in (fun m p => vals_add_all (1 * snd p) (brk f (fst p) (R j)) m) (fun m p => vals_add_all (1 * snd p) (BR (fst p) (R j)) m)).
    - apply fold_ext_in. intros m p Hp. destruct (BR_keys i (R j) V2 p Hp) as [X1 X2]. destruct (C2 _ X1 X2) as (Y1 & Y2 & _).
      rewrite (BR_brk f); auto; lia.
    - intros m p Hp. destruct (BR_keys i (L j) V1 p Hp) as [X1 X2]. destruct (C1 _ X1 X2) as (Y1 & Y2 & _).
      rewrite (BR_brk f); auto; lia.
  Qed.
  Lemma BR_slow_sign i j sign : sign = 1 \/ sign = -1 -> valid i j -> i < j -> find_key i j = None ->
    half (BR i (R j)) (L j) (- sign) (half (BR i (L j)) (R j) sign []) = if sign =? 1 then BR i j else BR j i.
  Proof.
    intros Hs V Hij E. destruct Hs as [-> | ->]; cbn [Z.eqb Pos.eqb].
    - symmetry. apply BR_slow; auto.
    - rewrite (BR_swap i j), (BR_slow i j V Hij E). unfold half. rewrite !fold_neg. reflexivity.
  Qed.

  (** In the block of any admissible pair there is a key with parents at least as large. *)
  Lemma two_letters i j : 1 <= i -> i < j -> j <= M -> 2 <= w.
  Proof.
    intros Hi Hij Hj. destruct (Z_le_gt_dec 2 w); auto. exfalso.
    assert (G : forall n k, 0 <= n -> k <= n -> 1 <= k <= M -> k <= w).
    { intros n. intros k Hn. revert k. pattern n. apply Z_lt_induction; [|exact Hn]. clear n Hn. intros n IH k Hkn Hk.
      destruct (Z_le_gt_dec k w); auto. destruct (node_dg k Hk ltac:(lia)) as (A1 & A2 & A3 & A4 & A5 & A6).
      assert (X := IH (R k) ltac:(lia) (R k) ltac:(lia) A2). assert (Y := IH (L k) ltac:(lia) (L k) ltac:(lia) A1). lia. }
    assert (X := G j j ltac:(lia) ltac:(lia) ltac:(lia)). lia.
  Qed.
  Lemma level_nonempty d : 2 <= w -> 1 <= d <= N -> exists k, 1 <= k <= M /\ dg k = d /\ 2 <= k /\ L k <= 1.
  Proof.
    intros Hw Hd. assert (HwM : w <= M).
    { assert (X := db_mono _ _ _ _ _ _ H 2 (N + 1) ltac:(lia) ltac:(lia) ltac:(lia)). rewrite (hd_2 _ _ _ _ _ _ H), (hd_top _ _ _ _ _ _ H) in X. lia. }
    assert (D1 : forall l, 1 <= l <= w -> dg l = 1) by (intros l Hl; apply dg_eq; [lia|apply (level_letter _ _ _ _ _ _ H); auto]).
    assert (Hd' : 1 <= d) by lia. revert Hd. pattern d. apply Zlt_lower_bound_ind with (z := 1); [|exact Hd']. clear d Hd'. intros d IH H1 Hd.
    destruct (Z.eq_dec d 1) as [->|].
    - exists 2. rewrite D1 by lia. destruct (hd_let _ _ _ _ _ _ H 2 ltac:(lia)). lia.
    - destruct (IH (d - 1) ltac:(lia) ltac:(lia)) as (k & K1 & K2 & K3 & K4). destruct (dg_level k K1) as [E1 E2]. rewrite K2 in *.
      assert (D11 := D1 1 ltac:(lia)). destruct (dg_level 1 ltac:(lia)) as [F1 F2]. rewrite D11 in *.
      destruct (hd_all _ _ _ _ _ _ H 1 (d - 1) 1 k ltac:(lia) ltac:(lia) ltac:(lia) F2 E2 ltac:(lia) K4) as (k' & G1 & G2 & G3).
      replace (1 + (d - 1)) with d in * by lia. assert (Hk' := lpos _ _ _ _ _ _ H _ _ G1 ltac:(lia)).
      exists k'. split; auto. split; [apply dg_eq; auto|]. split; [|lia].
      assert (X := db_mono _ _ _ _ _ _ H 2 d ltac:(lia) ltac:(lia) ltac:(lia)). rewrite (hd_2 _ _ _ _ _ _ H) in X. lia.
  Qed.
  Lemma not_last i j : valid i j -> i < j -> exists k, 1 <= k <= M /\ dg k = dg i + dg j /\ ((L k, R k) = (i, j) \/ lex (i, j) (L k, R k)).
  Proof.
    intros V Hij. assert (Hw : 2 <= w) by (destruct V as (? & ? & ?); apply (two_letters i j); lia).
    assert (G : forall n, 0 <= n -> forall i j, M - i <= n -> valid i j -> i < j -> exists k, 1 <= k <= M /\ dg k = dg i + dg j /\ ((L k, R k) = (i, j) \/ lex (i, j) (L k, R k))).
    { clear i j V Hij. intros n Hn. pattern n. apply Z_lt_induction; [|exact Hn]. clear n Hn. intros n IH i j Hin V Hij.
      destruct (find_key i j) as [k|] eqn:E.
      - destruct V as (Hi & Hj & Hd). apply find_key_some in E; [|lia]. exists k. destruct E as (E1 & E2 & E3 & E4). rewrite E2, E3. auto.
      - destruct (slow_calls i j V Hij E) as ((V1 & _) & (V2 & _) & C1 & C2 & (B1 & B2 & B3 & B4)). destruct V as (Hi & Hj & Hd).
        assert (D0 := proj1 (dg_level i Hi)). assert (D1 := proj1 (dg_level (R j) ltac:(lia))). assert (D2 := proj1 (dg_level (L j) ltac:(lia))).
        destruct (level_nonempty (dg i + dg (R j)) Hw) as (f & F1 & F2 & _); [destruct V2 as (_ & _ & X); lia|].
        destruct (C2 f F1 F2) as ((X1 & X2 & X3) & Y2 & Y3).
        assert (Hif : i < f) by (apply dg_mono; auto; lia).
        assert (Hcd : dg (L j) <= dg (R j)) by (apply dg_le; lia).
        assert (Hlf : L j < f) by (apply dg_mono; auto; lia).
        destruct (IH (n - 1) ltac:(lia) (L j) f) as (k & K1 & K2 & K3); [lia|unfold valid; lia|auto|].
        exists k. split; auto. split; [lia|]. right. destruct K3 as [K3|K3].
        + rewrite K3. left. cbn. lia.
        + unfold lex in *. cbn [fst snd] in *. lia. }
    apply (G (M - i)); auto; [|lia]. destruct V as (? & ? & ?). lia.
  Qed.
End Bracket.
