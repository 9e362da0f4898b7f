(** How brackets are laid out in arrays, and read back. *)
From Coq Require Import ZifyBool.
From Verif Require Export LkModel LkSpec.
Open Scope Z_scope.

Fixpoint layout (t : tree) : list node := match t with L a => [Let a] | B l r => join (layout l) (layout r) end.
Definition body (t : tree) : list node := match t with L _ => [] | B _ _ => layout t end.
Lemma layout_pair l r : exists x y d, layout (B l r) = x :: y :: d.
Proof. cbn [layout]. unfold join. eauto. Qed.
Lemma layout_join l r : layout (B l r) = (match l with L a => Let a | B _ _ => Off 2 end) :: (match r with L a => Let a | B _ _ => Off (1 + length (body l)) end) :: body l ++ body r.
Proof.
  cbn [layout]. unfold join, body. destruct l as [a|l1 l2], r as [b|r1 r2]; reflexivity.
Qed.

(** A bracket whose pair is at position [p] *)
Fixpoint pair_at (data : list node) (p : nat) (t : tree) : Prop :=
  match t with
  | L _ => True
  | B l r =>
      match l with L a => nth_error data p = Some (Let a) | B _ _ => nth_error data p = Some (Off 2) /\ pair_at data (p + 2) l end /\
      match r with L a => nth_error data (p + 1) = Some (Let a) | B _ _ => exists o, nth_error data (p + 1) = Some (Off o) /\ pair_at data (p + 1 + o) r end
  end.
Lemma nth_mid {A} (pre : list A) x suf p : p = length pre -> nth_error (pre ++ x :: suf) p = Some x.
Proof. intros ->. rewrite nth_error_app2 by lia. now rewrite Nat.sub_diag. Qed.
Lemma layout_at : forall t pre suf, match t with L _ => True | B _ _ => pair_at (pre ++ layout t ++ suf) (length pre) t end.
Proof.
  induction t as [a|l IHl r IHr]; intros pre suf; [exact I|]. rewrite layout_join. set (x := match l with L a => Let a | B _ _ => Off 2 end). set (y := match r with L a => Let a | B _ _ => Off (1 + length (body l)) end).
  assert (E : pre ++ (x :: y :: body l ++ body r) ++ suf = (pre ++ [x; y]) ++ body l ++ (body r ++ suf)) by (cbn [app]; rewrite <- !app_assoc; cbn [app]; rewrite <- ?app_assoc; reflexivity).
  assert (E' : pre ++ (x :: y :: body l ++ body r) ++ suf = (pre ++ [x; y] ++ body l) ++ body r ++ suf) by (cbn [app]; rewrite <- !app_assoc; cbn [app]; rewrite <- ?app_assoc; reflexivity).
  assert (N0 : nth_error (pre ++ (x :: y :: body l ++ body r) ++ suf) (length pre) = Some x) by (now apply nth_mid).
  assert (N1 : nth_error (pre ++ (x :: y :: body l ++ body r) ++ suf) (length pre + 1) = Some y).
  { rewrite nth_error_app2 by lia. replace (length pre + 1 - length pre)%nat with 1%nat by lia. reflexivity. }
  cbn [pair_at]. split.
  - destruct l as [a|l1 l2]; [exact N0|]. split; [exact N0|]. specialize (IHl (pre ++ [x; y]) (body r ++ suf)). change (layout (B l1 l2)) with (body (B l1 l2)) in IHl. rewrite E. rewrite app_length in IHl. exact IHl.
  - destruct r as [b|r1 r2]; [exact N1|]. exists (1 + length (body l))%nat. split; [exact N1|]. specialize (IHr (pre ++ [x; y] ++ body l) suf). change (layout (B r1 r2)) with (body (B r1 r2)) in IHr. rewrite E'. replace (length pre + 1 + (1 + length (body l)))%nat with (length (pre ++ [x; y] ++ body l)) by (rewrite !app_length; cbn; lia). exact IHr.
Qed.

Fixpoint height (t : tree) : nat := match t with L _ => O | B l r => S (Nat.max (height l) (height r)) end.
Lemma height_layout t : (height t <= length (layout t))%nat.
Proof. induction t as [a|l IHl r IHr]; [cbn; lia|]. rewrite layout_join. cbn [height length]. rewrite app_length. destruct l, r; cbn [body] in *; cbn [height] in *; lia. Qed.

Lemma walk_spec data : forall t fuel p, pair_at data p t -> (height t <= S fuel)%nat -> match t with L _ => True | B l r => walk_single fuel data p = Ok (show l) /\ walk_single fuel data (p + 1) = Ok (show r) end.
Proof.
  induction t as [a|l IHl r IHr]; intros fuel p; [now intros|]. cbn [pair_at height]. intros [Hl Hr] Hf. split.
  - destruct l as [a|l1 l2].
    + destruct fuel; cbn [walk_single]; unfold at_; rewrite Hl; reflexivity.
    + destruct Hl as [E Hl]. destruct fuel as [|fuel]; [cbn [height] in Hf; lia|]. cbn [walk_single]. unfold at_ at 1. rewrite E. cbn [bind].
      destruct (IHl fuel (p + 2)%nat Hl ltac:(lia)) as [-> H2]. cbn [bind]. rewrite H2. reflexivity.
  - destruct r as [a|r1 r2].
    + destruct fuel; cbn [walk_single]; unfold at_; rewrite Hr; reflexivity.
    + destruct Hr as (o & E & Hr). destruct fuel as [|fuel]; [cbn [height] in Hf; lia|]. cbn [walk_single]. unfold at_ at 1. rewrite E. cbn [bind].
      destruct (IHr fuel (p + 1 + o)%nat Hr ltac:(lia)) as [-> H2]. cbn [bind]. rewrite H2. reflexivity.
Qed.
Lemma layout_top l r : pair_at (layout (B l r)) 0 (B l r).
Proof. pose proof (layout_at (B l r) [] []) as H. cbv beta iota in H. rewrite app_nil_r in H. exact H. Qed.
Lemma stands_layout t : stands (layout t) t.
Proof.
  unfold stands. destruct t as [a|l r]; [reflexivity|].
  assert (E : to_string (layout (B l r)) = walk_pair (layout (B l r))) by (rewrite layout_join; cbn [to_string]; destruct l, r; reflexivity). rewrite E. unfold walk_pair.
  pose proof (height_layout (B l r)) as Hh. destruct (walk_spec _ (B l r) (length (layout (B l r))) 0 (layout_top l r) ltac:(lia)) as [E1 E2]. cbn [Nat.add] in E2. rewrite E1. cbn [bind]. rewrite E2. reflexivity.
Qed.

(** A string is that of at most one bracket. *)
Lemma show_prefix : forall t t' s s', show t ++ s = show t' ++ s' -> t = t' /\ s = s'.
Proof.
  induction t as [a|l IHl r IHr]; intros [b|l' r'] s s' H; cbn [show app] in H; try discriminate.
  - split; congruence.
  - injection H as H. rewrite <- !app_assoc in H. destruct (IHl _ _ _ H) as [-> H1]. cbn [app] in H1. injection H1 as H1. rewrite <- !app_assoc in H1. destruct (IHr _ _ _ H1) as [-> H2]. cbn [app] in H2. split; congruence.
Qed.
Lemma show_unique t t' : show t = show t' -> t = t'.
Proof. intros H. apply (show_prefix t t' [] []). now rewrite !app_nil_r. Qed.
Lemma stands_unique d t t' : stands d t -> stands d t' -> t = t'.
Proof. unfold stands. intros H H'. apply show_unique. congruence. Qed.

(** Lists of Python *)
Lemma parse_ok : forall o d, parse_single o = Ok d -> exists t, means o t /\ d = layout t.
Proof.
  fix IH 1. intros [z|l|] d H; cbn [parse_single] in H; [| |discriminate].
  - unfold cast_let in H. destruct ((0 <=? z) && (z <? 2 ^ 16)) eqn:E; [|discriminate]. cbn [bind] in H. exists (L z). split; [constructor; lia|]. cbn [layout]. congruence.
  - destruct l as [|x [|y [|]]]; try discriminate. destruct (parse_single x) as [dx| | |] eqn:Ex; try discriminate. destruct (parse_single y) as [dy| | |] eqn:Ey; try discriminate. cbn [bind] in H.
    destruct (IH x dx Ex) as (tx & Mx & ->). destruct (IH y dy Ey) as (ty & My & ->). exists (B tx ty). split; [now constructor|]. cbn [layout]. congruence.
Qed.
Lemma parse_means o t : means o t -> parse_single o = Ok (layout t).
Proof.
  induction 1 as [z Hz|x y l r Hx IHx Hy IHy]; cbn [parse_single].
  - unfold cast_let. assert ((0 <=? z) && (z <? 2 ^ 16) = true) as -> by lia. reflexivity.
  - rewrite IHx. cbn [bind]. rewrite IHy. reflexivity.
Qed.
Lemma parse_or : forall o, (exists d, parse_single o = Ok d) \/ parse_single o = Throw.
Proof.
  fix IH 1. intros [z|l|]; cbn [parse_single]; [| |auto].
  - unfold cast_let. destruct ((0 <=? z) && (z <? 2 ^ 16)); cbn; eauto.
  - destruct l as [|x [|y [|]]]; auto. destruct (IH x) as [[dx ->]| ->]; [|auto]. destruct (IH y) as [[dy ->]| ->]; [|auto]. cbn. eauto.
Qed.

Lemma make_ok K x args d : make_lie_key (Some K) (x :: args) = Ok d <-> exists t, means x t /\ d = layout t /\ forall a, t = L a -> a <= b_width K.
Proof.
  cbn [make_lie_key]. split.
  - destruct x as [z|l|]; [| |discriminate].
    + unfold cast_let. destruct ((0 <=? z) && (z <? 2 ^ 16)) eqn:E; [|discriminate]. cbn [bind]. destruct (Z.ltb_spec (b_width K) z) as [|Hz]; [discriminate|]. intros H. exists (L z). split; [constructor; lia|]. split; [cbn; congruence|]. intros a Ea. injection Ea as <-. assumption.
    + intros H. assert (H' : parse_single (OList l) = Ok d) by (destruct l as [|x [|y [|]]]; exact H). destruct (parse_ok _ _ H') as (t & M & E). exists t. split; [assumption|]. split; [assumption|]. intros a ->. inversion M.
  - intros (t & M & -> & Ht). destruct M as [z Hz|x y l r Hx Hy].
    + unfold cast_let. assert ((0 <=? z) && (z <? 2 ^ 16) = true) as -> by lia. cbn [bind]. specialize (Ht z eq_refl). destruct (Z.ltb_spec (b_width K) z); [lia|reflexivity].
    + cbn [helper]. rewrite (parse_means _ _ Hx). cbn [bind]. rewrite (parse_means _ _ Hy). reflexivity.
Qed.
Lemma make_spec K x args t : (exists d, make_lie_key (Some K) (x :: args) = Ok d /\ stands d t) <-> means x t /\ forall a, t = L a -> a <= b_width K.
Proof.
  split.
  - intros (d & H & S). apply make_ok in H as (t' & M & -> & Ht). assert (t' = t) as -> by (apply (stands_unique (layout t')); [apply stands_layout|assumption]). auto.
  - intros [M Ht]. exists (layout t). split; [|apply stands_layout]. apply make_ok. eauto.
Qed.
Lemma make_or K args : (exists d t, make_lie_key K args = Ok d /\ stands d t) \/ make_lie_key K args = Throw.
Proof.
  destruct args as [|x args]; [auto|]. destruct K as [K|]; [|auto]. destruct (make_lie_key (Some K) (x :: args)) as [d| | |] eqn:E; [| auto| |].
  - left. apply make_ok in E as (t & _ & -> & _). exists (layout t), t. split; [reflexivity|apply stands_layout].
  - exfalso. revert E. cbn [make_lie_key]. destruct x as [z|l|]; try discriminate.
    + unfold cast_let. destruct ((0 <=? z) && (z <? 2 ^ 16)); [|discriminate]. cbn [bind]. destruct (_ <? _); discriminate.
    + destruct (parse_or (OList l)) as [[d H]|H]; intros E; assert (H' : parse_single (OList l) = UB) by (destruct l as [|x [|y [|]]]; exact E || discriminate E); congruence.
  - exfalso. revert E. cbn [make_lie_key]. destruct x as [z|l|]; try discriminate.
    + unfold cast_let. destruct ((0 <=? z) && (z <? 2 ^ 16)); [|discriminate]. cbn [bind]. destruct (_ <? _); discriminate.
    + destruct (parse_or (OList l)) as [[d H]|H]; intros E; assert (H' : parse_single (OList l) = NoFuel) by (destruct l as [|x [|y [|]]]; exact E || discriminate E); congruence.
Qed.

(** Keys of a basis *)
Section Basis.
  Context (K : basis) (HK : right_basis K).
  Lemma has_key k : has K k = true <-> 1 <= k <= dimension K.
  Proof using Type. unfold has. lia. Qed.
  Lemma bracket_has k t : bracket K k t -> has K k = true.
  Proof using HK.
    destruct HK as (Hw & _ & Hp). rewrite has_key. unfold dimension. intros [k' H|n x y l r E _ _]; [lia|]. assert (n < length (b_pairs K))%nat by (apply nth_error_Some; congruence). lia.
  Qed.
  Lemma bracket_exists : forall n k, (Z.to_nat k <= n)%nat -> 1 <= k <= dimension K -> exists t, bracket K k t.
  Proof using HK.
    destruct HK as (Hw & _ & Hp). induction n as [|n IH]; intros k Hn Hk; [lia|]. destruct (Z.le_gt_cases k (b_width K)) as [H|H]; [exists (L k); constructor; lia|].
    unfold dimension in *. destruct (nth_error (b_pairs K) (Z.to_nat (k - b_width K - 1))) as [[x y]|] eqn:E.
    - pose proof (Hp _ _ _ E) as [Hx Hy]. destruct (IH x ltac:(lia) ltac:(lia)) as [l Hl]. destruct (IH y ltac:(lia) ltac:(lia)) as [r Hr]. exists (B l r).
      replace k with (b_width K + 1 + Z.of_nat (Z.to_nat (k - b_width K - 1))) by lia. now apply (B_pair K _ x y).
    - apply nth_error_None in E. lia.
  Qed.
  Lemma bracket_letter k t : bracket K k t -> (k <=? b_width K) = match t with L _ => true | B _ _ => false end.
  Proof using HK. intros [k' H|n x y l r E _ _]; lia. Qed.
  Lemma parse_key_spec : forall fuel k t, bracket K k t -> (Z.to_nat k < fuel)%nat -> parse_key fuel K k = Ok (layout t).
  Proof using HK.
    pose proof HK as (Hw & _ & Hp). induction fuel as [|fuel IH]; intros k t H Hf; [lia|]. cbn [parse_key]. unfold letter at 1. rewrite (bracket_has _ _ H), (bracket_letter _ _ H). cbn [bind]. unfold to_letter. destruct H as [k H|n x y l r E Hl Hr].
    - assert (has K k = true) as -> by (apply has_key; unfold dimension; lia). reflexivity.
    - set (k := b_width K + 1 + Z.of_nat n) in *. assert (Hk : has K k = true) by (apply (bracket_has k (B l r)); now apply (B_pair K n x y)).
      unfold parents. replace (Z.to_nat (k - b_width K - 1)) with n by lia. rewrite E, Hk. cbn [bind fst snd]. unfold letter. rewrite (bracket_has _ _ Hl), (bracket_letter _ _ Hl), (bracket_has _ _ Hr), (bracket_letter _ _ Hr). cbn [bind].
      pose proof (Hp _ _ _ E) as [Hx Hy]. rewrite layout_join. destruct l as [a|l1 l2], r as [b|r1 r2]; cbn [andb body app length].
      + cbn [bind]. inversion Hl; inversion Hr; subst. reflexivity.
      + rewrite (IH y _ Hr) by lia. cbn [bind]. inversion Hl; subst. reflexivity.
      + rewrite (IH x _ Hl) by lia. cbn [bind]. inversion Hr; subst. now rewrite app_nil_r.
      + rewrite (IH y _ Hr) by lia. cbn [bind]. rewrite (IH x _ Hl) by lia. reflexivity.
  Qed.
  Lemma key_spec k : 1 <= k <= dimension K -> exists d t, key_of_basis K k = Ok d /\ bracket K k t /\ stands d t.
  Proof using HK.
    intros Hk. destruct (bracket_exists _ k (le_n _) Hk) as [t H]. exists (layout t), t. split; [|split; [assumption|apply stands_layout]]. apply parse_key_spec; [assumption|lia].
  Qed.
  Lemma bracket_unique : forall t k k', bracket K k t -> bracket K k' t -> k = k'.
  Proof using HK.
    destruct HK as (Hw & ND & Hp). induction t as [a|l IHl r IHr]; intros k k' H H'; inversion H; inversion H'; subst; [reflexivity|].
    assert (x = x0) as <- by eauto. assert (y = y0) as <- by eauto. assert (n = n0) as ->; [|reflexivity].
    apply (proj1 (NoDup_nth_error (b_pairs K)) ND); [apply nth_error_Some; congruence|congruence].
  Qed.
  Lemma bracket_tree : forall n k t t', (Z.to_nat k <= n)%nat -> bracket K k t -> bracket K k t' -> t = t'.
  Proof using HK.
    destruct HK as (Hw & ND & Hp). induction n as [|n IH]; intros k t t' Hn H H'.
    - pose proof (proj1 (has_key k) (bracket_has _ _ H)). lia.
    - destruct H as [k H|m x y l r E Hl Hr]; inversion H'; subst; try lia; [reflexivity|]. assert (n0 = m) as -> by lia. assert (x0 = x /\ y0 = y) as [-> ->] by (split; congruence).
      pose proof (Hp _ _ _ E) as [Hx Hy]. f_equal; [apply (IH x)|apply (IH y)]; auto; lia.
  Qed.

  (** lie[key] *)
  Lemma position_spec x y : forall l n, position l x y = Some n -> nth_error l n = Some (x, y).
  Proof using Type.
    induction l as [|[a b] l IH]; intros n H; [discriminate|]. cbn [position] in H. destruct ((a =? x) && (b =? y)) eqn:E.
    - injection H as <-. cbn. repeat f_equal; lia.
    - destruct (position l x y) as [m|]; [|discriminate]. injection H as <-. cbn. auto.
  Qed.
  Lemma child_spec x y k : child K x y = Some k -> 1 <= k <= b_width K \/ exists n, k = b_width K + 1 + Z.of_nat n /\ nth_error (b_pairs K) n = Some (x, y).
  Proof using HK.
    destruct HK as (Hw & ND & Hp). unfold child. destruct ((own K x =? 0) && (1 <=? own K y) && (own K y <=? b_width K)) eqn:E.
    - intros H. left. assert (k = own K y) by congruence. lia.
    - destruct (position (b_pairs K) (own K x) (own K y)) as [n|] eqn:EP; [|discriminate]. intros H. right. exists n. split; [congruence|]. apply position_spec in EP. pose proof (Hp _ _ _ EP) as [Hx Hy]. unfold own in *. destruct (has K x), (has K y); try lia. exact EP.
  Qed.
  Lemma internal_wrong data : forall t fuel p k, pair_at data p t -> to_internal fuel K data p = Ok (Some k) -> match t with L _ => True | B _ _ => ~ bracket K k t end.
  Proof using HK.
    destruct HK as (Hw & ND & Hp). induction t as [a|l IHl r IHr]; intros fuel p k HP H; [exact I|]. cbn [pair_at] in HP. destruct HP as [Hl Hr]. intros Hb. destruct l as [a|l1 l2].
    - assert (a = k) as -> by (destruct fuel; cbn [to_internal] in H; unfold at_ in H; rewrite Hl in H; cbn [bind] in H; congruence).
      inversion Hb as [|n x y l' r' E Hx Hy Ek]; subst. inversion Hx. lia.
    - destruct Hl as [E Hl]. destruct fuel as [|fuel]; cbn [to_internal] in H; unfold at_ in H; rewrite E in H; cbn [bind] in H; [discriminate|].
      destruct (to_internal fuel K data (p + 2)) as [[lv|]| | |] eqn:El; cbn [bind] in H; try discriminate.
      + destruct (to_internal fuel K data (p + 1)) as [[rv|]| | |]; cbn [bind] in H; try discriminate.
        assert (H' : child K lv rv = Some k) by congruence. apply child_spec in H' as [H'|(n & -> & En)]; [inversion Hb; lia|]. inversion Hb as [|n' x y l' r' E' Hx Hy Ek]; subst. assert (n' = n) as -> by lia. assert (x = lv) as -> by congruence.
        exact (IHl fuel (p + 2)%nat lv Hl El Hx).
      + destruct (to_internal fuel K data (p + 1)) as [[rv|]| | |]; cbn [bind] in H; discriminate.
  Qed.
  Lemma index_wrong k t d : bracket K k t -> b_width K < k -> key_of_basis K k = Ok d -> index_of K d <> Ok k.
  Proof using HK.
    pose proof HK as (Hw & ND & Hp). intros H Hk E. assert (d = layout t) as ->. { unfold key_of_basis in E. rewrite (parse_key_spec _ _ _ H) in E by lia. congruence. }
    destruct t as [a|l r]; [inversion H; subst; lia|]. intros HI. assert (HI' : (let! c := to_internal (length (layout (B l r))) K (layout (B l r)) 0 in match c with Some k => Ok k | None => Ok 0 end) = Ok k).
    { revert HI. rewrite layout_join. destruct l, r; exact (fun h => h). }
    destruct (to_internal _ K _ 0) as [[k'|]| | |] eqn:ET in HI'; cbn [bind] in HI'; try discriminate.
    - assert (k' = k) as -> by congruence. exact (internal_wrong _ (B l r) _ _ _ (layout_top l r) ET H).
    - assert (k = 0) as -> by congruence. lia.
  Qed.
  Lemma index_letter k d : 1 <= k <= b_width K -> key_of_basis K k = Ok d -> index_of K d = Ok k.
  Proof using HK. intros Hk E. unfold key_of_basis in E. rewrite (parse_key_spec _ k (L k)) in E by (constructor || lia; lia). assert (d = [Let k]) as -> by (cbn [layout] in E; congruence). reflexivity. Qed.
End Basis.
Lemma index_first K x args a r d : means x (B (L a) r) -> make_lie_key (Some K) (x :: args) = Ok d -> index_of K d = Ok a.
Proof.
  intros M E. apply make_ok in E as (t & M' & -> & _). assert (t = B (L a) r) as ->.
  { assert (parse_single x = Ok (layout t)) by now apply parse_means. assert (parse_single x = Ok (layout (B (L a) r))) by now apply parse_means. apply (stands_unique (layout t)); [apply stands_layout|]. replace (layout t) with (layout (B (L a) r)) by congruence. apply stands_layout. }
  rewrite layout_join. destruct r; reflexivity.
Qed.

(** Iterating *)
Lemma collect_spec K (HK : right_basis K) : forall n fuel i, it_basis i = K -> 1 <= it_cur i -> it_end i <= dimension K -> Z.of_nat n = Z.max 0 (it_end i + 1 - it_cur i) -> (n < fuel)%nat ->
  exists ds, collect fuel i = Ok ds /\ length ds = n /\ forall j d, nth_error ds j = Some d -> key_of_basis K (it_cur i + Z.of_nat j) = Ok d.
Proof.
  induction n as [|n IH]; intros [|fuel] i EK Hc He En Hf; try lia; cbn [collect]; unfold next.
  - destruct (Z.ltb_spec (it_end i) (it_cur i)); [|lia]. cbn [bind]. exists []. split; [reflexivity|]. split; [reflexivity|]. intros [|j] d H'; discriminate.
  - destruct (Z.ltb_spec (it_end i) (it_cur i)); [lia|]. rewrite EK. destruct (key_spec K HK (it_cur i) ltac:(lia)) as (d & t & E & _ & _). rewrite E. cbn [bind].
    destruct (IH fuel (mkIter (it_cur i + 1) (it_end i) K) eq_refl ltac:(cbn; lia) He ltac:(cbn [it_end it_cur]; lia) ltac:(lia)) as (ds & -> & Ls & Hs). cbn [bind].
    exists (d :: ds). split; [reflexivity|]. split; [cbn; congruence|]. intros [|j] d' H'; cbn [nth_error] in H'.
    + rewrite Z.add_0_r. congruence.
    + specialize (Hs j d' H'). cbn [it_cur] in Hs. rewrite <- Hs. f_equal. lia.
Qed.
Lemma iterate_spec K a e fuel : right_basis K -> 1 <= a -> (Z.to_nat (Z.min e (dimension K) + 1 - a) < fuel)%nat ->
  exists ds, collect fuel (make_iter K a e) = Ok ds /\ Z.of_nat (length ds) = Z.max 0 (Z.min e (dimension K) + 1 - a) /\
  forall j d, nth_error ds j = Some d -> exists t, stands d t /\ bracket K (a + Z.of_nat j) t.
Proof.
  intros HK Ha Hf. assert (EE : it_end (make_iter K a e) = Z.min e (dimension K)) by (unfold make_iter; cbn [it_end]; destruct (Z.ltb_spec (dimension K) e); lia).
  destruct (collect_spec K HK (Z.to_nat (Z.min e (dimension K) + 1 - a)) fuel (make_iter K a e) eq_refl ltac:(cbn; lia) ltac:(lia) ltac:(rewrite EE; cbn [make_iter it_cur]; lia) Hf) as (ds & E & Ls & Hs).
  exists ds. split; [assumption|]. split; [lia|]. intros j d H. assert (j < length ds)%nat by (apply nth_error_Some; congruence). specialize (Hs j d H). cbn [make_iter it_cur] in Hs.
  destruct (key_spec K HK (a + Z.of_nat j) ltac:(lia)) as (d' & t & E' & Hb & S). exists t. split; [|assumption]. replace d with d' by congruence. assumption.
Qed.
