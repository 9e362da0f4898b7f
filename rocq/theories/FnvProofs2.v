(** Equality of basis objects means equality of kind, width and depth. *)
From Coq Require Import ZifyBool Lia.
From Verif Require Import FnvSpec HallTab HallProofs HallLemmas FnvProofs.
Open Scope Z_scope.

Lemma for_zseq_post {T} (P : Z -> T -> Prop) f : forall n a (s s' : T), P a s ->
  (forall x t t', a <= x < a + Z.of_nat n -> P x t -> f x t = Ok t' -> P (x + 1) t') ->
  for_ (zseq a n) s f = Ok s' -> P (a + Z.of_nat n) s'.
Proof.
  induction n as [|n IH]; intros a s s' H0 HS E.
  - cbn in E. injection E as <-. replace (a + Z.of_nat 0) with a by lia. exact H0.
  - cbn [zseq for_] in E. destruct (f a s) as [t| | |] eqn:E1; try discriminate. cbn [bind] in E.
    replace (a + Z.of_nat (S n)) with (a + 1 + Z.of_nat n) by lia. apply (IH (a + 1) t); auto.
    + apply (HS a s); auto. lia.
    + intros x u u' Hx. apply HS. lia.
Qed.

(** Number of words shorter than [i] over [w] letters, as the recursion computes it. *)
Fixpoint geo (w : Z) (i : nat) : Z := match i with O => 0 | S i => 1 + geo w i * w end.
Lemma db_ok junk w d db : construct_tensor_db junk w d = Ok db ->
  1 <= d + 2 <= INT_MAX /\ blen db = d + 2 /\ forall i, 0 <= i < d + 2 -> bget db i = Ok (geo w (Z.to_nat i)).
Proof.
  unfold construct_tensor_db. destruct (i32 (d + 2)) as [n| | |] eqn:En; try discriminate. apply i32_inv in En as [En1 En2]. subst n. cbn [bind].
  destruct (d + 2 <? 0) eqn:E0; [discriminate|]. destruct (bset (mkbuf (d + 2) junk) 0 0) as [b0| | |] eqn:E1; try discriminate. cbn [bind].
  assert (Hn : 1 <= d + 2). { unfold bset in E1. cbn [blen] in E1. destruct ((0 <=? 0) && (0 <? d + 2)) eqn:X; [|discriminate]. lia. }
  assert (B0 : blen b0 = d + 2 /\ bat b0 0 = 0).
  { unfold bset in E1. cbn [blen] in E1. replace ((0 <=? 0) && (0 <? d + 2)) with true in E1 by lia. injection E1 as <-. cbn. auto. }
  intros E. apply (for_zseq_post (fun k b => blen b = d + 2 /\ forall i, 0 <= i < k -> bat b i = geo w (Z.to_nat i))) in E.
  - destruct E as [L G]. split; [unfold in_i32 in *; lia|]. split; auto. intros i Hi. unfold bget. replace ((0 <=? i) && (i <? blen db)) with true by lia. f_equal. apply G. lia.
  - split; [apply B0|]. intros i Hi. replace i with 0 by lia. apply B0.
  - intros x t t' Hx [L G] F. unfold bget in F. replace ((0 <=? x - 1) && (x - 1 <? blen t)) with true in F by lia. cbn [bind] in F.
    destruct (i64 (bat t (x - 1) * w)) as [m| | |] eqn:M; try discriminate. cbn [bind] in F. destruct (i64 (1 + m)) as [v| | |] eqn:V; try discriminate. cbn [bind] in F.
    unfold bset in F. replace ((0 <=? x) && (x <? blen t)) with true in F by lia. injection F as <-. cbn [blen bat]. split; auto. intros i Hi.
    destruct (i =? x) eqn:Ei; [|apply G; lia]. replace i with x by lia. unfold i64 in M, V. destruct ((I64_MIN <=? bat t (x - 1) * w) && (bat t (x - 1) * w <=? I64_MAX)); [|discriminate]. injection M as <-.
    destruct ((I64_MIN <=? 1 + bat t (x - 1) * w) && (1 + bat t (x - 1) * w <=? I64_MAX)); [|discriminate]. injection V as <-. rewrite G by lia. replace (Z.to_nat x) with (S (Z.to_nat (x - 1))) by lia. reflexivity.
Qed.
Definition has_shape (s : bool * Z * Z) (o : pyobj) : Prop :=
  match o with
  | TB w d db _ => s = (true, w, d) /\ 1 <= d + 2 <= INT_MAX /\ forall i, 0 <= i < d + 2 -> bget db i = Ok (geo w (Z.to_nat i))
  | LB B _ => exists w N, s = (false, w, N) /\ standard B w N
  end.
Lemma shape_clear s o o' : clear o = clear o' -> has_shape s o -> has_shape s o'.
Proof. destruct o, o'; cbn; intros E; try discriminate; injection E; intros; subst; auto. Qed.
Lemma same_db_ok l r ds : (forall d, In d ds -> exists v, bget l d = Ok v /\ bget r d = Ok v) -> same_db l r ds = Ok true.
Proof.
  induction ds as [|d ds IH]; cbn [same_db]; intros H; [reflexivity|]. destruct (H d (or_introl eq_refl)) as (v & E1 & E2). rewrite E1, E2. cbn [bind]. rewrite Z.eqb_refl. apply IH. intros; apply H; right; auto.
Qed.
Lemma std_same B B' w N : standard B w N -> standard B' w N ->
  lb_width B = w /\ lb_depth B = N /\ lb_width B' = w /\ lb_depth B' = N /\
  (forall d, 0 <= d < N + 2 -> exists v, bget (lb_db B) d = Ok v /\ bget (lb_db B') d = Ok v) /\
  exists ts, lb_true_size B = Ok ts /\ lb_true_size B' = Ok ts /\ forall i, 0 <= i < 2 * ts -> bget (lb_data B) i = bget (lb_data B') i.
Proof.
  intros S1 S2. assert (HN : 1 <= N < 46339 * 46339) by (destruct S1 as [(_ & X & _) _]; exact X). destruct (standard_ok _ _ _ S1) as (M & H1 & _). destruct (standard_ok _ _ _ S2) as (M' & H2 & _).
  assert (EM : M' = M) by (assert (X := bo_M _ _ _ _ H1); assert (Y := bo_M _ _ _ _ H2); lia). subst M'.
  split; [apply (bo_w _ _ _ _ H1)|]. split; [apply (bo_N _ _ _ _ H1)|]. split; [apply (bo_w _ _ _ _ H2)|]. split; [apply (bo_N _ _ _ _ H2)|].
  assert (D : forall d, 0 <= d < N + 2 -> exists v, bget (lb_db B) d = Ok v /\ bget (lb_db B') d = Ok v).
  { intros d Hd. exists (dbat (snd (tab w (Z.to_nat (N - 1)))) d). unfold bget. rewrite (bo_db _ _ _ _ H1), (bo_db _ _ _ _ H2). replace ((0 <=? d) && (d <? N + 2)) with true by lia.
    rewrite (bo_dbs _ _ _ _ H1), (bo_dbs _ _ _ _ H2) by lia. auto. }
  split; [exact D|]. exists (M + 1). unfold lb_true_size. rewrite (bo_N _ _ _ _ H1), (bo_N _ _ _ _ H2).
  assert (T1 : forall B0, basis_ok B0 w N M -> bget (lb_db B0) (N + 1) = Ok (M + 1)).
  { intros B0 H0. unfold bget. rewrite (bo_db _ _ _ _ H0). replace ((0 <=? N + 1) && (N + 1 <? N + 2)) with true by lia. f_equal. apply (hd_top _ _ _ _ _ _ (bo_hall _ _ _ _ H0)). }
  split; [apply T1, H1|]. split; [apply T1, H2|]. intros i Hi. unfold bget. rewrite (bo_data _ _ _ _ H1), (bo_data _ _ _ _ H2). replace ((0 <=? i) && (i <? 2 * (M + 1))) with true by lia. f_equal.
  assert (R1 := bo_rows _ _ _ _ H1 (i / 2)). assert (R2 := bo_rows _ _ _ _ H2 (i / 2)). assert (Q := Z.div_mod i 2 ltac:(lia)). assert (Q2 := Z.mod_pos_bound i 2 ltac:(lia)).
  destruct R1 as [A1 A2]; [lia|]. destruct R2 as [C1 C2]; [lia|]. destruct (Z.eq_dec (i mod 2) 0) as [E|E].
  - replace i with (2 * (i / 2)) by lia. congruence.
  - replace i with (2 * (i / 2) + 1) by lia. congruence.
Qed.
Lemma eq_shape s s' o o' r : has_shape s o -> has_shape s' o' -> eq_of o o' r -> r = true <-> s = s'.
Proof.
  intros H H' (x & y & E). destruct o as [w d db c|B c], o' as [w' d' db' c'|B' c']; cbn [clear equal] in E; cbn [has_shape] in H, H'.
  - destruct H as (-> & Hd & G), H' as (-> & Hd' & G'). destruct (w =? w') eqn:E1; cbn [negb] in E; [|injection E as <- _ _; split; intros; [discriminate|congruence || (exfalso; assert (w = w') by congruence; lia)]].
    destruct (d =? d') eqn:E2; cbn [negb] in E; [|injection E as <- _ _; split; intros; [discriminate|exfalso; assert (d = d') by congruence; lia]].
    replace w' with w in * by lia. replace d' with d in * by lia. rewrite i32_ok in E by (unfold INT_MIN; lia). cbn [bind] in E. rewrite same_db_ok in E.
    + injection E as <- _ _. tauto.
    + intros e He. apply zseq_In in He. exists (geo w (Z.to_nat e)). split; [apply G|apply G']; lia.
  - injection E as <- _ _. destruct H as (-> & _), H' as (w1 & N1 & -> & _). split; discriminate.
  - injection E as <- _ _. destruct H' as (-> & _), H as (w1 & N1 & -> & _). split; discriminate.
  - destruct H as (w & N & -> & S1), H' as (w' & N' & -> & S2).
    destruct (standard_ok _ _ _ S1) as (M & B1 & _). destruct (standard_ok _ _ _ S2) as (M' & B2 & _).
    rewrite (bo_w _ _ _ _ B1), (bo_w _ _ _ _ B2), (bo_N _ _ _ _ B1), (bo_N _ _ _ _ B2) in E.
    destruct (w =? w') eqn:E1; cbn [negb] in E; [|injection E as <- _ _; split; intros; [discriminate|exfalso; assert (w = w') by congruence; lia]].
    destruct (N =? N') eqn:E2; cbn [negb] in E; [|injection E as <- _ _; split; intros; [discriminate|exfalso; assert (N = N') by congruence; lia]].
    replace w' with w in * by lia. replace N' with N in * by lia. split; [auto|intros _].
    assert (HN : 1 <= N < 46339 * 46339) by (destruct S1 as [(_ & X & _) _]; exact X). rewrite i32_ok in E by (unfold INT_MIN, INT_MAX; lia). cbn [bind] in E.
    destruct (std_same B B' w N S1 S2) as (Ew & EN & Ew' & EN' & D & ts & T1 & T2 & R). rewrite same_db_ok in E by (intros e He; apply zseq_In in He; apply D; lia). cbn [bind negb] in E.
    cbn [hash] in E. rewrite !Z.eqb_refl in E. cbn [negb] in E. rewrite T1, T2, Ew, Ew', EN, EN' in E. cbn [bind] in E.
    rewrite (array_bytes_ext (lb_data B) (lb_data B')) in E by (intros i Hi; apply zseq_In in Hi; apply R; lia).
    destruct (array_bytes (lb_data B') (2 * ts)) as [bs| | |]; try discriminate. cbn [bind] in E. rewrite i32_ok in E by (unfold INT_MIN, INT_MAX; lia). cbn [bind] in E.
    rewrite (array_bytes_ext (lb_db B) (lb_db B')) in E by (intros i Hi; apply zseq_In in Hi; destruct (D i ltac:(lia)) as (v & -> & ->); reflexivity).
    destruct (array_bytes (lb_db B') (N + 2)) as [bs'| | |]; try discriminate. cbn [bind] in E.
    assert (X : forall (a b c : bool) (p q p' q' : pyobj), Ok (a, p, q) = Ok (b, p', q') -> a = b) by (intros ? ? ? ? ? ? ? Y; injection Y; auto). apply X in E; [|exact true]. rewrite Z.eqb_refl in E. auto.
Qed.

(** ** Histories *)
Lemma shapes_app K cs cs' : shapes K (cs ++ cs') = shapes (shapes K cs) cs'.
Proof. revert K. induction cs as [|c cs IH]; intros K; cbn [app shapes]; [reflexivity|]. destruct c; apply IH. Qed.
Lemma keeps_shape K H H' : keeps H H' -> length H' = length H -> Forall2 has_shape K H -> Forall2 has_shape K H'.
Proof.
  intros Kp L F. assert (G : forall i s o', nth_error K i = Some s -> nth_error H' i = Some o' -> has_shape s o').
  { intros i s o' Ei Eo. assert (Li : (i < length H)%nat) by (rewrite <- L; apply nth_error_Some; congruence). destruct (nth_error H i) as [o|] eqn:E; [|apply nth_error_None in E; lia].
    destruct (Kp i o E) as (o2 & E2 & C). rewrite Eo in E2. injection E2 as <-. apply (shape_clear s o o'); auto. clear -F Ei E. revert i Ei E. induction F; destruct i; cbn; intros; try discriminate; [congruence|eauto]. }
  assert (LK : length K = length H') by (rewrite L; clear -F; induction F; cbn; congruence). clear -G LK. revert K LK G. induction H' as [|o H' IH]; destruct K; cbn; intros; try lia; constructor.
  - apply (G 0%nat); reflexivity.
  - apply IH; [lia|]. intros i s o' Ei Eo. apply (G (S i)); auto.
Qed.
Lemma call_shape K H c H' a ms : inv ms H -> lie_in_range c -> Forall2 has_shape K H -> do_call H c = Ok (H', a) -> Forall2 has_shape (shapes K (made [c] [a])) H'.
Proof.
  intros I R F E. destruct (call_ok ms H c H' a I E) as (_ & Kp & _).
  assert (CR : forall r s, create H r = Ok (H', a) -> (forall o, r = Ok o -> has_shape s o) -> shapes K [c] = K ++ [s] -> Forall2 has_shape (shapes K (made [c] [a])) H').
  { intros r s Er Hs Es. unfold create in Er. destruct r as [o| | |]; try discriminate; injection Er as <- <-; cbn [made]; [|exact F].
    rewrite Es. apply Forall2_app; auto. }
  destruct c as [j w d|j1 j2 w d|o n|o|i j]; cbn [do_call] in E.
  - apply (CR _ (true, w, d) E); [|reflexivity]. intros o Eo. unfold new_tensor in Eo. destruct (construct_tensor_db j w d) eqn:Ed; try discriminate. cbn in Eo. injection Eo as <-. apply db_ok in Ed. cbn. tauto.
  - apply (CR _ (false, w, d) E); [|reflexivity]. intros o Eo. unfold new_lie in Eo. destruct (construct_lie_basis j1 j2 w d) eqn:Ed; try discriminate. cbn in Eo. injection Eo as <-. cbn. exists w, d. split; auto. split; [exact R|eauto].
  - destruct (nth_error H o) as [x|] eqn:Ex.
    + apply (CR _ (true, snd (fst (nth o K (true, 0, 0))), n) E); [|reflexivity]. intros y Ey. unfold truncate in Ey. destruct x as [w d db cc|]; [|discriminate].
      destruct (n <? 0) eqn:N1; [discriminate|]. destruct (n >=? d) eqn:N2; [discriminate|]. injection Ey as <-.
      assert (Sx : exists s, nth_error K o = Some s /\ has_shape s (TB w d db cc)). { clear -F Ex. revert o Ex. induction F; destruct o; cbn; intros; try discriminate; [injection Ex as ->; eauto|eauto]. }
      destruct Sx as (s & Es & Hs). rewrite (nth_error_nth _ _ _ Es). cbn in Hs. destruct Hs as (-> & Hd & G). cbn. split; auto. split; [lia|]. intros i Hi. apply G. lia.
    + injection E as <- <-. exact F.
  - destruct (nth_error H o) as [x|] eqn:Ex; [|injection E as <- <-; exact F]. destruct (hash x) as [[h x']| | |] eqn:Eh; try discriminate. cbn [bind] in E. injection E as <- <-. cbn [made shapes]. apply (keeps_shape K H); auto. apply put_length.
  - destruct (nth_error H i) as [x|] eqn:Ex; [destruct (nth_error H j) as [y|] eqn:Ey|]; [|injection E as <- <-; exact F|injection E as <- <-; exact F].
    destruct (equal x y) as [[[r x'] y']| | |] eqn:Ee; try discriminate. cbn [bind] in E. injection E as <- <-. cbn [made shapes]. apply (keeps_shape K H); auto. rewrite !put_length. reflexivity.
Qed.
Lemma history_shape cs K ms H H' l : inv ms H -> Forall lie_in_range cs -> Forall2 has_shape K H -> history H cs = Ok (H', l) -> Forall2 has_shape (shapes K (made cs l)) H'.
Proof.
  revert K ms H l. induction cs as [|c cs IH]; cbn [history]; intros K ms H l I R F E.
  - injection E as <- <-. exact F.
  - apply Forall_cons_iff in R as [R1 R2]. destruct (do_call H c) as [[H1 a]| | |] eqn:E1; try discriminate. cbn [bind] in E. destruct (history H1 cs) as [[H2 l']| | |] eqn:E2; try discriminate. cbn [bind] in E. injection E as <- <-.
    rewrite made_cons, shapes_app. destruct (call_ok ms H c H1 a I E1) as (I1 & _ & _). apply (IH _ _ H1 l' I1 R2); [|exact E2]. exact (call_shape K H c H1 a ms I R1 F E1).
Qed.
Lemma equality_is_shape cs H l : Forall lie_in_range cs -> history [] cs = Ok (H, l) ->
  forall p i j b, happened cs l p (Equal i j) (Truth b) ->
  exists s s', nth_error (shapes [] (made cs l)) i = Some s /\ nth_error (shapes [] (made cs l)) j = Some s' /\ (b = true <-> s = s').
Proof.
  intros R E p i j b Hp. destruct (FnvProofs.history_ok cs [] [] H l) as (_ & _ & SA); [constructor|exact E|]. assert (Sp := SA _ _ _ Hp). cbn in Sp. destruct Sp as (o & o' & O1 & O2 & Q).
  assert (F : Forall2 has_shape (shapes [] (made cs l)) H) by (eapply history_shape; eauto; constructor).
  assert (X : forall k x, nth_error H k = Some x -> exists s, nth_error (shapes [] (made cs l)) k = Some s /\ has_shape s x).
  { clear -F. induction F; intros k z E; destruct k; cbn in *; try discriminate; [injection E as ->; eauto|eauto]. }
  destruct (X _ _ O1) as (s & E1 & H1). destruct (X _ _ O2) as (s' & E2 & H2). exists s, s'. split; auto. split; auto. eapply eq_shape; eauto.
Qed.

(** The object got by truncation is equal to the one built directly, but hashes to 0. *)
Lemma truncation junk1 junk2 w d n : 0 <= n < d -> (exists db, construct_tensor_db junk1 w d = Ok db) -> (exists db, construct_tensor_db junk2 w n = Ok db) ->
  exists H, history [] [NewTensor junk1 w d; NewTensor junk2 w n; Truncate 0 n; Equal 1 2; HashOf 2] = Ok (H, [Object; Object; Object; Truth true; HashIs 0]).
Proof.
  intros Hn [db E] [db' E']. destruct (db_ok _ _ _ _ E) as (A1 & A2 & A3). destruct (db_ok _ _ _ _ E') as (B1 & B2 & B3).
  cbn [history do_call]. unfold new_tensor. rewrite E, E'. cbn [bind create app nth_error]. unfold truncate. replace (n <? 0) with false by lia. replace (n >=? d) with false by lia. cbn [create bind app nth_error].
  unfold equal. rewrite !Z.eqb_refl. cbn [negb]. rewrite i32_ok by (unfold INT_MIN; lia). cbn [bind]. rewrite same_db_ok.
  2: { intros e He. apply zseq_In in He. exists (geo w (Z.to_nat e)). split; [apply B3; lia|apply A3; lia]. }
  cbn [bind put nth_error hash]. cbn. eauto.
Qed.
Lemma truncation_ex : exists H x, history [] [NewTensor junk0 2 3; NewTensor junk0 2 2; Truncate 0 2; Equal 1 2; HashOf 1; HashOf 2] = Ok (H, [Object; Object; Object; Truth true; HashIs x; HashIs 0]) /\ x <> 0.
Proof. eexists _, _. split; [vm_compute; reflexivity|]. discriminate. Qed.
Lemma history_ex : exists H x, history [] [NewTensor junk0 2 3; NewLie junk0 (fun _ => 7) 2 3; HashOf 1; NewLie (fun _ => 5) junk0 2 3; Equal 1 2; HashOf 2; Equal 0 1; HashOf 1] =
  Ok (H, [Object; Object; HashIs x; Object; Truth true; HashIs x; Truth false; HashIs x]) /\ x <> 0.
Proof. eexists _, _. split; [vm_compute; reflexivity|]. discriminate. Qed.
Lemma one_octet_ex : word64 FNV_OFFSET /\ octet 84 /\ octet 85 /\ Forall octet [101; 0; 255] /\
  fnv_bytes FNV_OFFSET ([7] ++ 84 :: [101; 0; 255]) <> fnv_bytes FNV_OFFSET ([7] ++ 85 :: [101; 0; 255]).
Proof. split; [apply off_word|]. unfold octet. repeat split; try lia. - repeat constructor; lia. - vm_compute. discriminate. Qed.
