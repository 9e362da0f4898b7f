(** Proofs about FNV-1a hashing and the basis objects. *)
From Coq Require Import ZifyBool Lia.
From Verif Require Import FnvSpec HallProofs HallLemmas.
Open Scope Z_scope.

(** ** The hash function *)
Lemma mix_prime h o : mix_octet h o = (Z.lxor h o * FNV_PRIME) mod 2 ^ 64.
Proof.
  unfold mix_octet, u64. rewrite !Z.shiftl_mul_pow2 by lia. set (x := Z.lxor h o).
  rewrite <- (Zplus_mod (x * 2 ^ 1) (x * 2 ^ 4)), <- (Zplus_mod (x * 2 ^ 1 + x * 2 ^ 4) (x * 2 ^ 5)), <- (Zplus_mod (x * 2 ^ 1 + x * 2 ^ 4 + x * 2 ^ 5) (x * 2 ^ 7)),
    <- (Zplus_mod (x * 2 ^ 1 + x * 2 ^ 4 + x * 2 ^ 5 + x * 2 ^ 7) (x * 2 ^ 8)), <- (Zplus_mod (x * 2 ^ 1 + x * 2 ^ 4 + x * 2 ^ 5 + x * 2 ^ 7 + x * 2 ^ 8) (x * 2 ^ 40)), Zplus_mod_idemp_r.
  f_equal. unfold FNV_PRIME. lia.
Qed.
Lemma mix_prime32 h o : mix_octet32 h o = (Z.lxor h o * fnv_prime_32) mod 2 ^ 32.
Proof.
  unfold mix_octet32, u32. rewrite !Z.shiftl_mul_pow2 by lia. set (x := Z.lxor h o).
  rewrite <- (Zplus_mod (x * 2 ^ 1) (x * 2 ^ 4)), <- (Zplus_mod (x * 2 ^ 1 + x * 2 ^ 4) (x * 2 ^ 7)), <- (Zplus_mod (x * 2 ^ 1 + x * 2 ^ 4 + x * 2 ^ 7) (x * 2 ^ 8)),
    <- (Zplus_mod (x * 2 ^ 1 + x * 2 ^ 4 + x * 2 ^ 7 + x * 2 ^ 8) (x * 2 ^ 24)), Zplus_mod_idemp_r.
  f_equal. unfold fnv_prime_32. lia.
Qed.
Lemma fnv_bytes32_std s l : fnv_bytes32 s l = fnv1a fnv_prime_32 32 s l.
Proof. unfold fnv_bytes32, fnv1a. revert s. induction l as [|b l IH]; intros s; cbn [fold_left]; [reflexivity|]. rewrite mix_prime32. apply IH. Qed.
Lemma fnv_bytes_std s l : fnv_bytes s l = fnv1a fnv_prime_64 64 s l.
Proof. unfold fnv_bytes, fnv1a. change fnv_prime_64 with FNV_PRIME. revert s. induction l as [|b l IH]; intros s; cbn [fold_left]; [reflexivity|]. rewrite mix_prime. apply IH. Qed.
Lemma fnv_bytes_app s a b : fnv_bytes s (a ++ b) = fnv_bytes (fnv_bytes s a) b.
Proof. unfold fnv_bytes. apply fold_left_app. Qed.
Definition INV : Z := 0xCE965057AFF6957B.
Lemma inv_ok : (FNV_PRIME * INV) mod 2 ^ 64 = 1.
Proof. vm_compute. reflexivity. Qed.
Lemma prime_inj x y : word64 x -> word64 y -> (x * FNV_PRIME) mod 2 ^ 64 = (y * FNV_PRIME) mod 2 ^ 64 -> x = y.
Proof.
  intros Hx Hy H. assert (E : ((x * FNV_PRIME) mod 2 ^ 64 * INV) mod 2 ^ 64 = ((y * FNV_PRIME) mod 2 ^ 64 * INV) mod 2 ^ 64) by (rewrite H; reflexivity).
  rewrite !Zmult_mod_idemp_l, <- !Z.mul_assoc in E. rewrite <- (Zmult_mod_idemp_r _ x), <- (Zmult_mod_idemp_r _ y), inv_ok, !Z.mul_1_r in E.
  unfold word64 in *. rewrite !Z.mod_small in E by lia. exact E.
Qed.
Lemma word64_bits z : 0 <= z -> (forall i, 64 <= i -> Z.testbit z i = false) -> word64 z.
Proof.
  intros Hz H. split; [exact Hz|]. destruct (Z.eq_dec z 0) as [->|N]; [lia|].
  assert (L : Z.log2 z < 64). { destruct (Z_lt_ge_dec (Z.log2 z) 64) as [?|G]; [auto|]. specialize (H (Z.log2 z) ltac:(lia)). rewrite Z.bit_log2 in H by lia. discriminate. }
  apply Z.log2_lt_pow2; lia.
Qed.
Lemma word64_high z i : word64 z -> 64 <= i -> Z.testbit z i = false.
Proof.
  intros [H1 H2] Hi. destruct (Z.eq_dec z 0) as [->|N]; [apply Z.bits_0|]. apply Z.bits_above_log2; [lia|].
  assert (Z.log2 z < 64) by (apply Z.log2_lt_pow2; lia). lia.
Qed.
Lemma lxor_word64 a b : word64 a -> word64 b -> word64 (Z.lxor a b).
Proof.
  intros Ha Hb. apply word64_bits; [apply Z.lxor_nonneg; unfold word64 in *; lia|]. intros i Hi. rewrite Z.lxor_spec, !word64_high by auto. reflexivity.
Qed.
Lemma octet_word b : octet b -> word64 b.
Proof. unfold octet, word64. lia. Qed.
Lemma mix_word h o : word64 (mix_octet h o).
Proof. unfold mix_octet, u64, word64. apply Z.mod_pos_bound. lia. Qed.
Lemma mix_inj h h' o o' : word64 h -> word64 h' -> word64 o -> word64 o' -> mix_octet h o = mix_octet h' o' -> Z.lxor h o = Z.lxor h' o'.
Proof. intros. rewrite !mix_prime in *. apply prime_inj; auto using lxor_word64. Qed.
Lemma lxor_cancel_r a b c : Z.lxor a c = Z.lxor b c -> a = b.
Proof. intros H. assert (E : Z.lxor (Z.lxor a c) c = Z.lxor (Z.lxor b c) c) by (rewrite H; reflexivity). rewrite !Z.lxor_assoc, Z.lxor_nilpotent, !Z.lxor_0_r in E. exact E. Qed.
Lemma lxor_cancel_l a b c : Z.lxor c a = Z.lxor c b -> a = b.
Proof. rewrite !(Z.lxor_comm c). apply lxor_cancel_r. Qed.
Lemma bytes_inj l : Forall octet l -> forall h h', word64 h -> word64 h' -> fnv_bytes h l = fnv_bytes h' l -> h = h'.
Proof.
  induction 1 as [|b l Hb Hl IH]; intros h h' Wh Wh' E; [exact E|]. cbn in E. apply IH in E; auto using mix_word.
  apply mix_inj in E; auto using octet_word. eapply lxor_cancel_r; eauto.
Qed.
Lemma fnv_word h l : word64 h -> word64 (fnv_bytes h l).
Proof. unfold fnv_bytes. revert h. induction l as [|b l IH]; intros h H; [exact H|]. cbn. apply IH, mix_word. Qed.
(** Buffers that differ in one octet have different hashes. *)
Lemma one_octet h l b b' r : word64 h -> octet b -> octet b' -> Forall octet r ->
  fnv_bytes h (l ++ b :: r) = fnv_bytes h (l ++ b' :: r) -> b = b'.
Proof.
  intros Wh Hb Hb' Hr. rewrite !fnv_bytes_app. set (s := fnv_bytes h l). assert (Ws : word64 s) by (apply fnv_word; auto). intros E. cbn in E.
  apply bytes_inj in E; auto using mix_word. apply mix_inj in E; auto using octet_word. eapply lxor_cancel_l; eauto.
Qed.
(** Strings. *)
Lemma string_ascii s l : Forall (fun c => 0 < c < 128) l -> fnv_string s l = fnv_bytes s l.
Proof.
  intros H. revert s. induction H as [|c l Hc Hl IH]; intros s; cbn [fnv_string]; [reflexivity|].
  replace (c =? 0) with false by lia. unfold as_char. replace (c <? 128) with true by lia. unfold u64. rewrite Z.mod_small by lia. rewrite IH. reflexivity.
Qed.
Lemma string_app s a b : Forall (fun c => 0 < c < 128) a -> fnv_string s (a ++ b) = fnv_string (fnv_bytes s a) b.
Proof.
  intros H. revert s. induction H as [|c l Hc Hl IH]; intros s; cbn [fnv_string app]; [reflexivity|].
  replace (c =? 0) with false by lia. unfold as_char. replace (c <? 128) with true by lia. unfold u64. rewrite Z.mod_small by lia. rewrite IH. reflexivity.
Qed.
Lemma ascii_octets l : Forall (fun c => 0 < c < 128) l -> Forall octet l.
Proof. apply Forall_impl. unfold octet. lia. Qed.
Lemma string_not_ascii s l c r : word64 s -> Forall (fun c => 0 < c < 128) l -> 128 <= c < 256 -> Forall (fun c => 0 < c < 128) r ->
  fnv_string s (l ++ c :: r) <> fnv_bytes s (l ++ c :: r).
Proof.
  intros Ws Hl Hc Hr E. rewrite string_app, fnv_bytes_app in E by auto. set (t := fnv_bytes s l) in *. assert (Wt : word64 t) by (apply fnv_word; auto).
  cbn [fnv_string fnv_bytes fold_left] in E. replace (c =? 0) with false in E by lia. rewrite string_ascii in E by auto.
  assert (W : word64 (u64 (as_char c))) by (unfold u64, word64; apply Z.mod_pos_bound; lia).
  apply bytes_inj in E; auto using mix_word, ascii_octets. apply mix_inj in E; auto; [|apply octet_word; unfold octet; lia]. apply lxor_cancel_l in E.
  unfold u64, as_char in E. replace (c <? 128) with false in E by lia. rewrite <- (Z.mod_add _ 1) in E by lia. rewrite Z.mod_small in E by lia. lia.
Qed.
Lemma finalize_not s : word64 s -> fnv_finalize s <> -1 /\ - 2 ^ 63 <= fnv_finalize s < 2 ^ 63 /\ (s <> 2 ^ 64 - 1 -> fnv_finalize s mod 2 ^ 64 = s).
Proof.
  unfold word64, fnv_finalize, to_signed. intros H. destruct (s <? 2 ^ 63) eqn:E1.
  - destruct (s =? -1) eqn:E; [lia|]. split; [lia|]. split; [lia|]. intros _. apply Z.mod_small. lia.
  - destruct (s - 2 ^ 64 =? -1) eqn:E; [lia|]. split; [lia|]. split; [lia|]. intros _. rewrite <- (Z.mod_add _ 1) by lia. rewrite Z.mod_small by lia. lia.
Qed.

(** ** Objects *)
Lemma ok_pair {A B} (a c : A) (b d : B) : Ok (a, b) = Ok (c, d) -> a = c /\ b = d.
Proof. intros H. injection H as -> ->. auto. Qed.
Local Opaque fnv_bytes fnv_finalize.
Definition cached (o : pyobj) : Z := match o with TB _ _ _ c => c | LB _ c => c end.
Definition clear (o : pyobj) : pyobj := match o with TB w d db _ => TB w d db (-1) | LB B _ => LB B (-1) end.
Lemma clear_clear o : clear (clear o) = clear o. Proof. destruct o; reflexivity. Qed.
Lemma off_word : word64 FNV_OFFSET. Proof. unfold word64. vm_compute. split; [discriminate|reflexivity]. Qed.
(** The object's own hash, ignoring what is stored in it. *)
Definition own (o : pyobj) (h : Z) : Prop := exists o', hash (clear o) = Ok (h, o').
Lemma own_fun o h h' : own o h -> own o h' -> h = h'.
Proof. intros [a A] [b B]. congruence. Qed.
Lemma own_not o h : own o h -> h <> -1.
Proof.
  intros [o' E]. destruct o as [w d db c|B c]; cbn [clear hash] in E; rewrite Z.eqb_refl in E; cbn [negb] in E.
  - destruct (i32 (d + 2)); try discriminate. cbn [bind] in E. destruct (array_bytes db a); try discriminate. cbn [bind] in E. apply ok_pair in E as [<- _]. apply finalize_not, fnv_word, fnv_word, fnv_word, fnv_word, off_word.
  - destruct (lb_true_size B); try discriminate. cbn [bind] in E. destruct (array_bytes (lb_data B) (2 * a)); try discriminate. cbn [bind] in E.
    destruct (i32 (lb_depth B + 2)); try discriminate. cbn [bind] in E. destruct (array_bytes (lb_db B) a1); try discriminate. cbn [bind] in E. apply ok_pair in E as [<- _]. apply finalize_not, fnv_word, fnv_word, fnv_word, fnv_word, fnv_word, off_word.
Qed.
Lemma hash_after o h o' : hash o = Ok (h, o') -> clear o' = clear o /\ ((cached o = -1 /\ own o h /\ cached o' = h) \/ (cached o <> -1 /\ h = cached o /\ o' = o)).
Proof.
  intros E. destruct (Z.eq_dec (cached o) (-1)) as [C|C].
  - assert (Eo : clear o = o) by (destruct o; cbn in *; congruence). assert (O : own o h) by (exists o'; rewrite Eo; exact E). clear Eo.
    destruct o as [w d db c|B c]; cbn [hash cached] in *; subst c; rewrite Z.eqb_refl in E; cbn [negb] in E.
    + destruct (i32 (d + 2)); try discriminate. cbn [bind] in E. destruct (array_bytes db a); try discriminate. cbn [bind] in E. apply ok_pair in E as [<- <-]. cbn. auto.
    + destruct (lb_true_size B); try discriminate. cbn [bind] in E. destruct (array_bytes (lb_data B) (2 * a)); try discriminate. cbn [bind] in E.
      destruct (i32 (lb_depth B + 2)); try discriminate. cbn [bind] in E. destruct (array_bytes (lb_db B) a1); try discriminate. cbn [bind] in E. apply ok_pair in E as [<- <-]. cbn. auto.
  - destruct o as [w d db c|B c]; cbn [hash cached] in *; replace (negb (c =? -1)) with true in E by lia; apply ok_pair in E as [<- <-]; auto.
Qed.
(** What is stored in an object made by call [c]. *)
Definition fresh_ok (c : call) (o : pyobj) : Prop :=
  if truncated c then cached o = 0 /\ (exists w d db, o = TB w d db 0) else cached o = -1 \/ own o (cached o).
Lemma own_clear o o' h : clear o = clear o' -> own o h -> own o' h.
Proof. unfold own. intros E. rewrite E. auto. Qed.
Definition answers_hash (c : call) (o : pyobj) (h : Z) : Prop := if truncated c then h = 0 else own o h.
Lemma hash_fresh c o h o' : fresh_ok c o -> hash o = Ok (h, o') -> clear o' = clear o /\ fresh_ok c o' /\ answers_hash c o h.
Proof.
  intros F E. destruct (hash_after o h o' E) as [C [(A & O & B)|(A & -> & ->)]].
  - split; auto. unfold fresh_ok, answers_hash in *. destruct (truncated c); [destruct F as [F _]; lia|]. split; auto. right. rewrite B. eapply own_clear; [symmetry; exact C|exact O].
  - split; auto. split; auto. unfold fresh_ok, answers_hash in *. destruct (truncated c); [tauto|]. destruct F; [contradiction|auto].
Qed.
(** Equality looks at the object only. *)
Definition eq_of (o o' : pyobj) (r : bool) : Prop := exists x y, equal (clear o) (clear o') = Ok (r, x, y).
Lemma equal_after c c' a b r a' b' : fresh_ok c a -> fresh_ok c' b -> equal a b = Ok (r, a', b') ->
  clear a' = clear a /\ clear b' = clear b /\ fresh_ok c a' /\ fresh_ok c' b' /\ eq_of a b r /\ ((exists w d db x, a = TB w d db x) -> a' = a /\ b' = b).
Proof.
  intros Fa Fb E. destruct a as [w d db x|B x], b as [w' d' db' x'|B' x']; cbn [equal] in E.
  - assert (X : a' = TB w d db x /\ b' = TB w' d' db' x' /\ eq_of (TB w d db x) (TB w' d' db' x') r).
    { unfold eq_of. cbn [clear equal]. destruct (negb (w =? w')); [injection E as <- <- <-; eauto|]. destruct (negb (d =? d')); [injection E as <- <- <-; eauto|].
      destruct (i32 (d + 2)); try discriminate. cbn [bind] in *. destruct (same_db db db' (zseq 0 (Z.to_nat a))); try discriminate. cbn [bind] in *. injection E as <- <- <-. eauto. }
    destruct X as (-> & -> & X). repeat (split; auto).
  - injection E as <- <- <-. repeat (split; auto). eexists _, _. reflexivity.
  - injection E as <- <- <-. repeat (split; auto). eexists _, _. reflexivity.
  - assert (Nt : forall P : Prop, (exists w d db y, LB B x = TB w d db y) -> P) by (intros P (? & ? & ? & ? & ?); discriminate).
    destruct (negb (lb_width B =? lb_width B')) eqn:E1. { injection E as <- <- <-. repeat (split; [solve [auto]|]); split; [|apply Nt]. unfold eq_of. cbn [clear equal]. rewrite E1. eauto. }
    destruct (negb (lb_depth B =? lb_depth B')) eqn:E2. { injection E as <- <- <-. repeat (split; [solve [auto]|]); split; [|apply Nt]. unfold eq_of. cbn [clear equal]. rewrite E1, E2. eauto. }
    destruct (i32 (lb_depth B + 2)) eqn:E3; try discriminate. cbn [bind] in E. destruct (same_db (lb_db B) (lb_db B') (zseq 0 (Z.to_nat a))) eqn:E4; try discriminate. cbn [bind] in E.
    destruct a0; cbn [negb] in E. 2: { injection E as <- <- <-. repeat (split; [solve [auto]|]); split; [|apply Nt]. unfold eq_of. cbn [clear equal]. rewrite E1, E2, E3. cbn [bind]. rewrite E4. cbn. eauto. }
    destruct (hash (LB B x)) as [[h o]| | |] eqn:H1; try discriminate. cbn [bind] in E. destruct (hash (LB B' x')) as [[h' o']| | |] eqn:H2; try discriminate. cbn [bind] in E. injection E as <- <- <-.
    destruct (hash_fresh _ _ _ _ Fa H1) as (C1 & F1 & A1). destruct (hash_fresh _ _ _ _ Fb H2) as (C2 & F2 & A2). repeat (split; [solve [auto]|]); split; [|apply Nt].
    unfold answers_hash in A1, A2. unfold fresh_ok in Fa, Fb. destruct (truncated c); [destruct Fa as (_ & ? & ? & ? & ?); discriminate|]. destruct (truncated c'); [destruct Fb as (_ & ? & ? & ? & ?); discriminate|].
    destruct A1 as [y1 A1], A2 as [y2 A2]. unfold eq_of. cbn [clear equal] in *. rewrite E1, E2, E3. cbn [bind]. rewrite E4. cbn [bind negb]. rewrite A1. cbn [bind]. rewrite A2. cbn [bind]. eauto.
Qed.

(** ** Histories *)
Lemma put_length H i o : length (put H i o) = length H.
Proof. revert i. induction H; destruct i; cbn; auto. Qed.
Lemma put_same H i o : (i < length H)%nat -> nth_error (put H i o) i = Some o.
Proof. revert i. induction H; destruct i; cbn; intros; try lia; auto. apply IHlist. lia. Qed.
Lemma put_other H i j o : i <> j -> nth_error (put H i o) j = nth_error H j.
Proof. revert i j. induction H; destruct i, j; cbn; intros; auto; try congruence. Qed.
Definition inv (ms : list call) (H : heap) : Prop := Forall2 fresh_ok ms H.
Lemma inv_nth ms H i o : inv ms H -> nth_error H i = Some o -> exists c, nth_error ms i = Some c /\ fresh_ok c o.
Proof. intros F. revert i. induction F; destruct i; cbn; intros E; try discriminate; eauto. injection E as <-. eauto. Qed.
Lemma inv_put ms H i c o : inv ms H -> nth_error ms i = Some c -> fresh_ok c o -> inv ms (put H i o).
Proof. intros F. revert i. induction F; destruct i; cbn; intros E Fo; try discriminate; constructor; auto. - injection E as ->. auto. - apply IHF; auto. Qed.
Definition keeps (H H' : heap) : Prop := forall i o, nth_error H i = Some o -> exists o', nth_error H' i = Some o' /\ clear o' = clear o.
Lemma keeps_refl H : keeps H H. Proof. intros i o E. eauto. Qed.
Lemma keeps_trans A B C : keeps A B -> keeps B C -> keeps A C.
Proof. intros X Y i o E. destruct (X i o E) as (o' & E' & C'). destruct (Y i o' E') as (o'' & E'' & C''). exists o''. split; auto. congruence. Qed.
Lemma keeps_put H i o x : nth_error H i = Some x -> clear o = clear x -> keeps H (put H i o).
Proof.
  intros E C j y Ej. destruct (Nat.eq_dec i j) as [->|N].
  - rewrite E in Ej. injection Ej as <-. exists o. split; auto. apply put_same. apply nth_error_Some. congruence.
  - exists y. rewrite put_other; auto.
Qed.
(** The answer to a call, in terms of the heap (any later heap). *)
Definition sound_answer (ms : list call) (H : heap) (c : call) (a : answer) : Prop :=
  match c, a with
  | HashOf i, HashIs h => exists m o, nth_error ms i = Some m /\ nth_error H i = Some o /\ answers_hash m o h
  | Equal i j, Truth r => exists o o', nth_error H i = Some o /\ nth_error H j = Some o' /\ eq_of o o' r
  | HashOf _, Truth _ | Equal _ _, HashIs _ => False
  | HashOf _, Object | Equal _ _, Object => False
  | _, _ => True
  end.
Lemma sound_keeps ms ms' H H' c a : keeps H H' -> sound_answer ms H c a -> sound_answer (ms ++ ms') H' c a.
Proof.
  intros K. unfold sound_answer. destruct c; auto; destruct a; auto.
  - intros (m & x & E1 & E2 & A). destruct (K _ _ E2) as (x' & E2' & C). exists m, x'. split; [rewrite nth_error_app1; auto; apply nth_error_Some; congruence|]. split; auto.
    unfold answers_hash in *. destruct (truncated m); auto. eapply own_clear; [symmetry; exact C|exact A].
  - intros (x & y & E1 & E2 & A). destruct (K _ _ E1) as (x' & E1' & C1). destruct (K _ _ E2) as (y' & E2' & C2). exists x', y'. split; auto. split; auto. unfold eq_of in *. rewrite C1, C2. exact A.
Qed.
Lemma create_ok ms H r c H' a : inv ms H -> (forall o, r = Ok o -> fresh_ok c o) -> create H r = Ok (H', a) ->
  inv (ms ++ (if match a with Object => true | _ => false end then [c] else [])) H' /\ keeps H H' /\ (a = Object \/ a = Raised) /\
  (a = Object -> exists o, r = Ok o /\ H' = H ++ [o]) /\ (a = Raised -> H' = H).
Proof.
  intros I F E. unfold create in E. destruct r as [o| | |]; try discriminate; injection E as <- <-.
  - split; [apply Forall2_app; auto; constructor; auto; constructor|]. split; [intros i x Ex; exists x; split; auto; rewrite nth_error_app1; auto; apply nth_error_Some; congruence|]. split; auto. split; [eauto|discriminate].
  - rewrite app_nil_r. split; auto. split; [apply keeps_refl|]. split; auto. split; [discriminate|auto].
Qed.
Lemma fresh_new_tensor j w d o : new_tensor j w d = Ok o -> fresh_ok (NewTensor j w d) o.
Proof. unfold new_tensor. destruct (construct_tensor_db j w d); try discriminate. cbn. intros [= <-]. left. reflexivity. Qed.
Lemma fresh_new_lie j1 j2 w d o : new_lie j1 j2 w d = Ok o -> fresh_ok (NewLie j1 j2 w d) o.
Proof. unfold new_lie. destruct (construct_lie_basis j1 j2 w d); try discriminate. cbn. intros [= <-]. left. reflexivity. Qed.
Lemma fresh_truncate x n k o : truncate x n = Ok o -> fresh_ok (Truncate k n) o.
Proof.
  unfold truncate. destruct x; try discriminate. destruct (n <? 0); try discriminate. destruct (n >=? depth); try discriminate. intros [= <-]. split; [reflexivity|eauto].
Qed.
Lemma call_ok ms H c H' a : inv ms H -> do_call H c = Ok (H', a) ->
  inv (ms ++ made [c] [a]) H' /\ keeps H H' /\ sound_answer (ms ++ made [c] [a]) H' c a.
Proof.
  intros I E.
  assert (CR : forall r, create H r = Ok (H', a) -> (forall o, r = Ok o -> fresh_ok c o) -> inv (ms ++ made [c] [a]) H' /\ keeps H H' /\ (a = Object \/ a = Raised)).
  { intros r Er F. destruct (create_ok ms H r c H' a I F Er) as (X & Y & Z & _). split; auto. destruct Z as [-> | ->]; cbn [made]; exact X. }
  destruct c as [j w d|j1 j2 w d|o n|o|i j]; cbn [do_call] in E.
  - destruct (CR _ E) as (X & Y & Z); [apply fresh_new_tensor|]. split; auto. split; auto. exact Logic.I.
  - destruct (CR _ E) as (X & Y & Z); [apply fresh_new_lie|]. split; auto. split; auto. exact Logic.I.
  - destruct (nth_error H o).
    + destruct (CR _ E) as (X & Y & Z); [intros; eapply fresh_truncate; eauto|]. split; auto. split; auto. exact Logic.I.
    + injection E as <- <-. cbn [made]. rewrite app_nil_r. split; auto. split; [apply keeps_refl|exact Logic.I].
  - destruct (nth_error H o) as [x|] eqn:Ex.
    + destruct (hash x) as [[h x']| | |] eqn:Eh; try discriminate. cbn [bind] in E. injection E as <- <-. cbn [made]. rewrite app_nil_r.
      destruct (inv_nth _ _ _ _ I Ex) as (m & Em & Fm). destruct (hash_fresh _ _ _ _ Fm Eh) as (C & F & A).
      split; [eapply inv_put; eauto|]. split; [eapply keeps_put; eauto|]. cbn. exists m, x'. split; auto. split; [apply put_same, nth_error_Some; congruence|].
      unfold answers_hash in *. destruct (truncated m); auto. eapply own_clear; [symmetry; exact C|exact A].
    + injection E as <- <-. cbn [made]. rewrite app_nil_r. split; auto. split; [apply keeps_refl|exact Logic.I].
  - destruct (nth_error H i) as [x|] eqn:Ex; [destruct (nth_error H j) as [y|] eqn:Ey|].
    + destruct (equal x y) as [[[r x'] y']| | |] eqn:Ee; try discriminate. cbn [bind] in E. injection E as <- <-. cbn [made]. rewrite app_nil_r.
      destruct (inv_nth _ _ _ _ I Ex) as (m & Em & Fm). destruct (inv_nth _ _ _ _ I Ey) as (m' & Em' & Fm').
      destruct (equal_after _ _ _ _ _ _ _ Fm Fm' Ee) as (C1 & C2 & F1 & F2 & Q & _).
      assert (I1 : inv ms (put H i x')) by (eapply inv_put; eauto). assert (K1 : keeps H (put H i x')) by (eapply keeps_put; eauto).
      assert (K2 : keeps (put H i x') (put (put H i x') j y')). { destruct (K1 _ _ Ey) as (z & Ez & Cz). eapply keeps_put; eauto. congruence. }
      split; [eapply inv_put; eauto|]. assert (K := keeps_trans _ _ _ K1 K2). split; [exact K|]. cbn.
      destruct (K _ _ Ex) as (o & Eo & Co). destruct (K _ _ Ey) as (o' & Eo' & Co'). exists o, o'. split; auto. split; auto. unfold eq_of in *. rewrite Co, Co'. exact Q.
    + injection E as <- <-. cbn [made]. rewrite app_nil_r. split; auto. split; [apply keeps_refl|exact Logic.I].
    + injection E as <- <-. cbn [made]. rewrite app_nil_r. split; auto. split; [apply keeps_refl|exact Logic.I].
Qed.
Lemma made_cons c a cs l : made (c :: cs) (a :: l) = made [c] [a] ++ made cs l.
Proof. destruct a; reflexivity. Qed.
Lemma history_ok cs ms H H' l : inv ms H -> history H cs = Ok (H', l) ->
  inv (ms ++ made cs l) H' /\ keeps H H' /\ forall p c a, happened cs l p c a -> sound_answer (ms ++ made cs l) H' c a.
Proof.
  revert ms H l. induction cs as [|c cs IH]; cbn [history]; intros ms H l I E.
  - injection E as <- <-. cbn. rewrite app_nil_r. split; auto. split; [apply keeps_refl|]. intros p c a [X _]. destruct p; discriminate.
  - destruct (do_call H c) as [[H1 a]| | |] eqn:E1; try discriminate. cbn [bind] in E. destruct (history H1 cs) as [[H2 l']| | |] eqn:E2; try discriminate. cbn [bind] in E. injection E as <- <-.
    destruct (call_ok ms H c H1 a I E1) as (I1 & K1 & S1). destruct (IH _ _ _ I1 E2) as (I2 & K2 & S2). rewrite made_cons, app_assoc. split; auto. split; [eapply keeps_trans; eauto|].
    intros p c' a' [X Y]. destruct p as [|p]; cbn in X, Y.
    + injection X as <-. injection Y as <-. apply (sound_keeps _ _ _ _ _ _ K2 S1).
    + apply (S2 p). split; auto.
Qed.

(** ** Equal objects have equal hashes *)
Lemma same_db_true l r ds : same_db l r ds = Ok true -> forall d, In d ds -> bget l d = bget r d /\ exists v, bget l d = Ok v.
Proof.
  induction ds as [|d ds IH]; cbn [same_db]; intros E e He; [destruct He|]. destruct (bget l d) as [x| | |] eqn:E1; try discriminate. cbn [bind] in E. destruct (bget r d) as [y| | |] eqn:E2; try discriminate. cbn [bind] in E.
  destruct (x =? y) eqn:E3; [|discriminate]. destruct He as [<-|He]; [|apply IH; auto]. split; [|eauto]. rewrite E1, E2. f_equal. lia.
Qed.
Lemma array_bytes_ext a b n : (forall i, In i (zseq 0 (Z.to_nat n)) -> bget a i = bget b i) -> array_bytes a n = array_bytes b n.
Proof. intros H. unfold array_bytes. apply for_ext. intros x t Hx. rewrite H by auto. reflexivity. Qed.
Lemma eq_hash o o' h h' : eq_of o o' true -> own o h -> own o' h' -> h = h'.
Proof.
  intros (x & y & E) A B. destruct o as [w d db c|L c], o' as [w' d' db' c'|L' c']; cbn [clear equal] in E; try discriminate.
  - destruct (w =? w') eqn:E1; [|discriminate]. destruct (d =? d') eqn:E2; [|discriminate]. cbn [negb] in E. destruct (i32 (d + 2)) eqn:E3; try discriminate. cbn [bind] in E.
    destruct (same_db db db' (zseq 0 (Z.to_nat a))) as [b| | |] eqn:E4; try discriminate. cbn [bind] in E. injection E as -> _ _. replace w' with w in * by lia. replace d' with d in * by lia.
    destruct A as [oa A], B as [ob B]. cbn [clear hash] in A, B. rewrite Z.eqb_refl, E3 in A, B. cbn [negb bind] in A, B.
    rewrite (array_bytes_ext db db' a) in A by (intros i Hi; apply (same_db_true _ _ _ E4 i Hi)). destruct (array_bytes db' a); try discriminate. cbn [bind] in *. congruence.
  - destruct (negb (lb_width L =? lb_width L')); [discriminate|]. destruct (negb (lb_depth L =? lb_depth L')); [discriminate|]. destruct (i32 (lb_depth L + 2)); try discriminate. cbn [bind] in E.
    destruct (same_db (lb_db L) (lb_db L') (zseq 0 (Z.to_nat a))) as [b| | |]; try discriminate. cbn [bind] in E. destruct b; [|discriminate]. cbn [negb] in E.
    destruct A as [oa A], B as [ob B]. cbn [clear] in A, B. rewrite A in E. cbn [bind] in E. rewrite B in E. cbn [bind] in E. injection E as E _ _. lia.
Qed.
Lemma equal_hash cs H l : history [] cs = Ok (H, l) ->
  forall i j ci cj, nth_error (made cs l) i = Some ci -> nth_error (made cs l) j = Some cj -> truncated ci = truncated cj ->
  (i = j \/ exists r, happened cs l r (Equal i j) (Truth true)) ->
  forall p q x y, happened cs l p (HashOf i) (HashIs x) -> happened cs l q (HashOf j) (HashIs y) -> x = y.
Proof.
  intros E i j ci cj Mi Mj T HE p q x y Hp Hq. destruct (history_ok cs [] [] H l) as (I & K & S); [constructor|exact E|]. cbn [app] in *.
  assert (Sp := S _ _ _ Hp). assert (Sq := S _ _ _ Hq). cbn in Sp, Sq. destruct Sp as (m & o & M1 & O1 & A1), Sq as (m' & o' & M2 & O2 & A2).
  rewrite Mi in M1. rewrite Mj in M2. injection M1 as <-. injection M2 as <-. unfold answers_hash in *. rewrite <- T in A2. destruct (truncated ci); [congruence|].
  destruct HE as [->|[r Hr]].
  - rewrite O1 in O2. injection O2 as <-. eapply own_fun; eauto.
  - assert (Sr := S _ _ _ Hr). cbn in Sr. destruct Sr as (u & v & U & V & Q). rewrite O1 in U. rewrite O2 in V. injection U as <-. injection V as <-. eapply eq_hash; eauto.
Qed.
Lemma truncated_hash cs H l : history [] cs = Ok (H, l) -> forall i o n, nth_error (made cs l) i = Some (Truncate o n) ->
  forall p x, happened cs l p (HashOf i) (HashIs x) -> x = 0.
Proof.
  intros E i o n Mi p x Hp. destruct (history_ok cs [] [] H l) as (I & K & S); [constructor|exact E|]. cbn [app] in *. assert (Sp := S _ _ _ Hp). cbn in Sp. destruct Sp as (m & u & M1 & O1 & A1).
  rewrite Mi in M1. injection M1 as <-. exact A1.
Qed.
