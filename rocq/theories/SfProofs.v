(** Proofs about streams of sound files. *)
From Coq Require Import ZArith QArith Qround List Bool String Lia.
Import ListNotations.
From Verif Require Import Outcome Alg SchemaModel SchemaSpec SchemaProofs SchemaProofs2 PsModel SfModel SfSpec.
Open Scope nat_scope.
Open Scope list_scope.

Lemma firstn_snoc {A} : forall (l : list A) n x, nth_error l n = Some x -> firstn (S n) l = firstn n l ++ [x].
Proof. induction l as [|y l IH]; intros [|n] x H; try discriminate; cbn in H; [now injection H as ->|]. cbn [firstn app]. f_equal. now apply IH. Qed.
Lemma nth_ext {A} : forall a b : list A, (forall d, nth_error a d = nth_error b d) -> a = b.
Proof.
  induction a as [|x a IH]; intros [|y b] H; [reflexivity|discriminate (H 0)|discriminate (H 0)|]. pose proof (H 0) as H0. injection H0 as ->. f_equal. apply IH. intros d. exact (H (S d)).
Qed.
Lemma width_step s c n ch : nth_error (chans s) c = Some (n, ch) -> width_to s (S c) = width_to s c + num_variants ch.
Proof. intros H. rewrite !width_to_sum, (firstn_snoc _ _ _ H), wsum_app. unfold wsum at 2. cbn. lia. Qed.
Lemma channel_at s c : c < size s -> exists n ch, nth_error (chans s) c = Some (n, ch).
Proof. intros H. destruct (nth_error (chans s) c) as [[n ch]|] eqn:E; [eauto|]. apply nth_error_None in E. unfold size in H. lia. Qed.
Lemma width_mono s : (forall x, In x (chans s) -> 0 < num_variants (snd x)) -> forall d c, c + S d <= size s -> width_to s c < width_to s (c + S d).
Proof.
  intros Hn. induction d as [|d IH]; intros c H.
  - destruct (channel_at s c) as (n & ch & E); [lia|]. replace (c + 1) with (S c) by lia. rewrite (width_step s c n ch E). pose proof (Hn _ (nth_error_In _ _ E)). cbn [snd] in *. lia.
  - specialize (IH c ltac:(lia)). destruct (channel_at s (c + S d)) as (n & ch & E); [lia|]. replace (c + S (S d)) with (S (c + S d)) by lia.
    rewrite (width_step s _ n ch E). lia.
Qed.
Lemma width_lt s : (forall x, In x (chans s) -> 0 < num_variants (snd x)) -> forall a b, a < b -> b <= size s -> width_to s a < width_to s b.
Proof. intros Hn a b H L. replace b with (a + S (b - a - 1)) by lia. apply width_mono; [auto|lia]. Qed.
Lemma width_in s c : (forall x, In x (chans s) -> 0 < num_variants (snd x)) -> c < size s -> width_to s c < width s.
Proof. intros Hn H. pose proof (width_lt s Hn c (size s) H (le_n _)). unfold width, width_without_param. lia. Qed.

Section Sound.
  Variable R : cring.
  Notation sound := (sound R).
  Add Ring Rr : (rth R).
  Notation fits := (fits R).
  Notation whole := (whole R).

  (** ** The loop over the channels *)
  Definition value_of (p c : list R) (i : nat) (ch : channel) : R := match ch with Value _ => rsub (nth i c r0) (nth i p r0) | _ => nth i c r0 end.
  Lemma fill_is (f : sound) s p c : fits f s -> List.length p = sd_channels R f -> List.length c = sd_channels R f ->
    forall l i working, skipn i (chans s) = l -> i <= size s -> List.length working = width s ->
    exists w, fill R s p c i l working = Ok w /\ List.length w = width s /\
      (forall j n ch, i <= j -> nth_error (chans s) j = Some (n, ch) -> nth_error w (width_to s j) = Some (value_of p c j ch)) /\
      (forall d, (forall j, i <= j -> j < size s -> width_to s j <> d) -> nth_error w d = nth_error working d).
  Proof.
    intros [Hs Hn] Hp Hc. induction l as [|[n ch] l IH]; intros i working E Hi Hw; cbn [fill].
    - exists working. split; [reflexivity|]. split; [exact Hw|]. split; [|auto]. intros j n ch Hj Hj'. exfalso.
      assert (L : List.length (skipn i (chans s)) = 0) by (now rewrite E). rewrite skipn_length in L. assert (nth_error (chans s) j <> None) as A by congruence. apply nth_error_Some in A. lia.
    - assert (L : i < size s) by (assert (Q : List.length (skipn i (chans s)) = S (List.length l)) by (now rewrite E); rewrite skipn_length in Q; unfold size; lia).
      assert (N : nth_error (chans s) i = Some (n, ch)) by (rewrite <- (firstn_skipn i (chans s)), nth_error_app2 by (rewrite firstn_length; lia); rewrite firstn_length_le by (unfold size in *; lia); rewrite Nat.sub_diag, E; reflexivity).
      assert (E' : skipn (S i) (chans s) = l) by (rewrite <- (firstn_skipn i (chans s)) at 1; change (S i) with (1 + i); rewrite skipn_app, firstn_length_le by (unfold size in *; lia); rewrite skipn_all2 by (rewrite firstn_length_le; unfold size in *; lia); rewrite E; replace (1 + i - i) with 1 by lia; reflexivity).
      unfold channel_to_stream_dim. apply Nat.ltb_lt in L as L'. rewrite L'. cbn [bind]. unfold at_index. rewrite (nth_error_nth' c r0) by lia. cbn [bind]. rewrite (nth_error_nth' p r0) by lia. cbn [bind].
      assert (V : (if is_value ch then Ok (rsub (nth i c r0) (nth i p r0)) else Ok (nth i c r0)) = Ok (value_of p c i ch)) by (destruct ch; reflexivity). rewrite V. cbn [bind].
      unfold write_at. rewrite Hw. pose proof (width_in s i Hn L) as D. apply Nat.ltb_lt in D as D'. rewrite D'. cbn [bind].
      destruct (IH (S i) (upd working (width_to s i) (value_of p c i ch)) E' L) as (w & F & Lw & H1 & H2); [now rewrite upd_len|]. exists w. split; [exact F|]. split; [exact Lw|]. split.
      + intros j m k Hj Hk. destruct (Nat.eq_dec i j) as [<-|Ne]; [|apply (H1 j m k); [lia|exact Hk]]. rewrite N in Hk. injection Hk as <- <-. rewrite H2; [apply upd_same; lia|].
        intros j Hj1 Hj2. pose proof (width_lt s Hn i j ltac:(lia) ltac:(lia)). lia.
      + intros d Hd. rewrite H2; [|intros j Hj Hj'; apply Hd; lia]. apply upd_other. apply Hd; lia.
  Qed.
  (** ** Rows *)
  Lemma frame_len (f : sound) pos : whole f -> List.length (read_frame R f pos) = sd_channels R f.
  Proof.
    intros [_ H]. unfold read_frame. destruct (nth_error (sd_frames R f) pos) eqn:E; [|apply repeat_length]. rewrite Forall_forall in H. apply H. eapply nth_error_In; eauto.
  Qed.
  Lemma frame_sample (f : sound) pos c : pos < List.length (sd_frames R f) -> nth c (read_frame R f pos) r0 = sample R f pos c.
  Proof. intros H. unfold read_frame, sample. now rewrite (nth_error_nth' _ [] H). Qed.
  Lemma rows_are (f : sound) s : whole f -> fits f s -> forall n pos working, 0 < pos -> pos + n <= List.length (sd_frames R f) -> List.length working = width s ->
    (forall d, d < width s -> (forall c, c < size s -> width_to s c <> d) -> nth_error working d = Some r0) ->
    exists rows, read_rows R f s n pos (read_frame R f (pos - 1)) working = Ok rows /\ List.length rows = n /\ rows_of R f s pos rows.
  Proof.
    intros W Fi. induction n as [|n IH]; intros pos working H0 Hp Hw Hz; cbn [read_rows]; [exists []; cbn; auto|].
    destruct (fill_is f s (read_frame R f (pos - 1)) (read_frame R f pos) Fi (frame_len f _ W) (frame_len f _ W) (chans s) 0 working eq_refl ltac:(lia) Hw) as (w & F & Lw & H1 & H2).
    rewrite F. cbn [bind].
    assert (Zw : forall d, d < width s -> (forall c, c < size s -> width_to s c <> d) -> nth_error w d = Some r0) by (intros d Hd Hc; rewrite H2 by (intros j _ Hj; now apply Hc); now apply Hz).
    destruct (IH (S pos) w ltac:(lia) ltac:(lia) Lw Zw) as (rows & E & L & Rs). replace (S pos - 1) with pos in E by lia. rewrite E. cbn [bind]. exists (w :: rows).
    split; [reflexivity|]. split; [cbn; lia|]. cbn [rows_of]. split; [|exact Rs]. split; [exact Lw|]. split; [|exact Zw].
    intros c m ch Hc. rewrite (H1 c m ch ltac:(lia) Hc). f_equal. unfold value_of, entry. rewrite !frame_sample by lia. reflexivity.
  Qed.
  Lemma rows_length (f : sound) s : forall n pos p w rows, read_rows R f s n pos p w = Ok rows -> List.length rows = n.
  Proof.
    induction n as [|n IH]; intros pos p w rows; cbn [read_rows]; [now intros [= <-]|]. destruct fill; cbn [bind]; try discriminate.
    destruct read_rows as [r| | |] eqn:E; cbn [bind]; try discriminate. intros [= <-]. cbn. f_equal. eauto.
  Qed.
  (** a row is determined *)
  Lemma row_unique (f : sound) s n a b : fits f s -> row_of R f s n a -> row_of R f s n b -> a = b.
  Proof.
    intros [Hs Hn] (La & Ca & Za) (Lb & Cb & Zb). apply nth_ext. intros d. destruct (Nat.lt_ge_cases d (width s)) as [L|L].
    - destruct (in_dec Nat.eq_dec d (map (width_to s) (seq 0 (size s)))) as [I|I].
      + apply in_map_iff in I as (c & <- & I). apply in_seq in I. destruct (channel_at s c) as (m & ch & E); [lia|]. now rewrite (Ca c m ch E), (Cb c m ch E).
      + assert (X : forall c, c < size s -> width_to s c <> d) by (intros c Hc E; apply I, in_map_iff; exists c; split; [exact E|apply in_seq; lia]). now rewrite (Za d L X), (Zb d L X).
    - transitivity (@None R); [|symmetry]; apply nth_error_None; lia.
  Qed.
  Lemma rows_unique (f : sound) s : fits f s -> forall a b n, List.length a = List.length b -> rows_of R f s n a -> rows_of R f s n b -> a = b.
  Proof.
    intros Fi. induction a as [|x a IH]; intros [|y b] n L; cbn in L; try discriminate; auto. intros [H1 H2] [H3 H4]. f_equal; [eapply row_unique; eauto|]. eapply IH; eauto.
  Qed.
  Lemma rows_app (f : sound) s : forall a b n, rows_of R f s n (a ++ b) <-> rows_of R f s n a /\ rows_of R f s (n + List.length a) b.
  Proof.
    induction a as [|x a IH]; intros b n; cbn [app rows_of List.length]; [rewrite Nat.add_0_r; tauto|]. rewrite IH. replace (n + S (List.length a)) with (S n + List.length a) by lia. tauto.
  Qed.
  (** ** Frames of times *)
  Lemma frame_first (f : sound) p : first_at R f p (param_to_frame R f p).
  Proof.
    unfold first_at, param_to_frame. assert (E : ((p - 0) * 1 * inject_Z (sd_rate R f) == p * inject_Z (sd_rate R f))%Q) by ring. split.
    - rewrite <- E at 1. apply Qle_ceiling.
    - rewrite <- E. pose proof (Qceiling_lt ((p - 0) * 1 * inject_Z (sd_rate R f))) as H. unfold Z.sub in H. rewrite inject_Z_plus in H. exact H.
  Qed.
  Lemma first_unique (f : sound) p a b : first_at R f p a -> first_at R f p b -> a = b.
  Proof.
    intros [A1 A2] [B1 B2]. assert (X : (inject_Z a - 1 < inject_Z b)%Q) by (eapply Qlt_le_trans; eauto). assert (Y : (inject_Z b - 1 < inject_Z a)%Q) by (eapply Qlt_le_trans; eauto).
    change 1%Q with (inject_Z 1) in X, Y. unfold Qminus in X, Y. rewrite <- inject_Z_opp, <- inject_Z_plus, <- Zlt_Qlt in X, Y. lia.
  Qed.
  Lemma frame_mono (f : sound) p q : (0 < sd_rate R f)%Z -> (p <= q)%Q -> (param_to_frame R f p <= param_to_frame R f q)%Z.
  Proof.
    intros Hr H. unfold param_to_frame. apply Qceiling_resp_le. apply Qmult_le_compat_r; [|change 0%Q with (inject_Z 0); rewrite <- Zle_Qle; lia].
    apply Qmult_le_compat_r; [|discriminate]. unfold Qminus. apply Qplus_le_compat; [exact H|apply Qle_refl].
  Qed.
  (** ** Queries *)
  Definition from_frame (b : Z) : nat := Z.to_nat (Z.max 1 b).
  Theorem query_is (f : sound) s p q b e : whole f -> fits f s -> (p <= q)%Q -> first_at R f p b -> first_at R f q e ->
    (b = e -> query R f s p q = Ok []) /\
    (b <> e -> (0 <= b)%Z -> (e <= num_frames R f)%Z -> exists rows, query R f s p q = Ok rows /\ List.length rows = Z.to_nat e - from_frame b /\ rows_of R f s (from_frame b) rows) /\
    (b <> e -> (b < 0 \/ num_frames R f < e)%Z -> query R f s p q = Throw).
  Proof.
    intros W Fi Hpq Hb He. apply (first_unique _ _ _ _ (frame_first f p)) in Hb. apply (first_unique _ _ _ _ (frame_first f q)) in He.
    pose proof (frame_mono f p q (proj1 W) Hpq) as M. unfold query. rewrite Hb, He in *. split; [|split].
    - intros ->. now rewrite Z.eqb_refl.
    - intros Ne H0 H1. destruct (Z.eqb_spec b e); [contradiction|]. set (b1 := if Z.eqb b 0 then 1%Z else b). assert (B : b1 = Z.max 1 b) by (unfold b1; destruct (Z.eqb_spec b 0); lia).
      assert (C : (Z.ltb 0 b1 && Z.leb b1 e && Z.leb e (num_frames R f))%bool = true) by (rewrite !andb_true_iff, Z.ltb_lt, !Z.leb_le; lia). rewrite C.
      unfold num_frames in H1. replace (Z.to_nat (b1 - 1)) with (Z.to_nat b1 - 1) by lia.
      destruct (rows_are f s W Fi (Z.to_nat (e - b1)) (Z.to_nat b1) (repeat r0 (width s))) as (rows & E & L & Rs); [lia|lia|apply repeat_length| |].
      { intros d Hd _. now apply nth_error_repeat. }
      exists rows. split; [exact E|]. unfold from_frame. rewrite <- B. split; [lia|exact Rs].
    - intros Ne H. destruct (Z.eqb_spec b e); [contradiction|]. destruct (Z.eqb_spec b 0).
      + subst b. assert (C : (Z.ltb 0 1 && Z.leb 1 e && Z.leb e (num_frames R f))%bool = false) by (apply not_true_iff_false; rewrite !andb_true_iff, !Z.leb_le; lia). now rewrite C.
      + assert (C : (Z.ltb 0 b && Z.leb b e && Z.leb e (num_frames R f))%bool = false) by (apply not_true_iff_false; rewrite !andb_true_iff, Z.ltb_lt, !Z.leb_le; lia). now rewrite C.
  Qed.
  (** queries of adjacent intervals give the rows of the whole one *)
  Theorem query_split (f : sound) s p q r rows : whole f -> fits f s -> (p <= q)%Q -> (q <= r)%Q -> query R f s p r = Ok rows ->
    exists a b, query R f s p q = Ok a /\ query R f s q r = Ok b /\ rows = a ++ b.
  Proof.
    intros W Fi H1 H2 H. assert (H3 : (p <= r)%Q) by (eapply Qle_trans; eauto). pose proof (frame_first f p) as P. pose proof (frame_first f q) as Q. pose proof (frame_first f r) as T.
    pose proof (frame_mono f p q (proj1 W) H1) as M1. pose proof (frame_mono f q r (proj1 W) H2) as M2.
    set (x := param_to_frame R f p) in *. set (y := param_to_frame R f q) in *. set (z := param_to_frame R f r) in *.
    destruct (query_is f s p r x z W Fi H3 P T) as (A1 & A2 & A3). destruct (query_is f s p q x y W Fi H1 P Q) as (B1 & B2 & B3). destruct (query_is f s q r y z W Fi H2 Q T) as (C1 & C2 & C3).
    destruct (Z.eq_dec x z) as [E|Ne].
    - rewrite (A1 E) in H. injection H as <-. exists [], []. rewrite B1, C1 by lia. auto.
    - destruct (Z.lt_ge_cases x 0) as [X|X]; [rewrite A3 in H by auto; discriminate|]. destruct (Z.lt_ge_cases (num_frames R f) z) as [Y|Y]; [rewrite A3 in H by auto; discriminate|].
      destruct (A2 Ne X Y) as (rows' & E' & L & Rs). rewrite H in E'. injection E' as <-.
      destruct (Z.eq_dec x y) as [E1|N1].
      { rewrite (B1 E1). destruct (C2 ltac:(lia) ltac:(lia) Y) as (b & Eb & Lb & Rb). exists [], b. split; [reflexivity|]. split; [exact Eb|]. cbn [app].
        rewrite <- E1 in Lb, Rb. eapply rows_unique; [exact Fi| |exact Rs|exact Rb]. lia. }
      destruct (B2 N1 X ltac:(lia)) as (a & Ea & La & Ra). destruct (Z.eq_dec y z) as [E2|N2].
      { rewrite (C1 E2). exists a, []. split; [exact Ea|]. split; [reflexivity|]. rewrite app_nil_r. rewrite E2 in La. eapply rows_unique; [exact Fi| |exact Rs|exact Ra]. lia. }
      destruct (C2 N2 ltac:(lia) Y) as (b & Eb & Lb & Rb). exists a, b. split; [exact Ea|]. split; [exact Eb|]. unfold from_frame in *.
      eapply rows_unique; [exact Fi| |exact Rs|].
      + rewrite app_length. lia.
      + apply rows_app. split; [exact Ra|]. rewrite La. replace (Z.to_nat (Z.max 1 x) + (Z.to_nat y - Z.to_nat (Z.max 1 x))) with (Z.to_nat (Z.max 1 y)) by lia. exact Rb.
  Qed.
  (** the rows of a value channel add up to the change of the samples *)
  Lemma value_sum (f : sound) s c n ll : nth_error (chans s) c = Some (n, Value ll) -> forall rows b, 0 < b -> rows_of R f s b rows ->
    sum rows (fun r => nth (width_to s c) r r0) = rsub (sample R f (b + List.length rows - 1) c) (sample R f (b - 1) c).
  Proof.
    intros Hc. induction rows as [|r rows IH]; intros b H0; cbn [rows_of sum List.length]; [intros _; rewrite Nat.add_0_r; ring|]. intros [(_ & Hr & _) Rs].
    specialize (Hr c n _ Hc). apply nth_error_nth with (d := r0) in Hr. rewrite Hr, (IH (S b)) by (auto; lia). unfold entry. replace (S b - 1) with b by lia. replace (S b + List.length rows - 1) with (b + S (List.length rows) - 1) by lia. ring.
  Qed.
  Theorem query_total (f : sound) s p q b e rows c n ll : whole f -> fits f s -> (p <= q)%Q -> first_at R f p b -> first_at R f q e -> b <> e -> query R f s p q = Ok rows ->
    nth_error (chans s) c = Some (n, Value ll) ->
    sum rows (fun r => nth (width_to s c) r r0) = rsub (sample R f (Z.to_nat (e - 1)) c) (sample R f (Z.to_nat (b - 1)) c).
  Proof.
    intros W Fi Hpq Hb He Ne H Hc. destruct (query_is f s p q b e W Fi Hpq Hb He) as (_ & A & B).
    pose proof (frame_mono f p q (proj1 W) Hpq) as M. rewrite (first_unique _ _ _ _ (frame_first f p) Hb), (first_unique _ _ _ _ (frame_first f q) He) in M.
    destruct (Z.lt_ge_cases b 0) as [X|X]; [rewrite B in H by auto; discriminate|]. destruct (Z.lt_ge_cases (num_frames R f) e) as [Y|Y]; [rewrite B in H by auto; discriminate|].
    destruct (A Ne X Y) as (rows' & E & L & Rs). rewrite H in E. injection E as <-. unfold from_frame in *. rewrite (value_sum f s c n ll Hc rows (Z.to_nat (Z.max 1 b)) ltac:(lia) Rs). clear - L M X Ne. rewrite L.
    replace (Z.to_nat (Z.max 1 b) + (Z.to_nat e - Z.to_nat (Z.max 1 b)) - 1) with (Z.to_nat (e - 1)) by lia. replace (Z.to_nat (Z.max 1 b) - 1) with (Z.to_nat (b - 1)) by lia. reflexivity.
  Qed.
End Sound.
