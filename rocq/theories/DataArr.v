(** Arrays given through DLPack. *)
From Verif Require Export DataProofs3.
Open Scope Z_scope.

Section Arr.
  Variable V : Type.
  Variable of_int : Z -> V.
  Variable conv : stype -> V -> option V.
  Variable zero : stype -> V.
  Notation pyval := (pyval V).
  Notation arr := (arr V).
  Notation convert_copy := (convert_copy conv).
  Notation copy_loop := (copy_loop conv).
  Notation stride_copy := (stride_copy conv).
  Notation value_at := (value_at conv).

  (** the value at an offset, if it is [ok] *)
  Definition val (t : stype) (a : arr) (o : Z) : V := match a_held a o with Some v => match conv t v with Some x => x | None => zero t end | None => zero t end.
  Definition ok (t : stype) (a : arr) (o : Z) : Prop := exists x, value_at t (a_held a o) x.
  Lemma ok_val t a o : ok t a o -> exists v, a_held a o = Some v /\ conv t v = Some (val t a o).
  Proof. intros (x & v & H1 & H2). exists v. unfold val. rewrite H1, H2. auto. Qed.

  Lemma set_nth_length {A} n (x : A) l : length (set_nth n x l) = length l.
  Proof. revert n; induction l as [|y l IH]; intros [|n]; cbn; auto. Qed.
  Lemma set_nth_error {A} n (x : A) l k : (n < length l)%nat -> nth_error (set_nth n x l) k = if (k =? n)%nat then Some x else nth_error l k.
  Proof.
    revert n k. induction l as [|y l IH]; intros [|n] k H; cbn in H; try lia; destruct k; cbn; try reflexivity. apply IH. lia.
  Qed.

  Definition zn (k : nat) : Z := Z.of_nat k.
  Lemma convert_copy_spec t a b n : readable_info (a_info a) = true -> forall src off out, (off + n <= length out)%nat -> (forall i, (i < n)%nat -> ok t a (src + zn i * b)) ->
    exists out', convert_copy t a b n src off out = Ok out' /\ length out' = length out /\
      forall k, nth_error out' k = if ((off <=? k) && (k <? off + n))%nat then Some (val t a (src + zn (k - off) * b)) else nth_error out k.
  Proof.
    intros Hr. unfold DataModel.convert_copy. rewrite Hr. induction n as [|n IH]; intros src off out Hl Hok.
    - exists out. split; [reflexivity|]. split; [reflexivity|]. intros k. replace ((off <=? k) && (k <? off + 0))%nat with false; [reflexivity|]. symmetry. apply andb_false_iff.
      destruct (Nat.leb_spec off k); [right; apply Nat.ltb_ge; lia|left; reflexivity].
    - cbn [copy_elems]. destruct (ok_val t a (src + zn 0 * b) (Hok O ltac:(lia))) as (v & Hv & Hc). rewrite Z.mul_0_l, Z.add_0_r in Hv, Hc. unfold read. rewrite Hv. cbn [bind]. rewrite Hc.
      destruct (IH (src + b) (S off) (set_nth off (val t a src) out)) as (out' & H1 & H2 & H3).
      + rewrite set_nth_length. lia.
      + intros i Hi. replace (src + b + zn i * b) with (src + zn (S i) * b) by (unfold zn; lia). apply Hok. lia.
      + exists out'. split; [exact H1|]. split; [rewrite H2; apply set_nth_length|]. intros k. rewrite H3. rewrite set_nth_error by lia.
        destruct (Nat.leb_spec (S off) k), (Nat.leb_spec off k), (Nat.ltb_spec k (S off + n)), (Nat.ltb_spec k (off + S n)), (Nat.eqb_spec k off); cbn [andb]; try lia; try reflexivity.
        * f_equal. f_equal. unfold zn. replace (Z.of_nat (k - off)) with (Z.of_nat (k - S off) + 1) by lia. lia.
        * subst k. rewrite Nat.sub_diag. cbn. rewrite Z.add_0_r. reflexivity.
  Qed.
  Lemma read_elems_spec t a b n : held_info (a_info a) = a_info a -> forall src, (forall i, (i < n)%nat -> ok t a (src + zn i * b)) -> (forall o v, a_held a o = Some v -> conv t v = Some v) ->
    exists out, read_elems a b n src = Ok out /\ length out = n /\ forall k, (k < n)%nat -> nth_error out k = Some (val t a (src + zn k * b)).
  Proof.
    intros Hh. induction n as [|n IH]; intros src Hok Hs; [exists []; repeat split; intros; lia|].
    destruct (ok_val t a (src + zn 0 * b) (Hok O ltac:(lia))) as (v & Hv & Hc). rewrite (Hs _ _ Hv) in Hc.
    assert (E0 : src + zn 0 * b = src) by (cbn; lia). rewrite E0 in Hv, Hc. injection Hc as Hc. cbn [read_elems]. unfold read_typed. unfold a_held in Hv. rewrite Hh in Hv. rewrite Hv. cbn [bind].
    destruct (IH (src + b)) as (out & H1 & H2 & H3); [|exact Hs|].
    + intros i Hi. replace (src + b + zn i * b) with (src + zn (S i) * b) by (unfold zn; lia). apply Hok. lia.
    + rewrite H1. cbn [bind]. exists (v :: out). split; [reflexivity|]. split; [cbn; lia|]. intros [|k] Hk; cbn [nth_error].
      * cbn. rewrite Z.add_0_r. congruence.
      * rewrite H3 by lia. f_equal. f_equal. unfold zn. lia.
  Qed.

  (** One index: chunk [i] of [csz] elements goes to offset [i]. *)
  Lemma loop1 t a b m sh s0 st csz : readable_info (a_info a) = true -> forall fuel i out, (m - i <= fuel)%nat -> (i <= m)%nat -> (m + csz <= length out + 1)%nat -> (0 < m)%nat ->
    (forall p q, (p < m)%nat -> (q < csz)%nat -> ok t a (zn p * s0 + zn q * b)) ->
    exists out', copy_loop fuel t a b (zn m :: sh) (s0 :: st) (zn csz) [zn i] out = Ok out' /\ length out' = length out /\
      forall k, nth_error out' k = let p := Nat.min k (m - 1) in if ((i <=? p) && (k <? p + csz))%nat then Some (val t a (zn p * s0 + zn (k - p) * b)) else nth_error out k.
  Proof.
    intros Hr. induction fuel as [|fuel IH]; intros i out Hf Hi Hl Hm Hok.
    - assert (i = m) by lia. subst i. cbn [DataModel.copy_loop hd]. rewrite Z.ltb_irrefl. exists out. split; [reflexivity|]. split; [reflexivity|]. intros k. cbv zeta.
      replace (m <=? Nat.min k (m - 1))%nat with false by (symmetry; apply Nat.leb_gt; lia). reflexivity.
    - cbn [DataModel.copy_loop hd]. destruct (Z.ltb_spec (zn i) (zn m)) as [Hlt|Hge].
      + unfold zn in Hlt. cbn [firstn length dst_offset last removelast tl dotp]. unfold dst_offset. cbn [last removelast tl dotp]. rewrite Z.add_0_r.
        unfold llen. replace (zn i + zn csz >? Z.of_nat (length out)) with false by (symmetry; rewrite Z.gtb_ltb; apply Z.ltb_ge; unfold zn; lia).
        replace (dotp st []) with 0 by (destruct st; reflexivity). rewrite ?Z.add_0_r. replace (Z.to_nat (zn i)) with i by (unfold zn; lia). replace (Z.to_nat (zn csz)) with csz by (unfold zn; lia).
        destruct (convert_copy_spec t a b csz Hr (s0 * zn i) i out) as (o1 & H1 & H2 & H3); [lia|intros q Hq; rewrite Z.mul_comm; apply Hok; lia|].
        rewrite H1. cbn [bind]. assert (Ha : advance_index (zn m :: sh) [zn i] = [zn (S i)]) by (unfold advance_index; cbn; f_equal; unfold zn; lia). rewrite Ha.
        destruct (IH (S i) o1) as (o2 & G1 & G2 & G3); try lia; [exact Hok|]. exists o2. split; [exact G1|]. split; [lia|]. intros k. rewrite G3. rewrite H3. cbv zeta.
        destruct (Nat.leb_spec (S i) (Nat.min k (m - 1))), (Nat.ltb_spec k (Nat.min k (m - 1) + csz)), (Nat.leb_spec i (Nat.min k (m - 1))), (Nat.leb_spec i k), (Nat.ltb_spec k (i + csz)); cbn [andb]; try lia; try reflexivity.
        replace (Nat.min k (m - 1)) with i by lia. rewrite (Z.mul_comm s0). reflexivity.
      + unfold zn in Hge. assert (i = m) by lia. subst i. exists out. split; [reflexivity|]. split; [reflexivity|]. intros k. cbv zeta.
        replace (m <=? Nat.min k (m - 1))%nat with false by (symmetry; apply Nat.leb_gt; lia). reflexivity.
  Qed.

  Lemma divu n p q i j : (q < n)%nat -> (j < n)%nat -> (p * n + q = i * n + j)%nat -> p = i /\ q = j.
  Proof. intros Hq Hj H. apply (Nat.div_mod_unique n); [exact Hq|exact Hj|]. rewrite (Nat.mul_comm n p), (Nat.mul_comm n i). exact H. Qed.
  (** Two indices, one element at a time. *)
  Lemma loop2 t a b m n s0 s1 : readable_info (a_info a) = true -> forall fuel i j out, (m * n <= fuel + (i * n + j))%nat -> (i <= m)%nat -> (j < n)%nat -> length out = (m * n)%nat ->
    (forall p q, (p < m)%nat -> (q < n)%nat -> ok t a (zn p * s0 + zn q * s1)) ->
    exists out', copy_loop fuel t a b [zn m; zn n] [s0; s1] 1 [zn i; zn j] out = Ok out' /\ length out' = length out /\
      forall p q, (p < m)%nat -> (q < n)%nat -> nth_error out' (p * n + q) = if (i * n + j <=? p * n + q)%nat then Some (val t a (zn p * s0 + zn q * s1)) else nth_error out (p * n + q).
  Proof.
    intros Hr. induction fuel as [|fuel IH]; intros i j out Hf Hi Hj Hl Hok.
    - assert (i = m) by nia. subst i. cbn [DataModel.copy_loop hd]. rewrite Z.ltb_irrefl. exists out. split; [reflexivity|]. split; [reflexivity|]. intros p q Hp Hq.
      replace (m * n + j <=? p * n + q)%nat with false by (symmetry; apply Nat.leb_gt; nia). reflexivity.
    - cbn [DataModel.copy_loop hd]. destruct (Z.ltb_spec (zn i) (zn m)) as [Hlt|Hge].
      + unfold zn in Hlt. cbn [firstn length]. unfold dst_offset. cbn [last removelast tl dotp]. rewrite Z.add_0_r.
        assert (Hb : (i * n + j < m * n)%nat) by (assert (S i * n <= m * n)%nat by (apply Nat.mul_le_mono_r; lia); lia).
        assert (Ho : zn j + zn n * zn i = zn (i * n + j)) by (unfold zn; rewrite Nat2Z.inj_add, Nat2Z.inj_mul; lia). rewrite Ho.
        unfold llen. replace (zn (i * n + j) + 1 >? Z.of_nat (length out)) with false by (symmetry; rewrite Z.gtb_ltb; apply Z.ltb_ge; unfold zn; rewrite Hl; apply Z.le_succ_l; apply Nat2Z.inj_lt; exact Hb).
        rewrite ?Z.add_0_r. change (Z.to_nat 1) with 1%nat. replace (Z.to_nat (zn (i * n + j))) with (i * n + j)%nat by (unfold zn; rewrite Nat2Z.id; reflexivity).
        destruct (convert_copy_spec t a b 1 Hr (s0 * zn i + s1 * zn j) (i * n + j) out) as (o1 & H1 & H2 & H3);
          [lia|intros q Hq; replace q with O by lia; cbn [zn Z.of_nat]; rewrite Z.mul_0_l, Z.add_0_r, (Z.mul_comm s0), (Z.mul_comm s1); apply Hok; lia|].
        rewrite H1. cbn [bind].
        assert (Ha : advance_index [zn m; zn n] [zn i; zn j] = if (S j <? n)%nat then [zn i; zn (S j)] else [zn (S i); zn 0]).
        { unfold advance_index. destruct (Nat.ltb_spec (S j) n); cbn [rev app firstn length adv_rev].
          - replace (zn j + 1 >=? zn n) with false by (symmetry; rewrite Z.geb_leb; apply Z.leb_gt; unfold zn; lia). cbn [rev app]. replace (zn j + 1) with (zn (S j)) by (unfold zn; lia). reflexivity.
          - replace (zn j + 1 >=? zn n) with true by (symmetry; rewrite Z.geb_leb; apply Z.leb_le; unfold zn; lia). cbn [rev app]. replace (zn i + 1) with (zn (S i)) by (unfold zn; lia). reflexivity. }
        rewrite Ha. destruct (Nat.ltb_spec (S j) n) as [Hj'|Hj'].
        * destruct (IH i (S j) o1) as (o2 & G1 & G2 & G3); try lia; [exact Hok|]. exists o2. split; [exact G1|]. split; [lia|]. intros p q Hp Hq. rewrite G3 by assumption. rewrite H3.
          destruct (Nat.leb_spec (i * n + S j) (p * n + q)), (Nat.leb_spec (i * n + j) (p * n + q)), (Nat.ltb_spec (p * n + q) (i * n + j + 1)); cbn [andb]; try lia; try reflexivity.
          assert (p = i /\ q = j) as [-> ->] by (apply (divu n); lia). rewrite Nat.sub_diag. cbn [zn Z.of_nat]. rewrite Z.mul_0_l, Z.add_0_r, (Z.mul_comm s0), (Z.mul_comm s1). reflexivity.
        * destruct (IH (S i) O o1) as (o2 & G1 & G2 & G3); try lia; [exact Hok|]. exists o2. split; [exact G1|]. split; [lia|]. intros p q Hp Hq. rewrite G3 by assumption. rewrite H3.
          destruct (Nat.leb_spec (S i * n + 0) (p * n + q)), (Nat.leb_spec (i * n + j) (p * n + q)), (Nat.ltb_spec (p * n + q) (i * n + j + 1)); cbn [andb]; try lia; try reflexivity.
          assert (p = i /\ q = j) as [-> ->] by (apply (divu n); lia). rewrite Nat.sub_diag. cbn [zn Z.of_nat]. rewrite Z.mul_0_l, Z.add_0_r, (Z.mul_comm s0), (Z.mul_comm s1). reflexivity.
      + unfold zn in Hge. assert (i = m) by lia. subst i. exists out. split; [reflexivity|]. split; [reflexivity|]. intros p q Hp Hq.
        replace (m * n + j <=? p * n + q)%nat with false by (symmetry; apply Nat.leb_gt; nia). reflexivity.
  Qed.

  Lemma cut_spec {A : Type} (n : nat) : forall m fuel (vals : list V), (0 < n)%nat -> length vals = (m * n)%nat -> (m <= fuel)%nat ->
    length (cut fuel n vals) = m /\ forall i, (i < m)%nat -> exists r, nth_error (cut fuel n vals) i = Some r /\ length r = n /\ forall j, (j < n)%nat -> nth_error r j = nth_error vals (i * n + j).
  Proof.
    induction m as [|m IH]; intros fuel vals Hn Hl Hf.
    - destruct vals; [|cbn in Hl; lia]. split; [destruct fuel; reflexivity|intros; lia].
    - destruct fuel as [|fuel]; [lia|]. destruct vals as [|v vals]; [cbn in Hl; lia|]. remember (v :: vals) as w eqn:Ew. assert (Ec : cut (S fuel) n w = firstn n w :: cut fuel n (skipn n w)) by (subst w; reflexivity). rewrite Ec.
      destruct (IH fuel (skipn n w) Hn) as [H1 H2]; [rewrite skipn_length; lia|lia|]. split; [cbn; lia|]. intros [|i] Hi.
      + exists (firstn n w). split; [reflexivity|]. split; [rewrite firstn_length; lia|]. intros j Hj. cbn. clear -Hj. revert n Hj. induction j as [|j IHj] in w |- *; intros n Hj; destruct n, w; cbn; try lia; try reflexivity. apply IHj. lia.
      + destruct (H2 i ltac:(lia)) as (r & R1 & R2 & R3). exists r. split; [exact R1|]. split; [exact R2|]. intros j Hj. rewrite R3 by exact Hj.
        assert (Hsk : forall (l : list V) n k, nth_error (skipn n l) k = nth_error l (n + k)) by (clear; induction l; intros [|n] k; cbn; auto; destruct k; reflexivity). rewrite Hsk. f_equal. lia.
  Qed.
End Arr.
