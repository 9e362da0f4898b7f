(** Sound files that meet the hypotheses, and cases in which more would be false. *)
From Coq Require Import ZArith QArith Qround List Bool String Lia.
Import ListNotations.
From Verif Require Import Outcome Alg SchemaModel SchemaProofs PsModel PtPadWhole SfModel SfSpec SfProofs SfWhole.
Open Scope nat_scope.
Open Scope list_scope.

(** two channels, five frames, two frames a second *)
Definition stereo : sound Zcr := mkSound Zcr [[1; 10]; [2; 20]; [4; 40]; [7; 70]; [11; 110]]%Z 2 2%Z 0.
Definition triple : sound Zcr := mkSound Zcr [[1; 10; 5]; [2; 20; 6]; [4; 40; 7]]%Z 3 2%Z 0.
Definition plain_uri : kwargs := mkKw None None None None None (Some 2%Z) None.
Definition value_uri : kwargs := mkKw None (Some (PType TValue)) None None None (Some 2%Z) None.
Definition timed_uri : kwargs := mkKw None None (Some (PTruth true)) None None (Some 2%Z) None.
Definition named_uri (d : list (pobj * pobj)) : kwargs := mkKw None (Some (PDict d)) None None None (Some 2%Z) None.
Definition vv : schema := mkSch [("l", Value false); ("r", Increment false)]%string true false.
Definition shown_rows (f : sound Zcr) (k : kwargs) (p q : Q) : outcome (list (list Z)) := let! st := from_uri Zcr f k in increments Zcr f st (snd (ss_ctx st)) p q.

Example stereo_whole : whole Zcr stereo /\ whole Zcr triple.
Proof. split; (split; [reflexivity|repeat constructor]). Qed.
Example vv_fits : fits Zcr stereo vv.
Proof. split; [cbn; lia|]. intros x [<-|[<-|[]]]; cbn; lia. Qed.
Example stereo_first : first_at Zcr stereo (2 # 5) 1 /\ first_at Zcr stereo 2 4.
Proof. split; split; vm_compute; congruence. Qed.
Example stereo_query : query Zcr stereo vv (2 # 5) 2 = Ok [[1; 20]; [2; 40]; [3; 70]]%Z /\ query Zcr stereo vv (2 # 5) 1 = Ok [[1; 20]]%Z /\ query Zcr stereo vv 1 2 = Ok [[2; 40]; [3; 70]]%Z /\
  query Zcr stereo vv 0 1 = Ok [[1; 20]]%Z /\ query Zcr stereo vv 1 3 = Throw /\ query Zcr stereo vv 7 7 = Ok [].
Proof. repeat split; vm_compute; reflexivity. Qed.
Example stereo_uri : only_type plain_uri TIncrement /\ timed plain_uri = false /\ (exists st, from_uri Zcr stereo plain_uri = Ok st) /\ shown_rows stereo plain_uri (2 # 5) 2 = Ok [[2; 20]; [4; 40]; [7; 70]]%Z.
Proof. split; [split; [reflexivity|left; split; reflexivity]|]. split; [reflexivity|]. split; [eexists; vm_compute; reflexivity|vm_compute; reflexivity]. Qed.
(** the channel type asked for is not that of the channels: they are increments, not differences of values *)
Theorem value_type_refuted : ~ (forall (f : sound Zcr) k st, whole Zcr f -> only_type k TValue -> from_uri Zcr f k = Ok st -> forall x, In x (chans (ss_schema st)) -> is_value (snd x) = true).
Proof.
  intros H. destruct (from_uri Zcr stereo value_uri) as [st| | |] eqn:E; try (vm_compute in E; discriminate).
  specialize (H stereo value_uri st (proj1 stereo_whole) ltac:(split; [reflexivity|right; reflexivity]) E ("0"%string, Increment false)).
  rewrite (uri_plain Zcr stereo value_uri TValue st ltac:(split; [reflexivity|right; reflexivity]) eq_refl E) in H. specialize (H ltac:(left; reflexivity)). discriminate.
Qed.
(** a time channel that is asked for stays 0, and the last channel of the file is lost *)
Example timed_rows : shown_rows stereo timed_uri 0 2 = Ok [[2; 0]; [4; 0]; [7; 0]]%Z.
Proof. vm_compute. reflexivity. Qed.
Theorem time_refuted : ~ (forall (f : sound Zcr) k st p q rows, whole Zcr f -> timed k = true -> from_uri Zcr f k = Ok st -> increments Zcr f st (snd (ss_ctx st)) p q = Ok rows ->
  forall r, In r rows -> nth (width (ss_schema st) - 1) r 0%Z <> 0%Z).
Proof.
  intros H. destruct (from_uri Zcr stereo timed_uri) as [st| | |] eqn:E; try (vm_compute in E; discriminate). pose proof timed_rows as T. unfold shown_rows in T. rewrite E in T. cbn [bind] in T.
  specialize (H stereo timed_uri st 0%Q 2%Q _ (proj1 stereo_whole) eq_refl E T [2; 0]%Z (or_introl eq_refl)). vm_compute in E. injection E as <-. apply H. reflexivity.
Qed.
(** a channel named by a number stops the adding of channels, and the rows are then read out of range *)
Theorem defined_refuted : ~ (forall (f : sound Zcr) k st p q, whole Zcr f -> from_uri Zcr f k = Ok st -> (0 <= p)%Q -> (p <= q)%Q -> (q <= ss_end st)%Q -> increments Zcr f st (snd (ss_ctx st)) p q <> UB).
Proof.
  intros H. destruct (from_uri Zcr triple (named_uri [(PStr "1", PType TIncrement)])) as [st| | |] eqn:E; try (vm_compute in E; discriminate).
  specialize (H triple (named_uri [(PStr "1", PType TIncrement)]) st 0%Q 1%Q (proj2 stereo_whole) E). vm_compute in E. injection E as <-.
  apply H; vm_compute; congruence.
Qed.
