(** Specification for streams of sound files. *)
From Coq Require Import ZArith QArith List Bool String.
Import ListNotations.
From Verif Require Import Outcome Alg SchemaModel PsModel SfModel.
Open Scope nat_scope.

Section Spec.
  Variable R : cring.
  (** the sample of a channel of a frame *)
  Definition sample (f : sound R) (frame : nat) (c : nat) : R := nth c (nth frame (sd_frames R f) []) r0.
  (** every frame has a sample for each channel *)
  Definition whole (f : sound R) : Prop := (0 < sd_rate R f)%Z /\ Forall (fun x => List.length x = sd_channels R f) (sd_frames R f).
  (** the first frame at or after a time: the least integer that is at least the time in frames *)
  Definition first_at (f : sound R) (p : Q) (n : Z) : Prop := (p * inject_Z (sd_rate R f) <= inject_Z n /\ inject_Z n - 1 < p * inject_Z (sd_rate R f))%Q.
  (** the schema has no more channels than the file, and each has a dimension *)
  Definition fits (f : sound R) (s : schema) : Prop := size s <= sd_channels R f /\ (forall x, In x (chans s) -> 0 < num_variants (snd x)).
  (** the row of a frame: channel c at its dimension (the difference to the frame before for values), all else 0 *)
  Definition entry (f : sound R) (frame c : nat) (ch : channel) : R :=
    match ch with Value _ => rsub (sample f frame c) (sample f (frame - 1) c) | _ => sample f frame c end.
  Definition row_of (f : sound R) (s : schema) (frame : nat) (row : list R) : Prop :=
    List.length row = width s /\
    (forall c n ch, nth_error (chans s) c = Some (n, ch) -> nth_error row (width_to s c) = Some (entry f frame c ch)) /\
    (forall d, d < width s -> (forall c, c < size s -> width_to s c <> d) -> nth_error row d = Some r0).
  (** one row for each frame from b on *)
  Fixpoint rows_of (f : sound R) (s : schema) (b : nat) (rows : list (list R)) : Prop :=
    match rows with [] => True | r :: rows => row_of f s b r /\ rows_of f s (S b) rows end.
End Spec.
