(** Vocabulary for the properties of CacheArray. *)
From Verif Require Export CarrModel.
Open Scope Z_scope.

Section Spec.
  Context {T : Type}.
  Variable I : Z.
  (** The sizes asked for (construction and resizes), newest first. *)
  Definition requests (size : Z) (us : list (use T)) : list Z :=
    fold_left (fun rs u => match u with Resize n _ => n :: rs | _ => rs end) us [size].
  Definition last_request (rs : list Z) : Z := hd 0 rs.
  (** The newest request, but a request for at most [I] elements made directly after another
      such request does not count. *)
  Fixpoint shown (rs : list Z) : Z :=
    match rs with
    | [] => 0
    | n :: rs' => if (n <=? I) && match rs' with [] => false | m :: _ => m <=? I end then shown rs' else n
    end.
  (** How often a request for more than [I] is directly followed by one for at most [I]. *)
  Fixpoint drops (rs : list Z) : nat :=
    match rs with
    | n :: (m :: _) as rs' => if (n <=? I) && (m >? I) then S (drops rs') else drops rs'
    | _ => O
    end.
  (** The greatest of the latest requests, as far back as they exceed [I]. *)
  Fixpoint top (rs : list Z) : Z :=
    match rs with [] => 0 | n :: rs' => if n >? I then Z.max n (top rs') else 0 end.
  (** The value last written at [i], if there was no resize since. *)
  Definition last_write (us : list (use T)) (i : Z) : option T :=
    fold_left (fun o u => match u with Resize _ _ => None | Write j v _ => if i =? j then Some v else o | _ => o end) us None.
  (** All sizes are non-negative, all indices below the newest requested size. *)
  Fixpoint proper (req : Z) (us : list (use T)) : Prop :=
    match us with
    | [] => True
    | Resize n _ :: us => 0 <= n /\ proper n us
    | Write i _ _ :: us => 0 <= i < req /\ proper req us
    | Read i :: us => 0 <= i < req /\ proper req us
    | _ :: us => proper req us
    end.
  (** What the answers are. *)
  Definition answers_ok (size : Z) (us : list (use T)) (l : list (told T)) : Prop :=
    length l = length us /\
    forall p, match nth_error us p with
      | Some (Read i) => exists x, nth_error l p = Some (Value x) /\ forall v, last_write (firstn p us) i = Some v -> x = v
      | Some Size => nth_error l p = Some (Count (shown (requests size (firstn p us))))
      | Some Capacity => nth_error l p = Some (Count (if shown (requests size (firstn p us)) <=? I then I else top (requests size (firstn p us))))
      | _ => True
      end.
  (** Requests that never shrink, only the first of which may be at most [I]. *)
  Fixpoint growing (rs : list Z) : Prop := match rs with n :: (m :: _) as rs' => m <= n /\ I < n /\ growing rs' | _ => True end.
End Spec.
