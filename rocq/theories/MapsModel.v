(** Lifetimes of the implementation objects behind lal::maps (vendored/libalgebra_lite/maps.cpp).
    Only allocation and deallocation are modelled here: an implementation object is a number, the heap
    says for each whether it is still allocated. *)
From Coq Require Import ZArith List Bool Lia Arith.
Import ListNotations.
From Verif Require Export Outcome.

(** Width and depth. *)
Definition wd := (Z * Z)%type.
Definition wd_eqb (a b : wd) : bool := Z.eqb (fst a) (fst b) && Z.eqb (snd a) (snd b).
(** [cache] is the function-static map of maps.cpp:86-88 from (width, depth) to owning pointers;
    [objs] gives for each maps object ever created its p_impl (maps.h:103). *)
Record mstate := mkMS { heap : list bool; cache : list (wd * nat); objs : list nat }.
Definition m0 : mstate := mkMS [] [] [].

Fixpoint set_nth (l : list bool) (n : nat) (b : bool) : list bool :=
  match l, n with [], _ => [] | _ :: l, O => b :: l | x :: l, S n => x :: set_nth l n b end.
(** [delete] of an object that is not allocated is undefined. *)
Definition m_free (h : list bool) (i : nat) : outcome (list bool) := if nth i h false then Ok (set_nth h i false) else UB.
Fixpoint m_lookup (c : list (wd * nat)) (a : wd) : option nat := match c with [] => None | (b, i) :: c => if wd_eqb b a then Some i else m_lookup c a end.
Fixpoint m_assign (c : list (wd * nat)) (a : wd) (i : nat) : list (wd * nat) :=
  match c with [] => [(a, i)] | (b, j) :: c => if wd_eqb b a then (b, i) :: c else (b, j) :: m_assign c a i end.

Inductive mop :=
| NewBases                (* maps(tbasis, lbasis) *)
| NewWD (a : wd)          (* maps(width, depth) *)
| CopyOf (h : nat)        (* the implicit copy constructor: copies the pointer *)
| Use (h : nat)           (* rbracketing, expand, lie_to_tensor, tensor_to_lie *)
| Del (h : nat).          (* ~maps *)
(** maps.cpp:15-20, 82-98, 22-24; maps.h:124-129.  Lines 92-94 only assign p_impl, which line 97
    overwrites: the object found in the cache is replaced, and deleted, in either case. *)
Definition m_step (o : mop) (s : mstate) : outcome mstate :=
  let fresh := length (heap s) in
  match o with
  | NewBases => Ok (mkMS (heap s ++ [true]) (cache s) (objs s ++ [fresh]))
  | NewWD a =>
      let h := heap s ++ [true] in
      let! h := match m_lookup (cache s) a with Some old => m_free h old | None => Ok h end in
      Ok (mkMS h (m_assign (cache s) a fresh) (objs s ++ [fresh]))
  | CopyOf x => match nth_error (objs s) x with Some i => Ok (mkMS (heap s) (cache s) (objs s ++ [i])) | None => UB end
  | Use x => match nth_error (objs s) x with Some i => if nth i (heap s) false then Ok s else UB | None => UB end
  | Del x => match nth_error (objs s) x with Some i => let! h := m_free (heap s) i in Ok (mkMS h (cache s) (objs s)) | None => UB end
  end.
Fixpoint m_run (l : list mop) (s : mstate) : outcome mstate := match l with [] => Ok s | o :: l => let! s := m_step o s in m_run l s end.
(** End of the program: the static map destroys the objects it owns. *)
Fixpoint m_frees (c : list (wd * nat)) (h : list bool) : outcome (list bool) := match c with [] => Ok h | (_, i) :: c => let! h := m_free h i in m_frees c h end.
Definition m_exit (s : mstate) : outcome (list bool) := m_frees (cache s) (heap s).
Definition m_program (l : list mop) : outcome (list bool) := let! s := m_run l m0 in m_exit s.
