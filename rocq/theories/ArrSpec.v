(** Notions for the properties about arrays (C21, C42): which arrays exist, which
    share elements, and what it means that a call wrote to nothing. *)
From Coq Require Import List ZArith Lia Bool Reals Lra String.
From Coquelicot Require Import Coquelicot.
From Verif Require Import PyBase CVec Thresh Arrays.
Import ListNotations.
Notation length := List.length.
Open Scope R_scope.

(** the array has a buffer *)
Definition allocated (h : aheap) (r : aref) : Prop := (r_cell r < length h)%nat.
(** moreover it is a proper view: positions inside the buffer, none twice *)
Definition valid_array (h : aheap) (r : aref) : Prop :=
  (r_cell r < length h)%nat /\ NoDup (r_idx r) /\ forall i, In i (r_idx r) -> (i < length (cell h (r_cell r)))%nat.
(** the two arrays have no element in common *)
Definition disjoint (r s : aref) : Prop := r_cell r <> r_cell s \/ forall i, In i (r_idx r) -> ~ In i (r_idx s).

(** no existing buffer was written to; there may be new ones *)
Definition nothing_written (h h' : aheap) : Prop := forall c v, nth_error h c = Some v -> nth_error h' c = Some v.
(** the same, as an equation *)
Definition preserves (h h' : aheap) : Prop := exists t, h' = h ++ t.

(** value of a threshold argument *)
Definition thr_val (h : aheap) (T : hthr) : thr := match T with HScal t => TScal t | HArr r => TVec (map fst (rd h r)) end.
Definition thr_valid (h : aheap) (T : hthr) : Prop := match T with HScal t => True | HArr r => allocated h r end.

(** a call that writes to nothing and ends with Q *)
Definition hspec {A} (m : H A) (h : aheap) (Q : res A -> aheap -> Prop) : Prop :=
  preserves h (snd (m h)) /\ Q (fst (m h)) (snd (m h)).
(** the outcome is an array with the values v (or the exception v), in a new
    buffer or one of the buffers [old] *)
Definition gives (h : aheap) (old : list nat) (v : res vec) (o : res aref) (h' : aheap) : Prop :=
  match v with
  | Ok x => exists r, o = Ok r /\ allocated h' r /\ rd h' r = x /\ ((length h <= r_cell r)%nat \/ In (r_cell r) old)
  | Raise e => o = Raise e
  end.
(** on heaps satisfying P, F computes f, writes to no existing array, and returns
    a new array or one that shares the buffer of its argument *)
Definition implements (P : aheap -> Prop) (F : aref -> H aref) (f : vec -> res vec) : Prop :=
  forall h X, P h -> allocated h X -> hspec (F X) h (gives h [r_cell X] (f (rd h X))).
