(** Python basics used by every model file: exceptions as values, slices,
    indexing, integer division conventions.  Nothing here is specific to pxmcmc. *)
From Coq Require Import List ZArith Lia Bool String.
Import ListNotations.
Open Scope Z_scope.

(** Exceptions that the modelled code can raise.  [OpError k] stands for an
    arbitrary exception raised inside a user supplied operator. *)
Inductive exn :=
| ValueError | TypeError | IndexError | AssertionError | ZeroDivisionError
| AttributeError | NotImplementedError | KeyError | OpError (k : nat).

Inductive res (A : Type) := Ok (a : A) | Raise (e : exn).
Arguments Ok {A} a.
Arguments Raise {A} e.

Definition rbind {A B} (m : res A) (k : A -> res B) : res B :=
  match m with Ok a => k a | Raise e => Raise e end.
Notation "'let*' x := m 'in' k" := (rbind m (fun x => k))
  (at level 200, x pattern, m at level 100, k at level 200, right associativity).

Definition rmap {A B} (f : A -> B) (m : res A) : res B :=
  match m with Ok a => Ok (f a) | Raise e => Raise e end.

Definition is_ok {A} (m : res A) : Prop := exists a, m = Ok a.

(** Sequence a list of results left to right (a Python list comprehension). *)
Fixpoint rseq {A} (l : list (res A)) : res (list A) :=
  match l with
  | [] => Ok []
  | m :: l' => let* a := m in let* r := rseq l' in Ok (a :: r)
  end.

(** Python slice bound: negative bounds count from the end, then clamp to [0,n]. *)
Definition slice_bound (n k : Z) : Z :=
  if k <? 0 then Z.max 0 (n + k) else Z.min k n.

(** [l[lo:hi]] for optional bounds. *)
Definition py_slice {A} (l : list A) (lo hi : option Z) : list A :=
  let n := Z.of_nat (List.length l) in
  let a := match lo with None => 0 | Some k => slice_bound n k end in
  let b := match hi with None => n | Some k => slice_bound n k end in
  firstn (Z.to_nat (b - a)) (skipn (Z.to_nat a) l).

(** [l[k]], negative indices count from the end. *)
Definition py_index {A} (l : list A) (k : Z) : res A :=
  let n := Z.of_nat (List.length l) in
  let k' := if k <? 0 then n + k else k in
  if (k' <? 0) || (n <=? k') then Raise IndexError
  else match nth_error l (Z.to_nat k') with Some a => Ok a | None => Raise IndexError end.

(** replace element [k] of a list (no-op when out of range). *)
Fixpoint upd {A} (l : list A) (k : nat) (a : A) : list A :=
  match l, k with
  | [], _ => []
  | _ :: l', O => a :: l'
  | x :: l', S k' => x :: upd l' k' a
  end.

(** [l[k] = a] with Python index rules. *)
Definition py_setitem {A} (l : list A) (k : Z) (a : A) : res (list A) :=
  let n := Z.of_nat (List.length l) in
  let k' := if k <? 0 then n + k else k in
  if (k' <? 0) || (n <=? k') then Raise IndexError
  else Ok (upd l (Z.to_nat k') a).

(** Python [//] on integers: floor division, ZeroDivisionError on 0.  [Z.div]
    and [Z.modulo] have Python's sign conventions for a nonzero divisor. *)
Definition py_floordiv (a b : Z) : res Z :=
  if b =? 0 then Raise ZeroDivisionError else Ok (a / b).

(** [range(a, b)] *)
Definition zrange (a b : Z) : list Z :=
  map (fun k => a + Z.of_nat k) (seq 0 (Z.to_nat (b - a))).

(** pointwise combination of two lists of equal length *)
Fixpoint map2 {A B C} (f : A -> B -> C) (l : list A) (m : list B) : list C :=
  match l, m with
  | x :: l', y :: m' => f x y :: map2 f l' m'
  | _, _ => []
  end.

(** numpy binary elementwise operation on 1-D arrays: equal lengths, or one of
    them of length 1 (broadcast), otherwise ValueError. *)
Definition np_bin {A B C} (f : A -> B -> C) (l : list A) (m : list B) : res (list C) :=
  if Nat.eqb (List.length l) (List.length m) then Ok (map2 f l m)
  else match l, m with
       | [x], _ => Ok (map (f x) m)
       | _, [y] => Ok (map (fun x => f x y) l)
       | _, _ => Raise ValueError
       end.

(** membership of a name in a list of names (Python [in]) *)
Definition str_in (s : string) (l : list string) : bool :=
  existsb (String.eqb s) l.
