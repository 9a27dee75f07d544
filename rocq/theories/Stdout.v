(** Model of suppress_stdout and its users, /repo/pxmcmc/utils.py:91-114 and
    plotting.py:128-136.  File objects are numbers; the world holds sys.stdout,
    which file objects are closed, and what was written to each. *)
From Coq Require Import List ZArith Lia Bool String Arith.
From Verif Require Import PyBase.
Import ListNotations.
Notation length := List.length.
Open Scope nat_scope.

Record world := mkWorld {
  w_stdout : nat;                    (** sys.stdout *)
  w_next : nat;                      (** next unused file object *)
  w_closed : list nat;               (** closed file objects *)
  w_log : list (nat * string) }.     (** writes, in order *)

Definition set_stdout (h : nat) (w : world) : world := mkWorld h (w_next w) (w_closed w) (w_log w).
Definition close (h : nat) (w : world) : world := mkWorld (w_stdout w) (w_next w) (h :: w_closed w) (w_log w).
Definition open_devnull (w : world) : nat * world := (w_next w, mkWorld (w_stdout w) (S (w_next w)) (w_closed w) (w_log w)).

(** a computation in the world: result or exception, and the world after *)
Definition act (A : Type) := world -> res A * world.

(** [print(s)]: ValueError on a closed file *)
Definition print (s : string) : act unit := fun w =>
  if existsb (Nat.eqb (w_stdout w)) (w_closed w) then (Raise ValueError, w)
  else (Ok tt, mkWorld (w_stdout w) (w_next w) (w_closed w) (w_log w ++ [(w_stdout w, s)])).
Definition seq_act {A B} (p : act A) (q : A -> act B) : act B := fun w =>
  match p w with (Ok a, w1) => q a w1 | (Raise e, w1) => (Raise e, w1) end.
(** [try: p  except: q] *)
Definition try_act {A} (p q : act A) : act A := fun w => match p w with (Raise _, w1) => q w1 | r => r end.

(** [with suppress_stdout(): body], utils.py:91-103; os.devnull can be opened *)
Definition suppress {A} (body : act A) : act A := fun w =>
  let (devnull, w1) := open_devnull w in
  let old_stdout := w_stdout w1 in
  let w2 := set_stdout devnull w1 in
  let (r, w3) := body w2 in              (* yield *)
  let w4 := set_stdout old_stdout w3 in  (* finally *)
  let w5 := close devnull w4 in          (* end of the with open(..) block *)
  (r, w5).

(** map2alm and alm2map, utils.py:106-114, mollview, plotting.py:128-136: a
    healpy call inside the block *)
Definition map2alm {I A} (hp_map2alm : I -> act A) (image : I) : act A := suppress (hp_map2alm image).
Definition alm2map {I A} (hp_alm2map : I -> act A) (alms : I) : act A := suppress (hp_alm2map alms).
Definition mollview {I} (hp_mollview : I -> act unit) (hp_graticule : act unit) (image : I) : act unit :=
  suppress (seq_act (hp_mollview image) (fun _ => hp_graticule)).

(** programs that print, raise, catch and use the block *)
Inductive prog := Print (s : string) | Fail (e : exn) | Seq (p q : prog) | Try (p q : prog) | Suppress (p : prog).
Fixpoint run (p : prog) : act unit :=
  match p with
  | Print s => print s
  | Fail e => fun w => (Raise e, w)
  | Seq p q => seq_act (run p) (fun _ => run q)
  | Try p q => try_act (run p) (run q)
  | Suppress p => suppress (run p)
  end.

(** ** threads: the block cut into its atomic steps.  A thread's local variables
    are [devnull] and [old_stdout]. *)
Inductive op := OOpen | OSave | OSet | OBody | ORestore | OClose.
Definition block : list op := [OOpen; OSave; OSet; OBody; ORestore; OClose].
Record local := mkLocal { l_devnull : nat; l_old : nat }.
Definition step (o : op) (t : local) (w : world) : local * world :=
  match o with
  | OOpen => let (h, w1) := open_devnull w in (mkLocal h (l_old t), w1)
  | OSave => (mkLocal (l_devnull t) (w_stdout w), w)
  | OSet => (t, set_stdout (l_devnull t) w)
  | OBody => (t, w)
  | ORestore => (t, set_stdout (l_old t) w)
  | OClose => (t, close (l_devnull t) w)
  end.
(** a schedule: which thread does which step *)
Fixpoint run_sched (sched : list (nat * op)) (ts : nat -> local) (w : world) : (nat -> local) * world :=
  match sched with
  | [] => (ts, w)
  | (i, o) :: sched' =>
      let (t, w1) := step o (ts i) w in
      run_sched sched' (fun j => if Nat.eqb j i then t else ts j) w1
  end.
(** the steps of thread i *)
Definition steps_of (i : nat) (sched : list (nat * op)) : list op := map snd (filter (fun p => Nat.eqb (fst p) i) sched).
