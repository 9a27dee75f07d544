(** Relating the heap-level sampler runs to the value-level ones: when an
    operation on arrays computes a given function, and when a sampler object on
    the heap shows given values. *)
From Coq Require Import List ZArith Lia Bool Reals Lra String.
From Coquelicot Require Import Coquelicot.
From Verif Require Import PyBase CVec Thresh Prior Forward Sampler Mcmc Arrays ArrSpec HSampler.
Import ListNotations.
Notation length := List.length.
Open Scope Z_scope.

(** only the buffers in [trk] may have been written to *)
Definition frame (trk : list nat) (h h' : aheap) : Prop :=
  (length h <= length h')%nat /\ forall c, (c < length h)%nat -> ~ In c trk -> cell h' c = cell h c.

(** the buffers of the tracking arrays *)
Definition cells (s : hinst) : list nat :=
  flat_map (fun a => match hi_arr s a with Some c => [c] | None => [] end) [ALogPi; AL2s; APriors; APreds; AChain].

(** the value-level attribute as a list of rows *)
Definition rows (a : attrib) (s : inst vec vec C R) : option (list vec) :=
  match a with
  | ALogPi => option_map (map (fun z => [z])) (i_logPi s)
  | AL2s => option_map (map (fun z => [z])) (i_L2s s)
  | APriors => option_map (map (fun z => [z])) (i_priors s)
  | APreds => i_preds s
  | AChain => i_chain s
  end.

(** a buffer holds these n-element rows, one after the other *)
Definition shows (h : aheap) (nrows : Z) (n : nat) (c : option nat) (l : option (list vec)) : Prop :=
  match c, l with
  | None, None => True
  | Some c, Some l => (c < length h)%nat /\ cell h c = List.concat l /\ Z.of_nat (length l) = nrows /\ forall x, In x l -> length x = n
  | _, _ => False
  end.

Section Spec.
Context {G I HI : Type}.
Variable prm : params.
Variables nV nD : nat.

(** a sampler on the heap and a sampler of values in the same state *)
Definition same_state (hw : hworld G) (w : world vec vec C R G) : Prop :=
  hw_rng hw = w_rng w /\
  hi_acc (hw_inst hw) = i_acc (w_inst w) /\
  hi_deltas (hw_inst hw) = i_deltas (w_inst w) /\
  hi_delta (hw_inst hw) = i_delta (w_inst w) /\
  hi_out (hw_inst hw) = i_out (w_inst w) /\
  NoDup (cells (hw_inst hw)) /\
  forall a, shows (hw_heap hw) (p_nsamples prm) (dim nV nD a) (hi_arr (hw_inst hw) a) (rows a (w_inst w)).

(** the operations on arrays compute those on values, on every heap satisfying P *)
Record ops_on_arrays (P : aheap -> Prop) (ho : hops G HI) (o : ops vec vec C R G I) : Prop := {
  oa_forward : implements P (ho_forward ho) (o_forward o);
  oa_gradg : implements P (ho_gradg ho) (o_gradg o);
  oa_proxf : implements P (ho_proxf ho) (o_proxf o);
  oa_logpi : forall h X d, P h -> allocated h X -> allocated h d ->
    hspec (ho_logpi ho X d) h (fun r _ => r = o_logpi o (rd h X) (rd h d));
  oa_step : forall h p X px gr g, P h -> allocated h X -> allocated h px -> allocated h gr ->
    snd (ho_step ho p X px gr g) = snd (o_step o p (rd h X) (rd h px) (rd h gr) g) /\
    hspec (fst (ho_step ho p X px gr g)) h (gives h [] (fst (o_step o p (rd h X) (rd h px) (rd h gr) g)));
  oa_skstep : forall h p X g, P h -> allocated h X ->
    snd (ho_skstep ho p X g) = snd (o_skstep o p (rd h X) g) /\
    hspec (fst (ho_skstep ho p X g)) h (gives h [] (fst (o_skstep o p (rd h X) g)));
  oa_logtrans : forall h p X1 X2 px gr, P h -> allocated h X1 -> allocated h X2 -> allocated h px -> allocated h gr ->
    hspec (ho_logtrans ho p X1 X2 px gr) h (fun r _ => r = o_logtrans o p (rd h X1) (rd h X2) (rd h px) (rd h gr))
}.
End Spec.
