(** Specification vocabulary for the sampler theorems.  Written against the
    operator record only ([ops]); it does not mention the loops of Sampler.v. *)
From Coq Require Import List ZArith Bool String Sorted.
From Verif Require Import PyBase Sampler.
Import ListNotations.
Open Scope Z_scope.

(** [path R s l]: the states visited one after the other from [s] are [l]. *)
Inductive path {St} (R : St -> St -> Prop) : St -> list St -> Prop :=
| path_nil s : path R s []
| path_cons s s' l : R s s' -> path R s' l -> path R s (s' :: l).

Section Spec.
Context {V D K P G I : Type}.
Variable o : ops V D K P G I.

(** State of a MYULA/SKROCK chain: sample, its predictions, random generator. *)
Definition cstate : Type := V * D * G.

(** One textbook MYULA transition with step size [delta]: gradient and prox at
    the current state, draw the new sample, predict. *)
Definition myula_trans (delta : P) (s s' : cstate) : Prop :=
  let '(x, d, g) := s in
  let '(x', d', g') := s' in
  exists gr p,
    o_gradg o d = Ok gr /\ o_proxf o x = Ok p /\
    o_step o delta x p gr g = (Ok x', g') /\ o_forward o x' = Ok d'.

(** One SKROCK transition. *)
Definition skrock_trans (delta : P) (s s' : cstate) : Prop :=
  let '(x, d, g) := s in
  let '(x', d', g') := s' in
  o_skstep o delta x g = (Ok x', g') /\ o_forward o x' = Ok d'.

(** The start of a chain. *)
Definition starts (start : I) (g : G) (s : cstate) : Prop :=
  let '(x, d, g') := s in
  o_init o start g = (Ok x, g') /\ o_forward o x = Ok d.

(** A recorded sample: vector, predictions, (logPi, L2, prior). *)
Definition entry : Type := V * D * (K * K * K).

(** The triple of an entry is what logpi reports for its vector and predictions. *)
Definition entry_ok (e : entry) : Prop :=
  let '(x, d, t) := e in o_logpi o x d = Ok t.

Definition of_state (s : cstate) (e : entry) : Prop :=
  let '(x, d, _) := s in let '(x', d', _) := e in x' = x /\ d' = d.

Definition e_X (e : entry) : V := fst (fst e).
Definition e_D (e : entry) : D := snd (fst e).
Definition e_logPi (e : entry) : K := fst (fst (snd e)).
Definition e_L2 (e : entry) : K := snd (fst (snd e)).
Definition e_prior (e : entry) : K := snd (snd e).

(** [records s0 s l]: [s] has the same arrays as [s0]; in each of them the first
    rows are the entries [l] in order (after the cast to the array's dtype), and
    all remaining rows are what they were in [s0] (zero for a new sampler). *)
Definition rec_arr {A B} (cast : A -> res B) (l : list A)
           (old arr : option (list B)) : Prop :=
  match old, arr with
  | None, None => True
  | Some a0, Some a =>
      exists rows, Forall2 (fun x r => cast x = Ok r) l rows /\
                   (List.length l <= List.length a0)%nat /\
                   a = rows ++ skipn (List.length l) a0
  | _, _ => False
  end.

Definition records (s0 s : inst V D K P) (l : list entry) : Prop :=
  rec_arr (fun k => Ok (o_rowK o k)) (map e_logPi l) (i_logPi s0) (i_logPi s) /\
  rec_arr (fun k => Ok (o_rowK o k)) (map e_L2 l) (i_L2s s0) (i_L2s s) /\
  rec_arr (fun k => Ok (o_rowK o k)) (map e_prior l) (i_priors s0) (i_priors s) /\
  rec_arr (o_rowD o) (map e_D l) (i_preds s0) (i_preds s) /\
  rec_arr (o_rowV o) (map e_X l) (i_chain s0) (i_chain s).

(** The same except that the one row after the recorded ones may hold anything
    (an exception struck while it was being stored). *)
Definition torn_arr {A B} (cast : A -> res B) (l : list A)
           (old arr : option (list B)) : Prop :=
  match old, arr with
  | None, None => True
  | Some a0, Some a =>
      exists rows v, Forall2 (fun x r => cast x = Ok r) l rows /\
                     (List.length l < List.length a0)%nat /\
                     a = rows ++ v :: skipn (List.length l + 1) a0
  | _, _ => False
  end.

Definition rec_or_torn {A B} (cast : A -> res B) (l : list A) (old arr : option (list B)) : Prop :=
  rec_arr cast l old arr \/ torn_arr cast l old arr.

Definition records_torn (s0 s : inst V D K P) (l : list entry) : Prop :=
  rec_or_torn (fun k => Ok (o_rowK o k)) (map e_logPi l) (i_logPi s0) (i_logPi s) /\
  rec_or_torn (fun k => Ok (o_rowK o k)) (map e_L2 l) (i_L2s s0) (i_L2s s) /\
  rec_or_torn (fun k => Ok (o_rowK o k)) (map e_prior l) (i_priors s0) (i_priors s) /\
  rec_or_torn (o_rowD o) (map e_D l) (i_preds s0) (i_preds s) /\
  rec_or_torn (o_rowV o) (map e_X l) (i_chain s0) (i_chain s).

(** All arrays present have length [n] (true of a new sampler and preserved). *)
Definition len_arr {A} (n : nat) (arr : option (list A)) : Prop :=
  match arr with None => True | Some a => List.length a = n end.
Definition sized (s : inst V D K P) (n : nat) : Prop :=
  len_arr n (i_logPi s) /\ len_arr n (i_L2s s) /\ len_arr n (i_priors s) /\
  len_arr n (i_preds s) /\ len_arr n (i_chain s).

(** Iteration [i] (0-based) lies on the thinning grid. *)
Definition on_grid (nburn ngap i : Z) : Prop :=
  nburn <= i /\ (ngap = 0 \/ exists k, i - nburn = k * ngap).

(** Thinning stride: ngap iterations between saved samples, 0 meaning every one. *)
Definition stride (ngap : Z) : Z := if ngap =? 0 then 1 else Z.abs ngap.

(** The 0-based iteration whose result is saved as row [j] when every on-grid
    iterate is saved: nburn, nburn+stride, ...  (for a negative nburn the first
    grid point that is not negative). *)
Definition first_save (nburn ngap : Z) : Z :=
  if nburn <? 0 then nburn mod (stride ngap) else nburn.
Definition save_iter (nburn ngap : Z) (j : nat) : Z :=
  first_save nburn ngap + Z.of_nat j * stride ngap.

(** Number of iterations needed for [n] saved samples. *)
Definition total_iters (nburn ngap : Z) (n : nat) : nat :=
  match n with O => O | S m => Z.to_nat (save_iter nburn ngap m + 1) end.

(** Row [j] of an array, if the array exists, is [v] (a store that succeeded). *)
Definition row_is {B} (arr : option (list B)) (j : nat) (v : res B) : Prop :=
  match arr with
  | None => True
  | Some a => exists r, nth_error a j = Some r /\ v = Ok r
  end.

(** Row [j] of all the arrays of [s] describes the one sample [x] with
    predictions [d] and log posterior triple [t]. *)
Definition row_describes (s : inst V D K P) (j : nat) (x : V) (d : D) (t : K * K * K) : Prop :=
  let '(lp, l2, pr) := t in
  row_is (i_logPi s) j (Ok (o_rowK o lp)) /\
  row_is (i_L2s s) j (Ok (o_rowK o l2)) /\
  row_is (i_priors s) j (Ok (o_rowK o pr)) /\
  row_is (i_preds s) j (o_rowD o d) /\
  row_is (i_chain s) j (o_rowV o x).

(** ... and the predictions and the triple are the true ones of [x]. *)
Definition row_true (s : inst V D K P) (j : nat) (x : V) : Prop :=
  exists d t, o_forward o x = Ok d /\ o_logpi o x d = Ok t /\ row_describes s j x d t.

(** Row [j] of [s] is the same as row [k] of [s'] in every array both have. *)
Definition same_row {B} (a : option (list B)) (j : nat) (b : option (list B)) (k : nat) : Prop :=
  match a, b with
  | Some l, Some m => nth_error l j = nth_error m k
  | _, _ => True
  end.
Definition rows_agree (s : inst V D K P) (j : nat) (s' : inst V D K P) (k : nat) : Prop :=
  same_row (i_logPi s) j (i_logPi s') k /\ same_row (i_L2s s) j (i_L2s s') k /\
  same_row (i_priors s) j (i_priors s') k /\ same_row (i_preds s) j (i_preds s') k /\
  same_row (i_chain s) j (i_chain s') k.

(** All arrays of the two objects are equal (absent ones included). *)
Definition same_arrays (s s' : inst V D K P) : Prop :=
  i_logPi s = i_logPi s' /\ i_L2s s = i_L2s s' /\ i_priors s = i_priors s' /\
  i_preds s = i_preds s' /\ i_chain s = i_chain s'.

(** The two objects track the same things. *)
Definition same_presence {B} (a b : option (list B)) : Prop :=
  match a, b with Some _, Some _ => True | None, None => True | _, _ => False end.
Definition same_tracking (s s' : inst V D K P) : Prop :=
  same_presence (i_logPi s) (i_logPi s') /\ same_presence (i_L2s s) (i_L2s s') /\
  same_presence (i_priors s) (i_priors s') /\ same_presence (i_preds s) (i_preds s') /\
  same_presence (i_chain s) (i_chain s').

(** Nothing the loops call raises. *)
Definition total_ops : Prop :=
  (forall s g, exists x g', o_init o s g = (Ok x, g')) /\
  (forall x, exists d, o_forward o x = Ok d) /\
  (forall d, exists v, o_gradg o d = Ok v) /\
  (forall x, exists v, o_proxf o x = Ok v) /\
  (forall x d, exists t, o_logpi o x d = Ok t) /\
  (forall p x y z g, exists v g', o_step o p x y z g = (Ok v, g')) /\
  (forall p x g, exists v g', o_skstep o p x g = (Ok v, g')) /\
  (forall p x y z t, exists v, o_logtrans o p x y z t = Ok v) /\
  (forall x, exists v, o_rowV o x = Ok v) /\
  (forall d, exists v, o_rowD o d = Ok v).

(** From start value [start] the operations stay within the vectors [PV] and
    predictions [PD] and raise nothing there (e.g. vectors of the right length). *)
Definition works_on (PV : V -> Prop) (PD : D -> Prop) (start : I) : Prop :=
  (forall g, exists x g', o_init o start g = (Ok x, g') /\ PV x) /\
  (forall x, PV x -> exists d, o_forward o x = Ok d /\ PD d) /\
  (forall d, PD d -> exists v, o_gradg o d = Ok v /\ PV v) /\
  (forall x, PV x -> exists v, o_proxf o x = Ok v /\ PV v) /\
  (forall x d, PV x -> PD d -> exists t, o_logpi o x d = Ok t) /\
  (forall p x y z g, PV x -> PV y -> PV z -> exists v g', o_step o p x y z g = (Ok v, g') /\ PV v) /\
  (forall p x g, PV x -> exists v g', o_skstep o p x g = (Ok v, g') /\ PV v) /\
  (forall p x y z t, PV x -> PV y -> PV z -> PV t -> exists v, o_logtrans o p x y z t = Ok v) /\
  (forall x, PV x -> exists v, o_rowV o x = Ok v) /\
  (forall d, PD d -> exists v, o_rowD o d = Ok v).

End Spec.

(** [o2] returns everything [o1] returns, and may return where [o1] raises. *)
Definition completes {V D K P G I} (o1 o2 : ops V D K P G I) : Prop :=
  (forall s g x g', o_init o1 s g = (Ok x, g') -> o_init o2 s g = (Ok x, g')) /\
  (forall x d, o_forward o1 x = Ok d -> o_forward o2 x = Ok d) /\
  (forall d v, o_gradg o1 d = Ok v -> o_gradg o2 d = Ok v) /\
  (forall x v, o_proxf o1 x = Ok v -> o_proxf o2 x = Ok v) /\
  (forall x d t, o_logpi o1 x d = Ok t -> o_logpi o2 x d = Ok t) /\
  (forall p x y z g v g', o_step o1 p x y z g = (Ok v, g') -> o_step o2 p x y z g = (Ok v, g')) /\
  (forall p x g v g', o_skstep o1 p x g = (Ok v, g') -> o_skstep o2 p x g = (Ok v, g')) /\
  (forall p x y z t v, o_logtrans o1 p x y z t = Ok v -> o_logtrans o2 p x y z t = Ok v) /\
  (forall x v, o_rowV o1 x = Ok v -> o_rowV o2 x = Ok v) /\
  (forall d v, o_rowD o1 d = Ok v -> o_rowD o2 d = Ok v) /\
  (forall k, o_rowK o1 k = o_rowK o2 k) /\
  (forall g, o_logrand o1 g = o_logrand o2 g) /\
  (forall a b, o_kadd o1 a b = o_kadd o2 a b) /\
  (forall a b, o_ksub o1 a b = o_ksub o2 a b) /\
  (forall a b, o_kltb o1 a b = o_kltb o2 a b) /\
  (forall p a i, o_tune o1 p a i = o_tune o2 p a i).

Arguments cstate : clear implicits.
Arguments entry : clear implicits.

(** ** Metropolis-Hastings reference for PxMALA: no quantity is carried over,
    everything is recomputed from the current sample at every iteration. *)
Section MHSpec.
Context {V D K P G I : Type}.
Variable o : ops V D K P G I.

(** current sample, step size, random generator *)
Definition mh_state : Type := V * P * G.

Definition b2z (b : bool) : Z := if b then 1 else 0.

(** log of the acceptance ratio for moving from [x] to [y] with step [delta],
    every term evaluated afresh *)
Definition mh_logalpha (delta : P) (x y : V) (a : K) : Prop :=
  exists dx gx px lx dy gy py ly qxy qyx,
    o_forward o x = Ok dx /\ o_gradg o dx = Ok gx /\ o_proxf o x = Ok px /\ o_logpi o x dx = Ok lx /\
    o_forward o y = Ok dy /\ o_gradg o dy = Ok gy /\ o_proxf o y = Ok py /\ o_logpi o y dy = Ok ly /\
    o_logtrans o delta x y px gx = Ok qxy /\ o_logtrans o delta y x py gy = Ok qyx /\
    a = o_ksub o (o_ksub o (o_kadd o qyx (fst (fst ly))) qxy) (fst (fst lx)).

(** the proposal *)
Definition mh_proposes (delta : P) (x : V) (g : G) (y : V) (g' : G) : Prop :=
  exists dx gx px, o_forward o x = Ok dx /\ o_gradg o dx = Ok gx /\ o_proxf o x = Ok px /\
                   o_step o delta x px gx g = (Ok y, g').

(** iteration [i]: propose, compute the ratio, accept iff log u < log alpha,
    then adapt the step size *)
Definition mh_trans (tune : bool) (i : Z) (s : mh_state) (acc : bool) (s' : mh_state) : Prop :=
  let '(x, delta, g) := s in
  let '(x', delta', g') := s' in
  exists y g1 u a,
    mh_proposes delta x g y g1 /\ mh_logalpha delta x y a /\ o_logrand o g1 = (u, g') /\
    acc = o_kltb o u a /\ x' = (if acc then y else x) /\
    delta' = (if tune then o_tune o delta (b2z acc) i else delta).

Inductive mh_path (tune : bool) : Z -> mh_state -> list (bool * mh_state) -> Prop :=
| mh_nil i s : mh_path tune i s []
| mh_cons i s acc s' l :
    mh_trans tune i s acc s' -> mh_path tune (i + 1) s' l -> mh_path tune i s ((acc, s') :: l).

(** start of the chain; the first sample must be evaluable *)
Definition mh_starts (start : I) (g : G) (x : V) (g' : G) : Prop :=
  o_init o start g = (Ok x, g') /\
  exists d gr p t, o_forward o x = Ok d /\ o_gradg o d = Ok gr /\ o_proxf o x = Ok p /\ o_logpi o x d = Ok t.

(** [idx] lists in increasing order the iterations that are on the grid and accepted *)
Definition accepted_on_grid (nburn ngap : Z) (tr : list (bool * mh_state)) (idx : list nat) : Prop :=
  Sorted.StronglySorted lt idx /\
  forall k, In k idx <->
    on_grid nburn ngap (Z.of_nat k) /\ exists s, nth_error tr k = Some (true, s).

(** entry [e] is a true description of the sample visited in iteration [k] *)
Definition mh_entry (tr : list (bool * mh_state)) (k : nat) (e : entry V D K) : Prop :=
  o_forward o (e_X e) = Ok (e_D e) /\ o_logpi o (e_X e) (e_D e) = Ok (snd e) /\
  exists acc delta g, nth_error tr k = Some (acc, (e_X e, delta, g)).

End MHSpec.
Arguments mh_state : clear implicits.

(** ** Progress lines *)

(** A progress line is due in iteration [i]: every [verbosity]-th iteration. *)
Definition line_due (verbosity i : Z) : Prop :=
  0 < verbosity /\ exists k, i + 1 = k * verbosity.

(** number of samples saved once iteration [k] is over (nburn >= 0) *)
Definition saved_by (nburn ngap : Z) (k : nat) : nat :=
  if Z.of_nat k <? nburn then 0%nat else S (Z.to_nat ((Z.of_nat k - nburn) / stride ngap)).

Section Lines.
Context {V D K P G I : Type}.
Notation ops := (ops V D K P G I).
Notation inst := (inst V D K P).
Notation world := (world V D K P G).
Notation entry := (entry V D K).
Notation mh_state := (mh_state V P G).

(** One of the arrays a progress line reads does not exist. *)
Definition line_array_missing (s : inst) : Prop :=
  i_logPi s = None \/ i_L2s s = None \/ i_priors s = None.

(** the printed line shows row [c-1] of the final arrays *)
Definition shows_row (s : inst) (c : nat) (ev : event K) : Prop :=
  exists lps l2s prs lp l2 pr,
    i_logPi s = Some lps /\ i_L2s s = Some l2s /\ i_priors s = Some prs /\
    nth_error lps (c - 1) = Some lp /\ nth_error l2s (c - 1) = Some l2 /\ nth_error prs (c - 1) = Some pr /\
    ev = EvProgress (Z.of_nat c) lp l2 pr None.


(** The uncached reference execution of [k] iterations and what it leaves. *)
Definition mh_reference (o : ops) (prm : params) (tune : bool) (start : I) (w w' : world) (k m : nat) : Prop :=
  exists x g0 tr idx l,
    mh_starts o start (w_rng w) x g0 /\
    mh_path o tune 0 (x, i_delta (w_inst w), g0) tr /\ List.length tr = k /\
    accepted_on_grid (p_nburn prm) (p_ngap prm) tr idx /\
    List.length l = m /\ Forall2 (mh_entry o tr) idx l /\ records o (w_inst w) (w_inst w') l /\
    i_acc (w_inst w') = Some (map (fun p => b2z (fst p)) tr) /\
    i_deltas (w_inst w') = Some (i_delta (w_inst w) :: if tune then map (fun p => snd (fst (snd p))) tr else []) /\
    (exists xl, snd (last tr (true, (x, i_delta (w_inst w), g0))) = (xl, i_delta (w_inst w'), w_rng w')).


(** the state before iteration [k] *)
Definition mh_before (s0 : mh_state) (tr : list (bool * mh_state)) (k : nat) : mh_state :=
  match k with O => s0 | S k' => snd (nth k' tr (true, s0)) end.


End Lines.
