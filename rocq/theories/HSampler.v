(** The sampler runs of /repo/pxmcmc/mcmc.py on a heap of arrays (Arrays.v): what
    Sampler.v describes on values, here with array objects.  start_point is used
    without a copy (mcmc.py:107), operators may return the array they are given,
    and the tracking arrays of the sampler are the only arrays written to. *)
From Coq Require Import List ZArith Lia Bool Reals Lra String.
From Coquelicot Require Import Coquelicot.
From Verif Require Import PyBase CVec Thresh Prior Forward Sampler Mcmc Arrays.
Import ListNotations.
Notation length := List.length.
Open Scope Z_scope.

Section HSampler.
Context {G I HI : Type}.

(** what the loops call, on arrays; a drawing operation gets the generator and
    says what it will do and what the generator is afterwards *)
Record hops := {
  ho_init : HI -> G -> H aref * G;
  ho_forward : aref -> H aref;
  ho_gradg : aref -> H aref;
  ho_proxf : aref -> H aref;
  ho_logpi : aref -> aref -> H (C * C * C);
  ho_step : R -> aref -> aref -> aref -> G -> H aref * G;
  ho_skstep : R -> aref -> G -> H aref * G;
  ho_logtrans : R -> aref -> aref -> aref -> aref -> H C
}.

(** the tracking arrays of a sampler, by attribute *)
Inductive attrib := ALogPi | AL2s | APriors | APreds | AChain.

(** the attributes of a sampler object; an array attribute is the buffer of its
    (two-dimensional, row after row) array *)
Record hinst := mkHI {
  hi_arr : attrib -> option nat;
  hi_acc : option (list Z);
  hi_deltas : option (list R);
  hi_delta : R;
  hi_out : list (event C)
}.
Record hworld := mkHW { hw_inst : hinst; hw_rng : G; hw_heap : aheap }.

Definition HM (A : Type) := hworld -> hworld * outcome A.
Definition mret {A} (a : A) : HM A := fun w => (w, Ret a).
Definition mthrow {A} (e : exn) : HM A := fun w => (w, Exn e).
Definition mbind {A B} (m : HM A) (k : A -> HM B) : HM B := fun w =>
  match m w with
  | (w', Ret a) => k a w'
  | (w', Exn e) => (w', Exn e)
  | (w', NoFuel) => (w', NoFuel)
  end.
Definition mlift {A} (r : res A) : HM A := match r with Ok a => mret a | Raise e => mthrow e end.
Definition mheap {A} (m : H A) : HM A := fun w =>
  let (r, h') := m (hw_heap w) in mlift r (mkHW (hw_inst w) (hw_rng w) h').
Definition mdraw {A} (f : G -> H A * G) : HM A := fun w =>
  let (m, g') := f (hw_rng w) in mheap m (mkHW (hw_inst w) g' (hw_heap w)).
Definition mget : HM hinst := fun w => (w, Ret (hw_inst w)).
Definition mput (s : hinst) : HM unit := fun w => (mkHW s (hw_rng w) (hw_heap w), Ret tt).
Notation "'do' x <- m ; k" := (mbind m (fun x => k))
  (at level 200, x pattern, m at level 100, k at level 200, right associativity).

Definition mset_acc v s := mkHI (hi_arr s) v (hi_deltas s) (hi_delta s) (hi_out s).
Definition mset_deltas v s := mkHI (hi_arr s) (hi_acc s) v (hi_delta s) (hi_out s).
Definition mset_delta v s := mkHI (hi_arr s) (hi_acc s) (hi_deltas s) v (hi_out s).
Definition mset_out v s := mkHI (hi_arr s) (hi_acc s) (hi_deltas s) (hi_delta s) v.
Definition mprint (e : event C) : HM unit := do s <- mget; mput (mset_out (hi_out s ++ [e]) s).

(** scalar arithmetic, casts and the generator are those of the value-level
    instance [o] *)
Variable o : ops vec vec C R G I.
Variable ho : hops.
Variable prm : params.
(** nparams and len(data) *)
Variables nV nD : nat.

(** length of a row *)
Definition dim (a : attrib) : nat := match a with APreds => nD | AChain => nV | _ => 1%nat end.

(** the array self.a[k]: a view of one row *)
Definition row (c n : nat) (nrows k : Z) : res aref :=
  let k' := if k <? 0 then nrows + k else k in
  if (k' <? 0) || (nrows <=? k') then Raise IndexError
  else Ok (mkRef c (seq (Z.to_nat k' * n) n)).

(** [if hasattr(self, a): self.a[j] = v], mcmc.py:131-140 *)
Definition h_store (a : attrib) (j : Z) (v : HM vec) : HM unit :=
  do s <- mget;
  match hi_arr s a with
  | None => mret tt
  | Some c => do x <- v; do r <- mlift (row c (dim a) (p_nsamples prm) j);
              mheap (fun h => (Ok tt, wr h r x))
  end.
(** _tracking, mcmc.py:130-140 *)
Definition h_tracking (j : Z) (X preds : aref) (logPi L2 prior : C) : HM unit :=
  do _ <- h_store ALogPi j (mret [o_rowK o logPi]);
  do _ <- h_store AL2s j (mret [o_rowK o L2]);
  do _ <- h_store APriors j (mret [o_rowK o prior]);
  do _ <- h_store APreds j (do d <- mheap (values preds); mlift (o_rowD o d));
  h_store AChain j (do x <- mheap (values X); mlift (o_rowV o x)).

(** reading self.a[k] for a one-dimensional array *)
Definition h_read (a : attrib) (k : Z) : HM C :=
  do s <- mget;
  match hi_arr s a with
  | None => mthrow AttributeError
  | Some c => do r <- mlift (row c 1 (p_nsamples prm) k);
              do v <- mheap (values r);
              mret (nth 0 v (RtoC 0))
  end.
(** mcmc.py:172-177 and 328-333 *)
Definition h_print_saved (j : Z) : HM unit :=
  do lp <- h_read ALogPi (j - 1);
  do l2 <- h_read AL2s (j - 1);
  do pr <- h_read APriors (j - 1);
  mprint (EvProgress (j - 1 + 1) lp l2 pr None).

(** _initial_sample, mcmc.py:97-111 *)
Definition h_initial_sample (start : HI) : HM (aref * aref) :=
  do X <- mdraw (ho_init ho start);
  do d <- mheap (ho_forward ho X);
  mret (X, d).

(** ** MYULA.run, mcmc.py:150-183 *)
Definition h_myula_body (i j : Z) (X preds : aref) : HM (Z * aref * aref) :=
  do gradg <- mheap (ho_gradg ho preds);
  do proxf <- mheap (ho_proxf ho X);
  do s <- mget;
  do X_prop <- mdraw (ho_step ho (hi_delta s) X proxf gradg);
  do prop_preds <- mheap (ho_forward ho X_prop);
  if p_nburn prm <=? i then
    do j' <- (if grid_hit prm i then
                do t <- mheap (ho_logpi ho X_prop prop_preds);
                let '(logPi, L2, prior) := t in
                do _ <- h_tracking j X_prop prop_preds logPi L2 prior;
                mret (j + 1)
              else mret j);
    do _ <- (if progress_due prm i then h_print_saved j' else mret tt);
    mret (j', X_prop, prop_preds)
  else
    do _ <- (if progress_due prm i then mprint EvBurning else mret tt);
    mret (j, X_prop, prop_preds).
Fixpoint h_myula_loop (fuel : nat) (i j : Z) (X preds : aref) : HM unit :=
  if j <? p_nsamples prm then
    match fuel with
    | O => fun w => (w, NoFuel)
    | S f => do r <- h_myula_body i j X preds;
             let '(j', X', preds') := r in
             h_myula_loop f (i + 1) j' X' preds'
    end
  else mprint EvDone.
Definition h_myula_run (fuel : nat) (start : HI) : HM unit :=
  do r <- h_initial_sample start;
  let '(X, preds) := r in
  h_myula_loop fuel 0 0 X preds.

(** ** PxMALA.run, mcmc.py:218-275 *)
Record hmala := mkHMala { hm_X : aref; hm_preds : aref; hm_gradg : aref; hm_proxf : aref;
                          hm_logpi : C; hm_L2 : C; hm_prior : C }.
Definition h_append_acc (a : Z) : HM unit :=
  do s <- mget;
  match hi_acc s with
  | None => mthrow AttributeError
  | Some l => mput (mset_acc (Some (l ++ [a])) s)
  end.
Definition h_tune_delta (i : Z) : HM unit :=
  do s <- mget;
  do a <- match hi_acc s with None => mthrow AttributeError | Some l => mlift (py_index l i) end;
  do s <- mget;
  mput (mset_delta (o_tune o (hi_delta s) a i) s).
Definition h_append_delta : HM unit :=
  do s <- mget;
  match hi_deltas s with
  | None => mthrow AttributeError
  | Some l => mput (mset_deltas (Some (l ++ [hi_delta s])) s)
  end.
Definition h_pxmala_body (tune : bool) (i j : Z) (c : hmala) : HM (Z * hmala) :=
  do s <- mget;
  do X_prop <- mdraw (ho_step ho (hi_delta s) (hm_X c) (hm_proxf c) (hm_gradg c));
  do prop_preds <- mheap (ho_forward ho X_prop);
  do gradg_prop <- mheap (ho_gradg ho prop_preds);
  do proxf_prop <- mheap (ho_proxf ho X_prop);
  do logtransXcXp <- mheap (ho_logtrans ho (hi_delta s) (hm_X c) X_prop (hm_proxf c) (hm_gradg c));
  do logtransXpXc <- mheap (ho_logtrans ho (hi_delta s) X_prop (hm_X c) proxf_prop gradg_prop);
  do t <- mheap (ho_logpi ho X_prop prop_preds);
  let '(logpiXp, L2Xp, priorXp) := t in
  let logalpha := o_ksub o (o_ksub o (o_kadd o logtransXpXc logpiXp) logtransXcXp) (hm_logpi c) in
  do logu <- mdraw (fun g => let (u, g') := o_logrand o g in (hret u, g'));
  let accept := o_kltb o logu logalpha in
  do c' <- (if accept then
              do _ <- h_append_acc 1;
              mret (mkHMala X_prop prop_preds gradg_prop proxf_prop logpiXp L2Xp priorXp)
            else
              do _ <- h_append_acc 0;
              mret c);
  do _ <- (if tune then do _ <- h_tune_delta i; h_append_delta else mret tt);
  do j' <- (if p_nburn prm <=? i then
              if grid_hit prm i && accept then
                do _ <- h_tracking j (hm_X c') (hm_preds c') (hm_logpi c') (hm_L2 c') (hm_prior c');
                mret (j + 1)
              else mret j
            else mret j);
  do _ <- (if progress_due prm i then
             do s' <- mget;
             mprint (EvProgress (j' - 1 + 1) (hm_logpi c') (hm_L2 c') (hm_prior c') (hi_acc s'))
           else mret tt);
  mret (j', c').
Fixpoint h_pxmala_loop (tune : bool) (fuel : nat) (i j : Z) (c : hmala) : HM unit :=
  if j <? p_nsamples prm then
    match fuel with
    | O => fun w => (w, NoFuel)
    | S f => do r <- h_pxmala_body tune i j c;
             let '(j', c') := r in
             h_pxmala_loop tune f (i + 1) j' c'
    end
  else mprint EvDone.
Definition h_pxmala_run (tune : bool) (fuel : nat) (start : HI) : HM unit :=
  do s <- mget;
  do _ <- mput (mset_acc (Some []) s);
  do s <- mget;
  do _ <- mput (mset_deltas (Some [hi_delta s]) s);
  do r <- h_initial_sample start;
  let '(X, preds) := r in
  do gradg <- mheap (ho_gradg ho preds);
  do proxf <- mheap (ho_proxf ho X);
  do t <- mheap (ho_logpi ho X preds);
  let '(logpiXc, L2Xc, priorXc) := t in
  h_pxmala_loop tune fuel 0 0 (mkHMala X preds gradg proxf logpiXc L2Xc priorXc).

(** ** SKROCK.run, mcmc.py:308-336 *)
Definition h_skrock_body (i j : Z) (X preds : aref) : HM (Z * aref * aref) :=
  do s <- mget;
  do X_prop <- mdraw (ho_skstep ho (hi_delta s) X);
  do prop_preds <- mheap (ho_forward ho X_prop);
  do j' <- (if p_nburn prm <=? i then
              if grid_hit prm i then
                do t <- mheap (ho_logpi ho X_prop prop_preds);
                let '(logPi, L2, prior) := t in
                do _ <- h_tracking j X_prop prop_preds logPi L2 prior;
                mret (j + 1)
              else mret j
            else mret j);
  do _ <- (if progress_due prm i then h_print_saved j' else mret tt);
  mret (j', X_prop, prop_preds).
Fixpoint h_skrock_loop (fuel : nat) (i j : Z) (X preds : aref) : HM unit :=
  if j <? p_nsamples prm then
    match fuel with
    | O => fun w => (w, NoFuel)
    | S f => do r <- h_skrock_body i j X preds;
             let '(j', X', preds') := r in
             h_skrock_loop f (i + 1) j' X' preds'
    end
  else mprint EvDone.
Definition h_skrock_run (fuel : nat) (start : HI) : HM unit :=
  do r <- h_initial_sample start;
  let '(X, preds) := r in
  h_skrock_loop fuel 0 0 X preds.

(** ** __init__, mcmc.py:56-61 and 113-128: new zero arrays *)
Definition h_opt_array (b : bool) (a : attrib) : H (option nat) :=
  if b then
    if p_nsamples prm <? 0 then hlift (Raise ValueError)
    else let! r := alloc (repeat (RtoC 0) (Z.to_nat (p_nsamples prm) * dim a)) in hret (Some (r_cell r))
  else hret None.
Definition h_new_sampler (delta : R) : H hinst :=
  let tr := p_track prm in
  let! lp := h_opt_array (str_in "logposterior" tr) ALogPi in
  let! pd := h_opt_array (str_in "predictions" tr) APreds in
  let! ch := h_opt_array (str_in "chain" tr) AChain in
  let! l2 := h_opt_array (str_in "L2" tr) AL2s in
  let! pr := h_opt_array (str_in "prior" tr) APriors in
  hret (mkHI (fun a => match a with ALogPi => lp | AL2s => l2 | APriors => pr | APreds => pd | AChain => ch end)
             None None delta []).
End HSampler.
Arguments hops : clear implicits.
Arguments hworld : clear implicits.
