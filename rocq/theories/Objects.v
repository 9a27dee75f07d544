(** Python objects with attribute dictionaries on a heap: PxMCMCParams
    (mcmc.py:6-43), PxMCMC.__init__ and _initialise_tracking_arrays
    (mcmc.py:56-61, 113-128), the samplers' run methods as actions on the heap,
    and save_mcmc (/repo/pxmcmc/saving.py).

    The loops of Sampler.v read and write only attributes of [self] (record
    [inst]); here they run on the attributes of the sampler object.  Tracking
    arrays are values: nothing else refers to them. *)
From Coq Require Import List ZArith Bool Ascii String.
From Verif Require Import PyBase Sampler.
Import ListNotations.
Open Scope Z_scope.
Notation length := List.length.
Notation append := String.append.

(** ** Attribute dictionaries: insertion-ordered, one entry per key *)
Section Dict.
Context {A : Type}.
Definition dict := list (string * A).
Fixpoint dget (d : dict) (k : string) : option A :=
  match d with
  | [] => None
  | (k', v) :: d' => if String.eqb k k' then Some v else dget d' k
  end.
Fixpoint dset (d : dict) (k : string) (v : A) : dict :=
  match d with
  | [] => [(k, v)]
  | (k', v') :: d' => if String.eqb k k' then (k, v) :: d' else (k', v') :: dset d' k v
  end.
Definition dkeys (d : dict) : list string := map fst d.
End Dict.
Arguments dict : clear implicits.

Section Obj.
Context {V D K P G I X : Type}.

(** attribute values: integers, step sizes, lists of names, the tracking arrays,
    the two traces of PxMALA, anything else *)
Inductive pyval :=
| VInt (z : Z) | VStep (p : P) | VNames (l : list string)
| VScal (l : list K) | VPred (l : list D) | VChain (l : list V)
| VAcc (l : list Z) | VDeltas (l : list P) | VOther (x : X).

Definition heap := list (dict pyval).
Definition hget (h : heap) (l : nat) : option (dict pyval) := nth_error h l.

(** getattr(obj, k), setattr(obj, k, v), hasattr(obj, k) *)
Definition getattr (h : heap) (l : nat) (k : string) : res pyval :=
  match hget h l with
  | Some d => match dget d k with Some v => Ok v | None => Raise AttributeError end
  | None => Raise AttributeError
  end.
Definition setattr (h : heap) (l : nat) (k : string) (v : pyval) : heap :=
  match hget h l with Some d => upd h l (dset d k v) | None => h end.
Definition hasattr (h : heap) (l : nat) (k : string) : bool :=
  match hget h l with
  | Some d => match dget d k with Some _ => true | None => false end
  | None => false
  end.

(** PxMCMCParams.__init__, mcmc.py:21-43: the attributes in order of assignment *)
Definition params_dict (lmda delta mu s : pyval) (nsamples nburn ngap : Z) (complex : pyval) (verbosity : Z)
           (track : list string) : dict pyval :=
  [("lmda", lmda); ("delta", delta); ("mu", mu); ("s", s); ("nsamples", VInt nsamples); ("nburn", VInt nburn);
   ("ngap", VInt ngap); ("complex", complex); ("verbosity", VInt verbosity); ("track", VNames track)]%string.

(** reading attributes of the types the loops need; another type is a TypeError *)
Definition as_int (v : pyval) : res Z := match v with VInt z => Ok z | _ => Raise TypeError end.
Definition as_names (v : pyval) : res (list string) := match v with VNames l => Ok l | _ => Raise TypeError end.
Definition as_step (v : pyval) : res P := match v with VStep p => Ok p | _ => Raise TypeError end.

(** the zeros of the tracking arrays *)
Variables (zK : K) (zD : D) (zV : V).

(** [if name in self.track: self.attr = np.zeros(self.nsamples)], mcmc.py:114-128 *)
Definition init_array (h : heap) (self : nat) (name attr : string) (mk : nat -> pyval) : res heap :=
  let* tv := getattr h self "track" in
  let* tr := as_names tv in
  if str_in name tr then
    let* nv := getattr h self "nsamples" in
    let* n := as_int nv in
    if n <? 0 then Raise ValueError else Ok (setattr h self attr (mk (Z.to_nat n)))
  else Ok h.

(** _initialise_tracking_arrays *)
Definition initialise_tracking_arrays (h : heap) (self : nat) : res heap :=
  let* h := init_array h self "logposterior" "logPi" (fun n => VScal (repeat zK n)) in
  let* h := init_array h self "predictions" "preds" (fun n => VPred (repeat zD n)) in
  let* h := init_array h self "chain" "chain" (fun n => VChain (repeat zV n)) in
  let* h := init_array h self "L2" "L2s" (fun n => VScal (repeat zK n)) in
  init_array h self "prior" "priors" (fun n => VScal (repeat zK n)).

(** [for attr in mcmcparams.__dict__.keys(): setattr(self, attr, getattr(mcmcparams, attr))],
    mcmc.py:59-60 *)
Definition copy_attr (lp self : nat) (h : heap) (k : string) : heap :=
  match getattr h lp k with Ok v => setattr h self k v | Raise _ => h end.
Definition copy_attrs (h : heap) (lp self : nat) : heap :=
  match hget h lp with
  | Some d => fold_left (copy_attr lp self) (dkeys d) h
  | None => h
  end.

(** PxMCMC.__init__, mcmc.py:56-61: returns the new object's location.  When the
    arrays cannot be created the half-built object is dropped. *)
Definition PxMCMC_init (h : heap) (forward prior : pyval) (lp : nat) : res (heap * nat) :=
  match hget h lp with
  | None => Raise AttributeError
  | Some _ =>
    let self := length h in
    let h := h ++ [[]] in
    let h := setattr h self "forward" forward in
    let h := setattr h self "prior" prior in
    let h := copy_attrs h lp self in
    let* h := initialise_tracking_arrays h self in
    Ok (h, self)
  end.

(** ** Running a sampler object *)

Definition opt_scal (v : option pyval) : option (list K) := match v with Some (VScal l) => Some l | _ => None end.
Definition opt_pred (v : option pyval) : option (list D) := match v with Some (VPred l) => Some l | _ => None end.
Definition opt_chain (v : option pyval) : option (list V) := match v with Some (VChain l) => Some l | _ => None end.
Definition opt_acc (v : option pyval) : option (list Z) := match v with Some (VAcc l) => Some l | _ => None end.
Definition opt_deltas (v : option pyval) : option (list P) := match v with Some (VDeltas l) => Some l | _ => None end.

(** the attributes the loops use, stdout so far [out] *)
Definition read_inst (d : dict pyval) (out : list (event K)) : res (inst V D K P) :=
  match dget d "delta" with
  | Some (VStep p) =>
      Ok (mkInst (opt_scal (dget d "logPi")) (opt_scal (dget d "L2s")) (opt_scal (dget d "priors"))
                 (opt_pred (dget d "preds")) (opt_chain (dget d "chain"))
                 (opt_acc (dget d "acceptance_trace")) (opt_deltas (dget d "deltas_trace")) p out)
  | Some _ => Raise TypeError
  | None => Raise AttributeError
  end.
Definition dset_opt {A} (d : dict pyval) (k : string) (mk : A -> pyval) (o : option A) : dict pyval :=
  match o with Some a => dset d k (mk a) | None => d end.
Definition write_inst (d : dict pyval) (s : inst V D K P) : dict pyval :=
  let d := dset_opt d "logPi" VScal (i_logPi s) in
  let d := dset_opt d "L2s" VScal (i_L2s s) in
  let d := dset_opt d "priors" VScal (i_priors s) in
  let d := dset_opt d "preds" VPred (i_preds s) in
  let d := dset_opt d "chain" VChain (i_chain s) in
  let d := dset_opt d "acceptance_trace" VAcc (i_acc s) in
  let d := dset_opt d "deltas_trace" VDeltas (i_deltas s) in
  dset d "delta" (VStep (i_delta s)).
(** the scheduling parameters are attributes of the sampler *)
Definition read_params (d : dict pyval) : res params :=
  let get k := match dget d k with Some v => as_int v | None => Raise AttributeError end in
  let* n := get "nsamples"%string in
  let* b := get "nburn"%string in
  let* g := get "ngap"%string in
  let* v := get "verbosity"%string in
  let* t := match dget d "track" with Some v => as_names v | None => Raise AttributeError end in
  Ok {| p_nsamples := n; p_nburn := b; p_ngap := g; p_verbosity := v; p_track := t |}.

Inductive sampler_kind := KMyula | KPxmala (tune : bool) | KSkrock.
(** operators of a sampler object, from its attributes (forward, prior, lmda,
    mu, s, complex) *)
Variable mko : dict pyval -> ops V D K P G I.

Definition run_kind (k : sampler_kind) (o : ops V D K P G I) (prm : params) (fuel : nat) (start : I) : M unit :=
  match k with
  | KMyula => myula_run o prm fuel start
  | KPxmala tune => pxmala_run o prm tune fuel start
  | KSkrock => skrock_run o prm fuel start
  end.

(** state: heap, generator, stdout *)
Record pyworld := mkPy { py_heap : heap; py_rng : G; py_out : list (event K) }.

(** sampler.run(start), stopped after [fuel] iterations if still running; what
    was written before an exception stays *)
Definition run_sampler (w : pyworld) (l : nat) (k : sampler_kind) (fuel : nat) (start : I) : pyworld * outcome unit :=
  match hget (py_heap w) l with
  | None => (w, Exn AttributeError)
  | Some d =>
    match read_params d, read_inst d (py_out w) with
    | Ok prm, Ok s =>
        let (w', r) := run_kind k (mko d) prm fuel start (mkWorld s (py_rng w)) in
        (mkPy (upd (py_heap w) l (write_inst d (w_inst w'))) (w_rng w') (i_out (w_inst w')), r)
    | Raise e, _ => (w, Exn e)
    | _, Raise e => (w, Exn e)
    end
  end.

(** what a session does: construct samplers from params objects, run them *)
Inductive action := ANew (forward prior : pyval) (lp : nat) | ARun (l : nat) (k : sampler_kind) (fuel : nat) (start : I).
Definition exec (w : pyworld) (a : action) : pyworld :=
  match a with
  | ANew f p lp => match PxMCMC_init (py_heap w) f p lp with
                   | Ok (h, _) => mkPy h (py_rng w) (py_out w)
                   | Raise _ => w
                   end
  | ARun l k fuel start => fst (run_sampler w l k fuel start)
  end.
Definition session (w : pyworld) (acts : list action) : pyworld := fold_left exec acts w.

(** ** save_mcmc *)

(** an HDF5 file: datasets and attributes; h5py's conversions are oracles (the
    flag says dtype="i1" was requested) *)
Context {B : Type}.
Record h5file := mkH5 { h5_datasets : dict B; h5_attrs : dict B }.
Definition filesys := string -> option h5file.
Variables (h5_open : string -> res unit) (h5_data : bool -> pyval -> res B) (h5_attr : pyval -> res B).

(** os.path.join(a, b) for two strings on a POSIX system *)
Definition starts_with_slash (s : string) : bool :=
  match s with String c _ => Ascii.eqb c "/"%char | EmptyString => false end.
Fixpoint ends_with_slash (s : string) : bool :=
  match s with
  | EmptyString => false
  | String c EmptyString => Ascii.eqb c "/"%char
  | String _ s' => ends_with_slash s'
  end.
Definition path_join (a b : string) : string :=
  if starts_with_slash b then b
  else if String.eqb a "" || ends_with_slash a then append a b
  else append a (append "/" b).

Definition file_put (fs : filesys) (p : string) (f : h5file) : filesys :=
  fun q => if String.eqb q p then Some f else fs q.

(** state while writing: the open file, and an exception if one was raised *)
Definition fstep := (h5file * option exn)%type.
(** [if hasattr(mcmc, a): f.create_dataset(n, data=mcmc.a)] *)
Definition put_dataset (h : heap) (mcmc : nat) (st : fstep) (x : string * string * bool) : fstep :=
  match st with
  | (f, Some e) => st
  | (f, None) =>
    let '(a, n, i1) := x in
    if hasattr h mcmc a then
      match (let* v := getattr h mcmc a in h5_data i1 v) with
      | Ok b => (mkH5 (dset (h5_datasets f) n b) (h5_attrs f), None)
      | Raise e => (f, Some e)
      end
    else st
  end.
(** [f.attrs[k] = v] *)
Definition put_attr (st : fstep) (kv : string * res pyval) : fstep :=
  match st with
  | (f, Some e) => st
  | (f, None) =>
    match (let* v := snd kv in h5_attr v) with
    | Ok b => (mkH5 (h5_datasets f) (dset (h5_attrs f) (fst kv) b), None)
    | Raise e => (f, Some e)
    end
  end.
(** save_mcmc, saving.py:5-36.  The file is opened with mode "w". *)
Definition save_mcmc (fs : filesys) (h : heap) (mcmc lp : nat) (outpath filename : string) (kwargs : dict pyval)
  : filesys * res unit :=
  let path := path_join outpath (append filename ".hdf5") in
  match h5_open path with
  | Raise e => (fs, Raise e)
  | Ok _ =>
    let st := (mkH5 [] [], None) in
    let st := fold_left (put_dataset h mcmc)
      [("logPi", "logposterior", false); ("preds", "predictions", false); ("chain", "chain", false);
       ("L2s", "L2s", false); ("priors", "priors", false);
       ("acceptance_trace", "acceptances", true); ("deltas_trace", "deltas", false)]%string st in
    let keys := match hget h lp with Some d => dkeys d | None => [] end in
    let st := fold_left put_attr (map (fun k => (k, getattr h lp k)) keys) st in
    let st := fold_left put_attr (map (fun kv => (fst kv, Ok (snd kv))) kwargs) st in
    (file_put fs path (fst st), match snd st with Some e => Raise e | None => Ok tt end)
  end.
End Obj.
Arguments pyval : clear implicits.
Arguments heap : clear implicits.
Arguments pyworld : clear implicits.
Arguments action : clear implicits.
Arguments h5file : clear implicits.
