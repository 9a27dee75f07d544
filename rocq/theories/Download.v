(** Model of download_binary and of the main script of
    /repo/experiments/weaklensing/download_takahasi.py (99-139).  The current
    directory is a function from names to contents (32-bit words as in
    Takahashi.v), the network and healpy's serialisation are oracles.  Opening,
    writing and renaming files succeed; the progress bar is left out. *)
From Coq Require Import List ZArith Lia Bool String Ascii DecimalString.
From Verif Require Import PyBase Takahashi.
Import ListNotations.
Open Scope Z_scope.

(** ** format strings *)

(** [f"{z}"] *)
Definition dec (z : Z) : string := NilZero.string_of_int (Z.to_int z).
Fixpoint zeros (n : nat) : string := match n with O => EmptyString | S n' => String "0" (zeros n') end.
(** [f"{z:03}"]: zeros between the sign and the digits up to three characters *)
Definition dec03 (z : Z) : string :=
  let sign := if z <? 0 then "-"%string else EmptyString in
  let digits := dec (Z.abs z) in
  (sign ++ zeros (3 - String.length sign - String.length digits) ++ digits)%string.

(** filename_bin and filename_fits, lines 124-127 *)
Definition filename_bin (nres realisation redshift_id : Z) : string :=
  ("allskymap_nres" ++ dec nres ++ "r" ++ dec03 realisation ++ ".zs" ++ dec redshift_id ++ ".mag.dat")%string.
Definition filename_fits (nres realisation redshift_id : Z) : string :=
  ("takahasi_" ++ dec (2 ^ nres) ++ "_" ++ dec03 realisation ++ "_zs" ++ dec redshift_id ++ "_kappa.fits")%string.

(** ** the address, lines 104-106 *)

(** [filename.find("nres")] *)
Definition find_nres (s : string) : Z := match index 0 "nres" s with Some i => Z.of_nat i | None => -1 end.
(** [int(s)] for a string of digits; anything else raises ValueError here (Python
    also takes signs, blanks and underscores) *)
Definition digit (c : ascii) : option Z :=
  let n := Z.of_nat (nat_of_ascii c) in if (48 <=? n) && (n <=? 57) then Some (n - 48) else None.
Fixpoint digits (acc : Z) (s : string) : res Z :=
  match s with
  | EmptyString => Ok acc
  | String c s' => match digit c with Some d => digits (10 * acc + d) s' | None => Raise ValueError end
  end.
Definition py_int (s : string) : res Z := match s with EmptyString => Raise ValueError | _ => digits 0 s end.
(** [filename[ind + 4 : ind + 6]] (both bounds are positive) *)
Definition nres_of (filename : string) : res Z := py_int (substring (Z.to_nat (find_nres filename + 4)) 2 filename).
Definition url_of (filename : string) : res string :=
  let* nres := nres_of filename in
  Ok ("http://cosmo.phys.hirosaki-u.ac.jp/takahasi/allsky_raytracing/sub1/nres" ++ dec nres ++ "/" ++ filename)%string.

(** ** the outside world *)

(** what the server sends: the status code (which nobody looks at), int() of the
    Content-Length header (None: no such header), what arrives of the body, and
    the exception that interrupts it, if any *)
Record response := mkResp { r_status : Z; r_length : option (res Z); r_body : list Z; r_break : option exn }.
Inductive message := MDownloading | MConverting (bin fits : string) | MHeader (nside npix : Z) | MCompleted | MFound (fits : string).
Record dworld := mkDW {
  d_files : string -> option (list Z);
  d_urls : list string;        (* addresses requested, oldest first *)
  d_out : list message }.      (* stdout, oldest first *)

Definition D (A : Type) := dworld -> dworld * res A.
Definition dret {A} (a : A) : D A := fun w => (w, Ok a).
Definition dbind {A B} (m : D A) (k : A -> D B) : D B := fun w => match m w with (w', Ok a) => k a w' | (w', Raise e) => (w', Raise e) end.
Definition dlift {A} (r : res A) : D A := fun w => (w, r).
Definition dprint (m : message) : D unit := fun w => (mkDW (d_files w) (d_urls w) (d_out w ++ [m]), Ok tt).
Definition dread (name : string) : D (option (list Z)) := fun w => (w, Ok (d_files w name)).
Definition put (fs : string -> option (list Z)) (name : string) (c : option (list Z)) : string -> option (list Z) :=
  fun k => if String.eqb k name then c else fs k.
Definition dput (name : string) (c : option (list Z)) : D unit := fun w => (mkDW (put (d_files w) name c) (d_urls w) (d_out w), Ok tt).

(** OSError of healpy.write_map for an existing file (overwrite=False), and
    FileNotFoundError *)
Definition FileExists : exn := OpError 17.
Definition FileNotFound : exn := OpError 2.

Section Script.
Context {V : Type}.
Context (net : string -> res response).                     (* requests.get *)
Context (f32 : Z -> V).                                     (* decoding of a float32 *)
Context (ser : list V -> option (list Z) * res unit).       (* write_map: what is in the file afterwards, outcome *)

(** requests.get(url, stream=True) *)
Definition dget (url : string) : D response := fun w => (mkDW (d_files w) (d_urls w ++ [url]) (d_out w), net url).

(** download_binary, lines 99-110.  Opening with "wb" empties the file; what
    arrived stays there when the transfer breaks off. *)
Definition download_binary (filename : string) : D unit :=
  dbind (dlift (url_of filename)) (fun url =>
  dbind (dget url) (fun r =>
  dbind (dlift (match r_length r with None => Raise TypeError | Some n => n end)) (fun _ =>
  dbind (dput filename (Some (r_body r))) (fun _ =>
  match r_break r with Some e => dlift (Raise e) | None => dret tt end)))).

(** hp.fitsfunc.write_map(name, kappa) *)
Definition write_map (name : string) (m : list V) : D unit :=
  dbind (dread name) (fun c =>
  match c with
  | Some _ => dlift (Raise FileExists)
  | None => let (left_in_file, out) := ser m in dbind (dput name left_in_file) (fun _ => dlift out)
  end).

(** binary_to_fits as called by the script, lines 16-96; the header is printed
    (line 29) before the rest is read *)
Definition convert (filename : string) : D unit :=
  dbind (dread filename) (fun c =>
  dbind (dlift (match c with None => Raise FileNotFound | Some s => Ok s end)) (fun s =>
  dbind (dlift (let* (_, s) := read1 s in let* (nside, s) := read1 s in let* (npix, s) := read_int64 s in let* _ := read1 s in Ok (int32 nside, npix))) (fun h =>
  dbind (dprint (MHeader (fst h) (snd h))) (fun _ =>
  dbind (dlift (read_contents s)) (fun k =>
  dbind (dprint MCompleted) (fun _ =>
  write_map "output.fits" (map f32 (c_kappa k)))))))).

(** os.rename(a, b): replaces b *)
Definition drename (a b : string) : D unit :=
  dbind (dread a) (fun c =>
  match c with None => dlift (Raise FileNotFound) | Some _ => dbind (dput a None) (fun _ => dput b c) end).

(** the main script, lines 112-139; the three options are constants in the file *)
Definition download_script (nres realisation redshift_id : Z) : D unit :=
  dbind (dlift (options_ok nres realisation redshift_id)) (fun _ =>
  let bin := filename_bin nres realisation redshift_id in
  let fits := filename_fits nres realisation redshift_id in
  dbind (dread fits) (fun cf =>
  match cf with
  | Some _ => dprint (MFound fits)
  | None =>
      dbind (dread bin) (fun cb =>
      dbind (match cb with
             | Some _ => dret tt
             | None => dbind (dprint MDownloading) (fun _ => download_binary bin)
             end) (fun _ =>
      dbind (dprint (MConverting bin fits)) (fun _ =>
      dbind (convert bin) (fun _ =>
      drename "output.fits" fits))))
  end)).
End Script.
