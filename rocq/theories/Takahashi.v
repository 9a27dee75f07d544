(** Model of /repo/experiments/weaklensing/download_takahasi.py.  A binary file
    is a list of 32-bit words (its length in bytes is assumed to be a multiple of
    4); a word is a number in [0, 2^32).  Decoding a float32 is an oracle. *)
From Coq Require Import List ZArith Lia Bool.
From Verif Require Import PyBase.
Import ListNotations.
Open Scope Z_scope.

(** [np.fromfile(f, dtype, count=n)] for a 4-byte dtype: at most n items, all of
    them for a negative n; the file position moves past what was read *)
Definition fromfile {W} (n : Z) (s : list W) : list W * list W :=
  if n <? 0 then (s, []) else (firstn (Z.to_nat n) s, skipn (Z.to_nat n) s).
(** [np.fromfile(.., count=1)[0]]: IndexError at the end of the file *)
Definition read1 {W} (s : list W) : res (W * list W) :=
  match s with w :: s' => Ok (w, s') | [] => Raise IndexError end.
(** the same with dtype int64: two little-endian words, signed *)
Definition int64 (lo hi : Z) : Z := let u := lo + 2 ^ 32 * hi in if u <? 2 ^ 63 then u else u - 2 ^ 64.
Definition int32 (w : Z) : Z := if w <? 2 ^ 31 then w else w - 2 ^ 32.
Definition read_int64 (s : list Z) : res (Z * list Z) :=
  match s with lo :: hi :: s' => Ok (int64 lo hi, s') | _ => Raise IndexError end.

(** lines 21-22 *)
Definition skip : list Z := [0; 536870908; 1073741818; 1610612728; 2147483638; 2684354547; 3221225457].
Definition load_blocks : list Z := map (fun i => nth (S i) skip 0 - nth i skip 0) (seq 0 6).

(** the loop that loads one field, lines 33-46 (kappa), repeated on lines 48-61
    (gamma1), 63-76 (gamma2) and 78-91 (omega); [acc] is the array built so far *)
Fixpoint read_field {W} (blocks : list Z) (r : Z) (acc s : list W) : list W * list W :=
  match blocks with
  | [] => (acc, s)
  | l :: blocks' =>
      let b := Z.min l r in
      let (load, s1) := fromfile b s in
      let (_, s2) := fromfile 2 s1 in
      let acc := acc ++ load in
      let r := r - b in
      if r =? 0 then (acc, s2)
      else match blocks' with
           | [] => if 0 <? r then
                     let (load, s3) := fromfile r s2 in
                     let (_, s4) := fromfile 2 s3 in
                     (acc ++ load, s4)
                   else (acc, s2)
           | _ => read_field blocks' r acc s2
           end
  end.

(** what the function has read: header values, the four fields, the unread rest *)
Record contents := mkContents {
  c_nside : Z; c_npix : Z;
  c_kappa : list Z; c_gamma1 : list Z; c_gamma2 : list Z; c_omega : list Z;
  c_rest : list Z }.

(** lines 24-91 *)
Definition read_contents (s : list Z) : res contents :=
  let* (_, s) := read1 s in
  let* (nside, s) := read1 s in
  let* (npix, s) := read_int64 s in
  let* (_, s) := read1 s in
  let* (_, s) := read1 s in
  let (kappa, s) := read_field load_blocks npix [] s in
  let (gamma1, s) := read_field load_blocks npix [] s in
  let (gamma2, s) := read_field load_blocks npix [] s in
  let (omega, s) := read_field load_blocks npix [] s in
  Ok (mkContents (int32 nside) npix kappa gamma1 gamma2 omega s).

(** binary_to_fits, lines 16-96: the map handed to healpy's write_map (an
    oracle); [file] is the outcome of opening the file *)
Definition binary_to_fits {V F} (f32 : Z -> V) (write_map : list V -> res F) (file : res (list Z)) : res F :=
  let* s := file in
  let* c := read_contents s in
  write_map (map f32 (c_kappa c)).

(** the option checks of the main script, lines 113-122 (asserts in order) *)
Definition assert (b : bool) : res unit := if b then Ok tt else Raise AssertionError.
Definition options_ok (nres realisation redshift_id : Z) : res unit :=
  let* _ := assert ((nres =? 12) || (nres =? 13) || (nres =? 14)) in
  let* _ := if ((nres =? 12) || (nres =? 13)) then assert ((0 <=? realisation) && (realisation <=? 107))
            else assert (nres =? 0) in
  assert ((1 <=? redshift_id) && (redshift_id <=? 66)).
