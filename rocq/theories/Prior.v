(** Model of /repo/pxmcmc/prior.py: L1 (8-53), S2_Wavelets_L1 (56-84),
    S2_Wavelets_L1_Power_Weights (87-149).  Arithmetic is exact; integer arrays
    T and division by a wavelet of zero power are not modelled. *)
From Coq Require Import List ZArith Lia Bool Reals Lra String.
From Coquelicot Require Import Coquelicot.
From Verif Require Import PyBase CVec RSort Thresh Quad Utils.
Import ListNotations.
Open Scope R_scope.

(** attributes of L1, prior.py:23-26 *)
Record l1 := mkL1 {
  p_setting : string;
  p_fwd : vec -> res vec;
  p_adj : vec -> res vec;
  p_T : thr }.

(** [setting in ["analysis", "synthesis"]] *)
Definition known_setting (s : string) : bool := String.eqb s "analysis" || String.eqb s "synthesis".

(** L1.__init__, prior.py:21-26 *)
Definition L1_init (setting : string) (fwd adj : vec -> res vec) (T : thr) : res l1 :=
  if known_setting setting then Ok (mkL1 setting fwd adj T) else Raise AssertionError.

(** L1.prior, prior.py:28-35: sum(abs(X)) *)
Definition L1_prior (X : vec) : R := rsum (vabs X).

(** _proxf_synthesis, prior.py:49-50 *)
Definition proxf_synthesis (p : l1) (X : vec) : res vec := soft X (p_T p).
(** _proxf_analysis, prior.py:52-53 *)
Definition proxf_analysis (p : l1) (X : vec) : res vec :=
  let* a := p_adj p X in
  let* s := soft a (p_T p) in
  let* a' := p_adj p X in
  let* d := np_sub s a' in
  let* f := p_fwd p d in
  np_add X f.
(** proxf, prior.py:37-47 *)
Definition proxf (p : l1) (X : vec) : res vec :=
  if String.eqb (p_setting p) "synthesis" then proxf_synthesis p X else proxf_analysis p X.

(** ** S2_Wavelets_L1 *)

(** [self.T *= w] for a float array w.  A scalar T becomes a new array; an
    array T is overwritten in place, so w must broadcast to its shape. *)
Definition thr_imul (T : thr) (w : list R) : res thr :=
  match T with
  | TScal t => Ok (TVec (map (Rmult t) w))
  | TVec ts =>
      if Nat.eqb (List.length ts) (List.length w) then Ok (TVec (map2 Rmult ts w))
      else match w with
           | [c] => Ok (TVec (map (fun t => t * c) ts))
           | _ => Raise ValueError
           end
  end.

(** attributes of S2_Wavelets_L1 that matter: the base class and map_weights *)
Record s2l1 := mkS2 { s_l1 : l1; s_weights : list R }.

(** replace T *)
Definition with_T (p : l1) (T : thr) : l1 := mkL1 (p_setting p) (p_fwd p) (p_adj p) T.

(** [np.concatenate([mw_map_weights(el) for el in bls])], prior.py:78 *)
Definition quad_weights (bls : list nat) : res (list R) :=
  let* ws := rseq (map (fun el => mw_map_weights (Z.of_nat el)) bls) in
  match ws with [] => Raise ValueError | _ => Ok (List.concat ws) end.

(** S2_Wavelets_L1.__init__, prior.py:67-81; [til] is the wavelet tiling for
    the arguments (B, L, dirs, J_min, spin).  J_max and nscales (72-73) are
    attributes nobody reads. *)
Definition S2_init (setting : string) (fwd adj : vec -> res vec) (T : thr) (L : nat) (til : tiling) : res s2l1 :=
  let* p := L1_init setting fwd adj T in
  if String.eqb setting "synthesis" then
    let* bls := multires_bandlimits L til in
    let* w := quad_weights bls in
    let* T' := thr_imul (p_T p) w in
    Ok (mkS2 (with_T p T') w)
  else Raise NotImplementedError.

(** prior, prior.py:83-84: sum(abs(map_weights * X)) *)
Definition S2_prior (p : s2l1) (X : vec) : res R :=
  let* y := np_mul (map RtoC (s_weights p)) X in Ok (L1_prior y).
(** proxf is inherited *)
Definition S2_proxf (p : s2l1) (X : vec) : res vec := proxf (s_l1 p) X.

(** ** S2_Wavelets_L1_Power_Weights *)

(** colatitudes of the MW samples (pyssht.sample_positions) *)
Definition sample_thetas (L : nat) : list R := map (fun t => INR (2 * t + 1) * PI / INR (2 * L - 1)) (seq 0 L).
(** pyssht.sample_length *)
Definition sample_length (L : nat) : nat := (L * (2 * L - 1))%nat.

(** [(np.full(sample_shape(L), c).T * np.sin(thetas)).T.flatten()] *)
Definition sin_weights (L : nat) (c : R) : list R :=
  flat_map (fun th => repeat (c * sin th) (2 * L - 1)) (sample_thetas L).

(** _calculate_scaling_weights, prior.py:120-128, flattened; np.vdot(x,x).real
    is the squared norm *)
Definition scaling_weights (til : tiling) : res (list R) :=
  let scaling_power := nrm2 (phi_l til) in
  let* eL := bandlimit_of (phi_l til) in
  Ok (sin_weights eL (2 * PI ^ 2 / (scaling_power * INR (sample_length eL)))).

(** numpy order on complex numbers *)
Definition clex_ltb (a b : C) : bool :=
  if Rltb (fst a) (fst b) then true
  else if Rltb (fst b) (fst a) then false else Rltb (snd a) (snd b).
(** [np.argmax]: the first position of the maximum *)
Fixpoint argmax_from (l : vec) (k best : nat) (bv : C) : nat :=
  match l with
  | [] => best
  | z :: l' => if clex_ltb bv z then argmax_from l' (S k) k z else argmax_from l' (S k) best bv
  end.
Definition np_argmax (l : vec) : res nat :=
  match l with [] => Raise ValueError | z :: l' => Ok (argmax_from l' 1 0 z) end.

(** the exponent eta: a Python int or float *)
Inductive expo := EInt (z : Z) | EFloat (r : R).
(** [peak_l ** eta] for a numpy integer peak_l; a negative int exponent is a
    ValueError; 0 to a negative float (inf) is not modelled *)
Definition int_pow (n : nat) (e : expo) : res R :=
  match e with
  | EInt z => if (z <? 0)%Z then Raise ValueError else Ok (INR n ^ Z.to_nat z)
  | EFloat r => Ok (match n with O => if Reqb r 0 then 1 else 0 | _ => Rpower (INR n) r end)
  end.

(** the three zipped sequences of prior.py:143 *)
Fixpoint zip3 {A B D} (a : list A) (b : list B) (c : list D) : list (A * B * D) :=
  match a, b, c with
  | x :: a', y :: b', z :: c' => (x, y, z) :: zip3 a' b' c'
  | _, _, _ => []
  end.

(** _calculate_wavelet_weights, prior.py:130-149: the band limits used and, for
    every scale, its flattened weights.  [til0] is the tiling for the default
    dirs=1, spin=0 (prior.py:131), [til] the one for self.dirs, self.spin. *)
Definition wavelet_weights (L : nat) (til0 til : tiling) (eta : expo) : res (list (nat * list R)) :=
  let* bls := multires_bandlimits L til0 in
  let powers := map nrm2 (psi_cols til) in
  let* psi_l := rseq (map (m0_part L) (psi_cols til)) in
  let* peaks := rseq (map np_argmax psi_l) in
  rseq (map (fun q => let '(eL, power, peak) := q in
         let* pw := int_pow peak eta in
         Ok (eL, sin_weights eL ((2 * PI ^ 2) * pw / (power * INR (sample_length eL)))))
       (zip3 (tl bls) powers peaks)).

(** all scales have the same band limit: np.array(all_weights, dtype=list) is
    then an N-d array of objects instead of a list of float arrays *)
Definition all_same (l : list nat) : bool :=
  match l with [] => true | a :: l' => forallb (Nat.eqb a) l' end.

(** __init__, prior.py:101-108, and _get_weights, prior.py:113-118.  When all
    scales have the same band limit the weights are an object array and
    [self.T *= self.map_weights] (108) raises TypeError. *)
Definition Power_init (setting : string) (fwd adj : vec -> res vec) (T : thr) (L : nat)
                      (til0 til : tiling) (eta : expo) : res s2l1 :=
  let* b := S2_init setting fwd adj T L til in
  let* s := scaling_weights til in
  let* ww := wavelet_weights L til0 til eta in
  match ww with
  | [] => Raise ValueError
  | _ =>
      let w := (s ++ List.concat (map snd ww))%list in
      if all_same (map fst ww) then Raise TypeError
      else let* T' := thr_imul (p_T (s_l1 b)) w in
           Ok (mkS2 (with_T (s_l1 b) T') w)
  end.

(** prior, prior.py:110-111: multiplies by map_weights and calls
    S2_Wavelets_L1.prior, which multiplies by map_weights again *)
Definition Power_prior (p : s2l1) (X : vec) : res R :=
  let* y := np_mul (map RtoC (s_weights p)) X in S2_prior p y.
