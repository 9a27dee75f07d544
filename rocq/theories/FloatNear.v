(** Rounding errors of the path problem (C64). *)
From Coq Require Import List ZArith Lia Bool Reals Lra Psatz.
From Coquelicot Require Import Coquelicot.
From Verif Require Import PyBase PyBaseFacts CVec OpSpec Forward FwdProof Measure RSort Thresh ThreshSpec ThreshProof Prior Mcmc
  Sampler StableProof Ieee IeeeProof ParamSpec RepSpec ExactProof RoundProof FloatOps FloatProof.
Import ListNotations.
Notation length := List.length.
Open Scope R_scope.

Definition nearv (e : R) (a b : list R) : Prop := List.Forall2 (fun u v => Rabs (u - v) <= e) a b.

Lemma nearv_nth : forall e a b i, 0 <= e -> nearv e a b -> Rabs (nth i a 0 - nth i b 0) <= e.
Proof.
  intros e a b i He H. revert i. induction H as [|x y a b Hx H IH]; intros [|i]; cbn; auto; rewrite Rminus_0_r, Rabs_R0; auto.
Qed.
Lemma within_nth : forall A a i, 0 <= A -> within A a -> Rabs (nth i a 0) <= A.
Proof.
  intros A a i HA H. revert i. induction H as [|x a Hx H IH]; intros [|i]; cbn; auto; rewrite Rabs_R0; auto.
Qed.
Lemma nearv_length : forall e a b, nearv e a b -> length a = length b.
Proof. intros e a b H. induction H; cbn; congruence. Qed.
Lemma nearv_refl : forall e a, 0 <= e -> nearv e a a.
Proof. intros e a He. induction a as [|x a IH]; constructor; [|exact IH]. replace (x - x) with 0 by ring. rewrite Rabs_R0. auto. Qed.
Lemma nearv_weaken : forall e e' a b, nearv e a b -> e <= e' -> nearv e' a b.
Proof. intros e e' a b H L. induction H; constructor; auto. lra. Qed.
Lemma within_weaken : forall e e' a, within e a -> e <= e' -> within e' a.
Proof. intros e e' a H L. induction H; constructor; auto. lra. Qed.
Lemma near_close : forall e a b, nearv e a b -> close e (map RtoC a) (map RtoC b).
Proof. intros e a b H. induction H as [|x y a b Hx H IH]; constructor; [|exact IH]. rewrite rtoc_sub, Cmod_R. auto. Qed.

Section Near.
Variables (rnd : R -> float) (M eps : R).
Hypothesis AC : accurate rnd M eps.
Hypothesis E1 : eps <= 1.

Lemma acc : forall x b, Rabs x <= b -> b <= M -> exists y, rnd x = Fin y /\ Rabs (y - x) <= eps /\ Rabs y <= b + 1.
Proof.
  intros x b H HM. destruct AC as (E0 & ACC). destruct (ACC x) as (y & E & B); [lra|]. exists y. split; [auto|]. split; [auto|].
  apply Rabs_le. apply Rabs_le_between in H. apply Rabs_le_between in B. lra.
Qed.

(** *** a row of a matrix *)
Section Row.
Variables (am B e K : R) (v v' : list R).
Hypothesis Ham : 0 <= am.
Hypothesis HB : 0 <= B.
Hypothesis He : 0 <= e.
Hypothesis WB : within B v.
Hypothesis NV : nearv e v v'.

Lemma near_sum : forall r z z' k, List.Forall (fun p => Rabs (snd p) <= am) r ->
  Rabs z <= INR k * (am * B + 2) -> Rabs (z - z') <= INR k * (2 * eps + am * e) -> INR (k + length r) * (am * B + 2) <= M ->
  exists y, fold_left (fadd rnd) (map (fun p => fmul rnd (snd p) (nth (fst p) (map Fin v) (Fin 0))) (frow r)) (Fin z) = Fin y /\
    Rabs y <= INR (k + length r) * (am * B + 2) /\ Rabs (y - (z' + sp r v')) <= INR (k + length r) * (2 * eps + am * e).
Proof.
  assert (AB : 0 <= am * B) by (apply Rmult_le_pos; auto). assert (E0 : 0 <= eps) by apply AC. assert (AE : 0 <= am * e) by (apply Rmult_le_pos; auto).
  induction r as [|(i & a) r IH]; intros z z' k FA Bz Nz HM.
  - cbn [map fold_left frow length] in *. rewrite Nat.add_0_r in *. exists z. unfold sp. cbn [map]. change (rsum []) with 0. rewrite Rplus_0_r. auto.
  - inversion FA as [|? ? Ha FA']; subst. cbn [snd] in Ha. cbn [frow map fold_left fst snd length] in *.
    rewrite (map_nth Fin). cbn [fmul]. set (x := nth i v 0). assert (Bx : Rabs x <= B) by (apply within_nth; auto).
    assert (Bp : Rabs (a * x) <= am * B) by (rewrite Rabs_mult; apply Rmult_le_compat; auto using Rabs_pos).
    rewrite <- plus_n_Sm in HM. assert (HK : INR (S k) * (am * B + 2) <= M).
    { eapply Rle_trans; [|exact HM]. apply Rmult_le_compat_r; [lra|]. apply le_INR. lia. }
    rewrite S_INR in HK. assert (IK : 0 <= INR k) by apply pos_INR. assert (KP : 0 <= INR k * (am * B + 2)) by (apply Rmult_le_pos; lra).
    destruct (acc (a * x) (am * B) Bp) as (p & Ep & Np & Bp'); [nra|]. rewrite Ep. cbn [fadd].
    assert (Bs : Rabs (z + p) <= INR k * (am * B + 2) + (am * B + 1)) by (eapply Rle_trans; [apply Rabs_triang|]; lra).
    destruct (acc (z + p) _ Bs) as (q & Eq & Nq & Bq); [nra|]. rewrite Eq.
    assert (Ne : Rabs (a * x - a * nth i v' 0) <= am * e).
    { rewrite <- Rmult_minus_distr_l, Rabs_mult. apply Rmult_le_compat; auto using Rabs_pos. now apply nearv_nth. }
    destruct (IH q (z' + a * nth i v' 0) (S k) FA') as (y & Ey & By & Ny).
    + rewrite S_INR. nra.
    + rewrite S_INR. apply Rabs_le_between in Nz, Np, Nq, Ne. apply Rabs_le. nra.
    + exact HM.
    + exists y. rewrite <- plus_n_Sm. split; [exact Ey|]. split; [exact By|]. unfold sp in *. cbn [map fst snd].
      change (rsum (a * nth i v' 0 :: map (fun p0 => snd p0 * nth (fst p0) v' 0) r)) with (a * nth i v' 0 + rsum (map (fun p0 => snd p0 * nth (fst p0) v' 0) r)).
      rewrite <- Rplus_assoc. exact Ny.
Qed.

Hypothesis HK : K * (am * B + 2) <= M.
Lemma near_row : forall r, List.Forall (fun p => Rabs (snd p) <= am) r -> INR (length r) <= K ->
  exists y, fspdot rnd (frow r) (map Fin v) = Fin y /\ Rabs y <= K * (am * B + 2) /\ Rabs (y - sp r v') <= K * (2 * eps + am * e).
Proof.
  assert (AB : 0 <= am * B) by (apply Rmult_le_pos; auto). assert (E0 : 0 <= eps) by apply AC. assert (AE : 0 <= am * e) by (apply Rmult_le_pos; auto).
  intros r FA LK. destruct (near_sum r 0 0 0 FA) as (y & Ey & By & Ny).
  - rewrite Rabs_R0. cbn. lra.
  - rewrite Rminus_0_r, Rabs_R0. cbn. lra.
  - cbn [Nat.add]. eapply Rle_trans; [|exact HK]. apply Rmult_le_compat_r; lra.
  - cbn [Nat.add] in *. exists y. split; [exact Ey|]. rewrite Rplus_0_l in Ny. split.
    + eapply Rle_trans; [exact By|]. apply Rmult_le_compat_r; lra.
    + eapply Rle_trans; [exact Ny|]. apply Rmult_le_compat_r; lra.
Qed.
Lemma near_rows : forall W, List.Forall (fun r => List.Forall (fun p => Rabs (snd p) <= am) r /\ INR (length r) <= K) W ->
  exists ds, map (fun r => fspdot rnd r (map Fin v)) (frows W) = map Fin ds /\ within (K * (am * B + 2)) ds /\
    nearv (K * (2 * eps + am * e)) ds (map (fun r => sp r v') W).
Proof.
  induction W as [|r W IH]; intros FA; [exists []; split; [reflexivity|split; constructor]|].
  inversion FA as [|? ? (F1 & F2) FA']; subst. destruct (IH FA') as (ds & Ed & Bd & Nd). destruct (near_row r F1 F2) as (y & Ey & By & Ny).
  exists (y :: ds). cbn [frows map]. rewrite Ey. fold (frows W). rewrite Ed. split; [reflexivity|]. split; constructor; auto.
Qed.
End Row.

(** *** the residual and its weights *)
Lemma near_residual : forall D Y e d d' ys, 0 <= e -> within D d -> nearv e d d' -> within Y ys -> length ys = length d -> D + Y <= M ->
  exists rs, fzip (fsub rnd) (map Fin d) (map Fin ys) = Ok (map Fin rs) /\ within (D + Y + 1) rs /\ nearv (e + eps) rs (map2 Rminus d' ys).
Proof.
  intros D Y e d d' ys He WD ND WY L HM. unfold fzip. rewrite !map_length, L, Nat.eqb_refl.
  assert (Q : exists rs, map (fun p => fsub rnd (fst p) (snd p)) (combine (map Fin d) (map Fin ys)) = map Fin rs /\ within (D + Y + 1) rs /\ nearv (e + eps) rs (map2 Rminus d' ys)).
  { revert ys WY L WD. induction ND as [|x x' d d' Hx ND IH]; intros ys WY L WD; destruct ys as [|y ys]; try discriminate L.
    - exists []. split; [reflexivity|split; constructor].
    - inversion WY as [|? ? Hy WY']; subst. inversion WD as [|? ? Hd WD']; subst. destruct (IH ys WY' ltac:(cbn in L; congruence) WD') as (rs & Er & Br & Nr).
      destruct (acc (x + - y) (D + Y)) as (z & Ez & Nz & Bz); [|auto|].
      { eapply Rle_trans; [apply Rabs_triang|]. rewrite Rabs_Ropp. lra. }
      exists (z :: rs). cbn [map combine fst snd]. rewrite Er. unfold fsub, fneg, fadd at 1. rewrite Ez. split; [reflexivity|]. split; [constructor; auto|].
      cbn [map2]. constructor; [|exact Nr]. apply Rabs_le_between in Nz, Hx. apply Rabs_le. lra. }
  destruct Q as (rs & -> & Q). exists rs. auto.
Qed.

Lemma near_weigh : forall wm ew Rm e ws ws' rs rs', 0 <= wm -> 0 <= Rm -> 0 <= e -> within wm ws -> nearv ew ws ws' -> within Rm rs -> within Rm rs' -> nearv e rs rs' ->
  length ws = length rs -> wm * Rm + 1 <= M ->
  exists us, f_weigh rnd (map Fin ws) (map Fin rs) = Ok (map Fin us) /\ within (wm * Rm + 2) us /\
    nearv (wm * e + ew * Rm + 2 * eps) us (map2 Rmult ws' rs').
Proof.
  intros wm ew Rm e ws ws' rs rs' Hw HR He WW NW WR WR' NR L HM. unfold f_weigh, fzip. rewrite !map_length, L, Nat.eqb_refl.
  assert (E0 : 0 <= eps) by apply AC. assert (WP : 0 <= wm * Rm) by (apply Rmult_le_pos; auto).
  match goal with |- exists us, Ok ?m = _ /\ _ => assert (Q : exists us, m = map Fin us /\ within (wm * Rm + 2) us /\ nearv (wm * e + ew * Rm + 2 * eps) us (map2 Rmult ws' rs')) end.
  { revert ws ws' WW NW L. induction NR as [|r r' rs rs' Hr NR IH]; intros ws ws' WW NW L; inversion NW as [|w w' ws0 ws0' Hw' NW']; subst; try discriminate L.
    - exists []. split; [reflexivity|split; constructor].
    - inversion WW as [|? ? Bw WW']; subst. inversion WR as [|? ? Br WR1]; subst. inversion WR' as [|? ? Br' WR1']; subst.
      destruct (IH WR1 WR1' ws0 ws0' WW' NW' ltac:(cbn in L; congruence)) as (us & Eu & Bu & Nu).
      assert (N0 : Rabs (w * r - w' * r') <= wm * e + ew * Rm).
      { replace (w * r - w' * r') with (w * (r - r') + (w - w') * r') by ring. eapply Rle_trans; [apply Rabs_triang|]. rewrite !Rabs_mult.
        apply Rplus_le_compat; apply Rmult_le_compat; auto using Rabs_pos. }
      assert (Q : exists u, (if fzerob (Fin w) || fzerob (Fin r) then Fin 0 else fadd rnd (Fin 0) (fmul rnd (Fin w) (Fin r))) = Fin u /\ Rabs u <= wm * Rm + 2 /\ Rabs (u - w' * r') <= wm * e + ew * Rm + 2 * eps).
      { destruct (fzerob (Fin w) || fzerob (Fin r))%bool eqn:EZ.
        - exists 0. assert (w * r = 0). { apply orb_prop in EZ. cbn in EZ. destruct (Req_EM_T w 0) as [->|]; [ring|]. destruct (Req_EM_T r 0) as [->|]; [ring|]. destruct EZ; discriminate. }
          rewrite <- H. split; [rewrite H; reflexivity|]. split; [rewrite H, Rabs_R0; lra|lra].
        - cbn [fmul]. assert (Bp : Rabs (w * r) <= wm * Rm) by (rewrite Rabs_mult; apply Rmult_le_compat; auto using Rabs_pos).
          destruct (acc (w * r) _ Bp) as (p & Ep & Np & Bp'); [lra|]. rewrite Ep. cbn [fadd].
          destruct (acc (0 + p) (wm * Rm + 1)) as (q & Eq & Nq & Bq); [rewrite Rplus_0_l; auto|lra|]. exists q. split; [exact Eq|]. split; [lra|].
          apply Rabs_le_between in Np, Nq, N0. apply Rabs_le. lra. }
      destruct Q as (u & Eu' & Bu' & Nu'). exists (u :: us). cbn [map combine fst snd]. rewrite Eu', Eu. split; [reflexivity|]. split; [constructor; auto|].
      cbn [map2]. constructor; auto. }
  destruct Q as (us & -> & Q). exists us. auto.
Qed.

(** *** soft *)
Lemma near_soft1 : forall A t x, 0 <= t -> Rabs x <= A -> 2 * A + 2 <= M ->
  exists y, f_soft1 rnd (Fin t) (Fin x) = Fin y /\ Rabs y <= 2 * A + 3 /\ Rabs (y - rsoft t x) <= eps * (A + 3).
Proof.
  intros A t x Ht Bx HM. assert (E0 : 0 <= eps) by apply AC. assert (X0 := Rabs_pos x). unfold f_soft1, rsoft. cbn [fabs fleb].
  destruct (Rle_dec (Rabs x) t) as [L|L].
  - exists 0. split; [reflexivity|]. rewrite Rminus_0_r, Rabs_R0. split; [lra|]. apply Rmult_le_pos; lra.
  - assert (NZ : Rabs x <> 0) by lra. unfold f_sign1. cbn [fabs fzerob]. destruct (Req_EM_T (Rabs x) 0); [contradiction|]. cbn [fdiv].
    destruct (Req_EM_T (Rabs x) 0); [contradiction|].
    assert (S : x / Rabs x = rsgn x).
    { unfold rsgn. destruct (Rlt_dec x 0); [rewrite Rabs_left by auto; field; lra|]. destruct (Rlt_dec 0 x); [rewrite Rabs_pos_eq by lra; field; lra|].
      exfalso. apply NZ. replace x with 0 by lra. apply Rabs_R0. }
    assert (SB : Rabs (rsgn x) <= 1).
    { unfold rsgn. destruct (Rlt_dec x 0); [rewrite Rabs_left; lra|]. destruct (Rlt_dec 0 x); [rewrite Rabs_R1|rewrite Rabs_R0]; lra. }
    rewrite S. destruct (acc (rsgn x) 1 SB) as (s & Es & Ns & Bs); [lra|]. rewrite Es. cbn [fsub fneg fadd].
    assert (BD : Rabs (Rabs x + - t) <= A) by (rewrite Rabs_pos_eq; lra).
    destruct (acc _ A BD) as (y & Ey & Ny & By); [lra|]. unfold fsub. cbn [fneg fadd]. rewrite Ey. cbn [fmul].
    assert (BM : Rabs (s * y) <= 2 * A + 2).
    { rewrite Rabs_mult. replace (2 * A + 2) with ((1 + 1) * (A + 1)) by ring. apply Rmult_le_compat; auto using Rabs_pos. }
    destruct (acc _ _ BM HM) as (z & Ez & Nz & Bz). exists z. split; [exact Ez|]. split; [lra|].
    assert (NP : Rabs (s * y - rsgn x * (Rabs x - t)) <= eps * (A + 1) + eps).
    { replace (s * y - rsgn x * (Rabs x - t)) with ((s - rsgn x) * y + rsgn x * (y - (Rabs x + - t))) by ring.
      eapply Rle_trans; [apply Rabs_triang|]. rewrite !Rabs_mult. apply Rplus_le_compat.
      - apply Rmult_le_compat; auto using Rabs_pos.
      - rewrite <- (Rmult_1_l eps). apply Rmult_le_compat; auto using Rabs_pos. }
    apply Rabs_le_between in Nz, NP. apply Rabs_le. nra.
Qed.
Lemma near_soft : forall A t x, 0 <= t -> within A x -> 2 * A + 2 <= M ->
  exists y, map (f_soft1 rnd (Fin t)) (map Fin x) = map Fin y /\ within (2 * A + 3) y /\ nearv (eps * (A + 3)) y (map (rsoft t) x).
Proof.
  intros A t x Ht WA HM. induction WA as [|a x Ha WA IH]; [exists []; split; [reflexivity|split; constructor]|].
  destruct IH as (y & Ey & By & Ny). destruct (near_soft1 A t a Ht Ha HM) as (z & Ez & Bz & Nz).
  exists (z :: y). cbn [map]. rewrite Ez, Ey. split; [reflexivity|]. split; constructor; auto.
Qed.

(** *** the weights 1 / s^2 *)
Lemma near_weight : forall s0 s, 0 < s0 -> s0 <= Rabs s -> 2 * eps <= s0 * s0 -> s * s <= M -> 2 / (s0 * s0) <= M ->
  exists w, fdiv rnd (Fin 1) (fmul rnd (Fin s) (Fin s)) = Fin w /\ Rabs (w - 1 / (s * s)) <= eps + 2 * eps / (s0 * s0 * (s0 * s0)).
Proof.
  intros s0 s H0 Hs He HM HM'. assert (E0 : 0 <= eps) by apply AC. assert (S2 : s0 * s0 <= s * s).
  { replace (s * s) with (Rabs s * Rabs s) by (rewrite <- Rabs_mult; apply Rabs_pos_eq; nra). nra. }
  assert (P0 : 0 < s0 * s0) by nra. destruct (acc (s * s) (s * s)) as (q & Eq & Nq & Bq); [rewrite Rabs_pos_eq; nra|auto|].
  cbn [fmul]. rewrite Eq. cbn [fdiv]. assert (Nq' := Nq). apply Rabs_le_between in Nq'. set (u := s * s) in *. set (u0 := s0 * s0) in *.
  assert (Q : u0 / 2 <= q) by lra. destruct (Req_EM_T q 0); [lra|].
  assert (IB : Rabs (1 / q) <= 2 / u0).
  { rewrite Rabs_pos_eq by (apply Rlt_le, Rdiv_lt_0_compat; lra). apply (Rmult_le_reg_r (q * u0)); [nra|]. field_simplify; lra. }
  destruct (acc (1 / q) _ IB HM') as (w & Ew & Nw & Bw). exists w. split; [exact Ew|].
  assert (ND : Rabs (1 / q - 1 / u) <= 2 * eps / (u0 * u0)).
  { replace (1 / q - 1 / u) with ((u - q) * / (q * u)) by (field; lra). rewrite Rabs_mult. rewrite (Rabs_minus_sym u q).
    rewrite (Rabs_pos_eq (/ (q * u))) by (apply Rlt_le, Rinv_0_lt_compat; nra).
    replace (2 * eps / (u0 * u0)) with (eps * / (u0 / 2 * u0)) by (field; lra). apply Rmult_le_compat; auto using Rabs_pos.
    - apply Rlt_le, Rinv_0_lt_compat; nra.
    - apply Rinv_le_contravar; [nra|]. apply Rmult_le_compat; lra. }
  replace (w - 1 / u) with ((w - 1 / q) + (1 / q - 1 / u)) by ring. eapply Rle_trans; [apply Rabs_triang|]. lra.
Qed.
End Near.
