(** C66: ties, and a concrete case. *)
From Coq Require Import List ZArith Lia Bool Reals Lra Psatz String.
From Coquelicot Require Import Coquelicot.
From Verif Require Import PyBase PyBaseFacts CVec Forward Prior Mcmc Sampler ParamSpec RepSpec ParamProof Ieee IeeeProof ExactProof RoundProof FloatOps FloatProof FloatSk FloatSkProof StepProof
  LimProof LimOps LimRun LimTie LimInst LimSpec LimEnd LimSet P_Param P_FloatNear P_FloatSk P_Mcmc P_Round P_Samplers P_Limit.
Import ListNotations.
Notation length := List.length.
Open Scope R_scope.

(** *** A tie: one pixel, one path, datum 0, no threshold, delta = 1/2, lmda = mu = 1;
    from 0 the proposal is 1, log alpha is -1873/1024, and so is log u *)
Definition unit_draws (u : R) : rng unit := mkRng (fun k g => (repeat 1 k, g)) (fun k g => (repeat 1 k, g)) (fun g => (u, g)).
Definition one_path : list (list (nat * R)) := [[(0%nat, 1)]].
Definition one_num : numparams := mkNum 1 1 1 false.
Definition tie_prm : params := {| p_nsamples := 1; p_nburn := 0; p_ngap := 1; p_verbosity := 0; p_track := ["chain"]%string |}.
Definition level : R := -1873 / 1024.
Notation tie_ops rnd u := (fl_ops rnd (g_randn (unit_draws u)) (g_laplace (unit_draws u)) (g_rand (unit_draws u)) (float_paths rnd 1 one_path [0] [1] 0) (Fin (n_lmda one_num)) (Fin (n_mu one_num))).
Notation tie_real u := (mcmc_ops (unit_draws u) (exact_paths_fwd 1 one_path [0] [1]) (l1_prior 0) one_num).

Lemma one_setup u : 0 < u -> path_setup (unit_draws u) 1 one_path [0] [1] 0 one_num.
Proof.
  intros Hu. constructor; cbn; auto; try lra.
  - intros k g. cbn. rewrite repeat_length. auto.
  - constructor; [|constructor]. constructor; [cbn; lia|constructor].
  - intros s [<- | []]. lra.
Qed.

(** an arithmetic that is exact except at one number *)
Section Near.
Variable rnd : R -> float.
Variable c : R.
Hypothesis Hc : c < - (2).
Hypothesis EX : forall x, x <> c -> rnd x = Fin x.
Lemma ex_ge : forall x, - (2) <= x -> rnd x = Fin x.
Proof. intros x Hx. apply EX. lra. Qed.

Variables (u : R) (w : world fvec fvec float float unit).
Hypothesis Hd : i_delta (w_inst w) = Fin (1 / 2).
Hypothesis Hu : 0 < u.
Notation o := (tie_ops rnd u).

Lemma weights1 : f_weights rnd (map Fin [1]) = [Fin 1].
Proof.
  unfold f_weights. cbn [map fmul]. rewrite (ex_ge (1 * 1)) by lra. cbn [fdiv]. destruct (Req_EM_T (1 * 1) 0); [lra|].
  rewrite ex_ge by lra. do 2 f_equal. field.
Qed.
Lemma forward1 x : -1 <= x <= 1 -> fp_forward (float_paths rnd 1 one_path [0] [1] 0) [Fin x] = Ok [Fin x].
Proof.
  intros Hx. cbn. unfold fspdot, fsum. cbn. rewrite (ex_ge (1 * x)) by lra. cbn. rewrite ex_ge by lra. do 3 f_equal. ring.
Qed.
Lemma grad1 x : -1 <= x <= 1 -> fp_gradg (float_paths rnd 1 one_path [0] [1] 0) [Fin x] = Ok [Fin x].
Proof.
  intros Hx. unfold float_paths. rewrite weights1. cbn [f_paths fp_gradg]. unfold f_gradg, fzip. cbn. rewrite (ex_ge (x + - 0)) by lra. cbn.
  unfold f_weigh, fzip. cbn. destruct (Req_EM_T 1 0); [lra|]. cbn [orb].
  destruct (Req_EM_T (x + - 0) 0) as [E|E]; cbn [rbind].
  - cbn. unfold fspdot, fsum. cbn. rewrite (ex_ge (1 * 0)) by lra. cbn. rewrite ex_ge by lra. do 3 f_equal. lra.
  - cbn. rewrite (ex_ge (1 * (x + - 0))) by lra. cbn. rewrite (ex_ge (0 + 1 * (x + - 0))) by lra. unfold fspdot, fsum. cbn.
    rewrite (ex_ge (1 * (0 + 1 * (x + - 0)))) by lra. cbn. rewrite ex_ge by lra. do 3 f_equal. ring.
Qed.
Lemma prox1 x : -1 <= x <= 1 -> fp_proxf (float_paths rnd 1 one_path [0] [1] 0) [Fin x] = Ok [Fin x].
Proof.
  intros Hx. cbn. do 2 f_equal. unfold f_soft1. cbn [fabs fleb]. assert (A := Rabs_pos x). destruct (Rle_dec (Rabs x) 0) as [L|L].
  - f_equal. assert (Rabs x = 0) by lra. destruct (Req_dec x 0) as [->|NZ]; [reflexivity|]. apply Rabs_no_R0 in NZ. lra.
  - assert (B : Rabs x <= 1) by (apply Rabs_le; lra). unfold f_sign1. cbn [fabs fzerob]. destruct (Req_EM_T (Rabs x) 0); [lra|]. cbn [fdiv]. destruct (Req_EM_T (Rabs x) 0); [lra|].
    assert (S : x / Rabs x = 1 \/ x / Rabs x = -1).
    { unfold Rabs in *. destruct (Rcase_abs x); [right|left]; field; lra. }
    rewrite (ex_ge (x / Rabs x)) by lra. cbn. rewrite (ex_ge (Rabs x + - 0)) by lra. cbn. rewrite ex_ge by (destruct S as [-> | ->]; lra). f_equal. field. lra.
Qed.
Lemma logpi1 x : 0 <= x <= 1 -> f_logpi rnd (float_paths rnd 1 one_path [0] [1] 0) (Fin 1) [Fin x] [Fin x] = Ok (Fin (- x - x * x), Fin (x * x), Fin x).
Proof.
  intros Hx. unfold f_logpi, float_paths. rewrite weights1. cbn [f_paths fp_data fp_invcov fp_prior map]. unfold fzip. cbn [List.length Nat.eqb combine map fst snd rbind].
  unfold fsub. cbn [fneg fadd]. rewrite (ex_ge (0 + - x)) by lra. unfold f_matvec. cbn [seq combine map List.length Nat.eqb rbind]. unfold fspdot, fdot, fsum, f_l1, fsum.
  cbn [map combine fold_left fst snd nth fmul fadd fabs]. rewrite (ex_ge (1 * (0 + - x))) by lra. cbn [fadd]. rewrite (ex_ge (0 + 1 * (0 + - x))) by lra. cbn [fmul].
  replace ((0 + - x) * (0 + 1 * (0 + - x))) with (x * x) by ring. assert (X2 : 0 <= x * x <= 1) by nra. rewrite (ex_ge (x * x)) by lra. cbn [fadd]. rewrite (ex_ge (0 + x * x)) by lra.
  cbn [rbind]. rewrite (Rabs_pos_eq x) by lra. rewrite (ex_ge (0 + x)) by lra. cbn [fmul]. rewrite (ex_ge (- (1) * (0 + x))) by lra. cbn [fneg fadd]. rewrite ex_ge by lra.
  apply (f_equal Ok). apply f_equal2; [apply f_equal2|]; apply (f_equal Fin); ring.
Qed.
Lemma step1 g : f_step rnd (g_randn (unit_draws u)) (float_paths rnd 1 one_path [0] [1] 0) (Fin 1) (Fin (1 / 2)) [Fin 0] [Fin 0] [Fin 0] g = (Ok [Fin 1], g).
Proof.
  unfold f_step. cbn [float_paths f_paths fp_nparams unit_draws g_randn repeat map]. f_equal. cbn [py_fdiv]. destruct (Req_EM_T 1 0); [lra|]. cbn [fdiv]. destruct (Req_EM_T 1 0); [lra|].
  rewrite (ex_ge (1 / 2 / 1)) by lra. cbn [rbind]. unfold fzip, fscal, fsub. cbn [map List.length Nat.eqb combine fst snd fneg fadd fmul rbind].
  rewrite (ex_ge (1 + - (1 / 2 / 1))) by lra. cbn [fmul]. rewrite (ex_ge ((1 + - (1 / 2 / 1)) * 0)), (ex_ge (1 / 2 / 1 * 0)), (ex_ge (1 / 2 * 0)), (ex_ge (2 * (1 / 2))) by lra.
  cbn [fadd fneg fsqrt]. destruct (Rlt_dec (2 * (1 / 2)) 0); [lra|]. replace (2 * (1 / 2)) with 1 by lra. rewrite sqrt_1, (ex_ge 1) by lra. cbn [fmul].
  rewrite (ex_ge (1 * 1)) by lra. rewrite (ex_ge ((1 + - (1 / 2 / 1)) * 0 + 1 / 2 / 1 * 0)) by lra. cbn [fadd]. rewrite (ex_ge ((1 + - (1 / 2 / 1)) * 0 + 1 / 2 / 1 * 0 + - (1 / 2 * 0))) by lra.
  cbn [fadd]. rewrite ex_ge by lra. do 3 f_equal. lra.
Qed.
(** between 0 and 1, where the proximal map is the identity *)
Lemma trans1 x y : 0 <= x <= 1 -> 0 <= y <= 1 ->
  f_logtrans rnd (Fin 1) (Fin (1 / 2)) [Fin x] [Fin y] [Fin x] [Fin x] = Ok (Fin (- (1 / 4) * ((y - x + x / 4) * (y - x + x / 4) * ((y - x + x / 4) * (y - x + x / 4))))).
Proof.
  intros Hx Hy. unfold f_logtrans, fzip, fscal, fsub. cbn [map List.length Nat.eqb combine fst snd fneg fadd fmul rbind].
  rewrite (ex_ge (x + - x)) by lra. cbn [fdiv]. destruct (Req_EM_T 1 0); [lra|]. destruct (Req_EM_T 2 0); [lra|]. rewrite (ex_ge ((x + - x) / 1)), (ex_ge (1 / 2 / 2)) by lra. cbn [fneg fadd].
  rewrite (ex_ge (- ((x + - x) / 1) + - x)), (ex_ge (y + - x)) by lra. cbn [fmul fneg]. rewrite (ex_ge (1 / 2 / 2 * (- ((x + - x) / 1) + - x))) by lra. cbn [fneg fadd].
  rewrite (ex_ge (y + - x + - (1 / 2 / 2 * (- ((x + - x) / 1) + - x)))) by lra. cbn [fmul].
  set (r := y + - x + - (1 / 2 / 2 * (- ((x + - x) / 1) + - x))). assert (Er : r = y - x + x / 4) by (unfold r; field). clearbody r. rewrite <- Er.
  assert (Br : -1 <= r <= 1) by (rewrite Er; lra). assert (B2 : 0 <= r * r <= 1) by nra. rewrite (ex_ge (r * r)) by lra. unfold fsum. cbn [fold_left fadd]. rewrite (ex_ge (0 + r * r)) by lra. cbn [fmul].
  replace ((0 + r * r) * (0 + r * r)) with (r * r * (r * r)) by ring. assert (B4 : 0 <= r * r * (r * r) <= 1) by nra.
  rewrite (ex_ge (1 / 2 * (1 / 2))), (ex_ge (r * r * (r * r))) by lra. cbn [fneg fmul]. rewrite ex_ge by lra. do 2 f_equal. lra.
Qed.

Lemma tie_start : exists s', i_acc s' = Some [] /\ i_delta s' = Fin (1 / 2) /\
  start_up o (Some [Fin 0]) w = (mkWorld s' (w_rng w), Ret (mkMala [Fin 0] [Fin 0] [Fin 0] [Fin 0] (Fin (- 0 - 0 * 0)) (Fin (0 * 0)) (Fin 0))).
Proof.
  eexists. split; [|split]. 3: {
    unfold start_up, bind, get_inst, put_inst, initial_sample, bind, with_rng, ret. cbn [w_inst w_rng fl_ops o_init o_forward o_gradg o_proxf o_logpi].
    unfold f_start. cbn [float_paths f_paths fp_nparams List.length Nat.eqb lift].
    change (mkFl 1 _ _ _ _ _ _) with (float_paths rnd 1 one_path [0] [1] 0). fold one_path.
    unfold bind, ret. cbn [w_inst w_rng]. rewrite forward1 by lra. cbn [lift ret fst snd].
    rewrite grad1 by lra. cbn [lift ret fst snd]. rewrite prox1 by lra. cbn [lift ret fst snd]. cbn [n_mu one_num]. rewrite logpi1 by lra. cbn [lift]. unfold ret. cbn [fst snd]. reflexivity. }
  - reflexivity.
  - exact Hd.
Qed.
Lemma tie_pre s' : i_delta s' = Fin (1 / 2) -> exists c1,
  pre o (mkMala [Fin 0] [Fin 0] [Fin 0] [Fin 0] (Fin (- 0 - 0 * 0)) (Fin (0 * 0)) (Fin 0)) (mkWorld s' (w_rng w)) =
  (mkWorld s' (w_rng w), Ret (c1, rnd (ln u), fsub rnd (fsub rnd (rnd (- 2129 / 1024)) (Fin (- (1 / 4)))) (Fin 0))).
Proof.
  intros ED. eexists. unfold pre, bind, get_inst, with_rng, ret. cbn [w_inst w_rng fl_ops o_step o_forward o_gradg o_proxf o_logpi o_logtrans o_logrand o_kadd o_ksub m_X m_proxf m_gradg m_logpi n_lmda n_mu one_num].
  rewrite ED, step1. cbn [lift]. unfold ret. rewrite forward1 by lra. cbn [lift]. unfold ret. rewrite grad1 by lra. cbn [lift]. unfold ret. rewrite prox1 by lra. cbn [lift]. unfold ret.
  rewrite !trans1 by lra. cbn [lift]. unfold ret. rewrite logpi1 by lra. cbn [lift]. unfold ret, f_logrand. cbn [unit_draws g_rand]. cbn [lift fst snd w_rng]. unfold ret.
  do 2 f_equal. cbn [fln]. destruct (total_order_T u 0) as [[H|H]|H]; [exfalso; lra|exfalso; lra|]. apply f_equal2; [reflexivity|].
  cbn [fadd]. replace (- (1 / 4) * ((0 - 1 + 1 / 4) * (0 - 1 + 1 / 4) * ((0 - 1 + 1 / 4) * (0 - 1 + 1 / 4))) + (- (1) - 1 * 1)) with (- 2129 / 1024) by field.
  apply f_equal2; [apply f_equal2; [reflexivity|apply (f_equal Fin); field]|apply (f_equal Fin); ring].
Qed.
Lemma tie_decision : i_acc (w_inst (fst (pxmala_run o tie_prm false 1 (Some [Fin 0]) w))) =
  Some [if fltb (rnd (ln u)) (fsub rnd (fsub rnd (rnd (- 2129 / 1024)) (Fin (- (1 / 4)))) (Fin 0)) then 1%Z else 0%Z].
Proof.
  rewrite run_split. unfold bind at 1. destruct tie_start as (s' & EA & ED & ->). cbn [pxmala_loop tie_prm p_nsamples]. change (0 <? 1)%Z with true. cbn iota.
  assert (B := body_split tie_prm o false 0 0 (mkMala [Fin 0] [Fin 0] [Fin 0] [Fin 0] (Fin (- 0 - 0 * 0)) (Fin (0 * 0)) (Fin 0)) (mkWorld s' (w_rng w))).
  unfold bind in B at 1. destruct (tie_pre s' ED) as (c1 & EP). rewrite EP in B. cbn [fst snd] in B. clear EP.
  set (b := o_kltb o _ _) in B. match goal with |- _ = Some [if ?d then _ else _] => change d with b end.
  assert (PA := post_acc o tie_prm false 0 0 (mkMala [Fin 0] [Fin 0] [Fin 0] [Fin 0] (Fin (- 0 - 0 * 0)) (Fin (0 * 0)) (Fin 0)) c1 b (mkWorld s' (w_rng w)) [] EA). cbn [app] in PA. rewrite <- B in PA.
  clearbody b. clear B. unfold bind. unfold tie_prm in PA. destruct (pxmala_body _ _ _ _ _ _ _) as [w2 [(j' & c2)|e|]]; cbn [fst] in *; [|exact PA|exact PA].
  destruct (j' <? 1)%Z; exact PA.
Qed.
End Near.

Definition shifted (h x : R) : float := Fin (if Req_EM_T x (- 2129 / 1024) then x + h else x).
Lemma shifted_accurate h M : 0 <= h -> accurate (shifted h) M h.
Proof.
  intros Hh. split; [exact Hh|]. intros x _. eexists. split; [reflexivity|]. destruct (Req_EM_T x _).
  - replace (x + h - x) with h by ring. rewrite Rabs_pos_eq; lra.
  - rewrite Rminus_diag_eq, Rabs_R0 by reflexivity. exact Hh.
Qed.

(** the exact sampler rejects 1; arithmetic of any accuracy may accept it *)
Theorem C66_ties_refuted : exists v s, new_sampler (tie_real (exp level)) tie_prm (1 / 2) = Ok s /\ v = mkWorld s tt /\
  path_setup (unit_draws (exp level)) 1 one_path [0] [1] 0 one_num /\
  i_acc (w_inst (fst (pxmala_run (tie_real (exp level)) tie_prm false 1 (StartArray [1%nat] [RtoC 0]) v))) = Some [0%Z] /\
  forall d, 0 < d -> exists rnd w, accurate rnd (/ d) d /\ near_start 1 d (Some [Fin 0]) (StartArray [1%nat] [RtoC 0]) /\ near_world 1 1 d w v /\
    i_acc (w_inst (fst (pxmala_run (tie_ops rnd (exp level)) tie_prm false 1 (Some [Fin 0]) w))) = Some [1%Z].
Proof.
  assert (HU : 0 < exp level) by apply exp_pos. assert (PS := one_setup (exp level) HU).
  destruct (new_sampler (tie_real (exp level)) tie_prm (1 / 2)) as [s|] eqn:Es; [|discriminate].
  exists (mkWorld s tt), s. split; [reflexivity|]. split; [reflexivity|]. split; [exact PS|].
  assert (NS : forall e, 0 <= e -> near_step e (Fin (1 / 2)) (1 / 2)) by (intros e He; apply step_near0; [exact He|split; [reflexivity|lra]]).
  assert (ST : same_start 1 (Some [Fin 0]) (StartArray [1%nat] [RtoC 0])) by (split; [reflexivity|exists [0]; auto]).
  assert (WR : exists s1, rel_inst (same_vec 1) (same_vec 1) same_num same_step s1 s).
  { injection Es as <-. eexists (mkInst None None None None (Some [[Fin 0]]) None None (Fin (1 / 2)) []). constructor; cbn; auto; [constructor; [exists [0]; auto|constructor]|split; [reflexivity|lra]]. }
  destruct WR as (s1 & WR). assert (D1 : i_delta s1 = Fin (1 / 2)). { destruct (ri_delta _ _ _ _ _ _ WR) as (E & _). rewrite E. injection Es as <-. reflexivity. }
  assert (HW : rel_world (same_vec 1) (same_vec 1) same_num same_step eq (mkWorld s1 tt) (mkWorld s tt)) by (split; [exact WR|reflexivity]).
  assert (SP := same_paths _ _ _ _ _ _ _ PS). destruct PS as [GR HR IC LY LS NZ Ht Hl NC].
  destruct (C59_exact_floats unit (unit_draws (exp level)) 1 1 _ _ _ one_num tie_prm false 1 (Some [Fin 0]) (StartArray [1%nat] [RtoC 0]) (mkWorld s1 tt) (mkWorld s tt) GR HR SP NC Hl ST HW) as (_ & (QW & _) & _).
  split.
  - rewrite <- (ri_acc _ _ _ _ _ _ (proj1 QW)). rewrite (tie_decision Fin (-3) ltac:(lra) ltac:(reflexivity) (exp level) (mkWorld s1 tt) D1 HU).
    cbn [fsub fneg fadd]. rewrite ln_exp. unfold level. cbn [fltb]. destruct (Rlt_dec _ _); [lra|reflexivity].
  - intros d Hd. exists (shifted d), (mkWorld s1 tt). split; [apply shifted_accurate; lra|]. split; [apply start_near; [lra|exact ST]|]. split; [apply world_near; [lra|exact HW]|].
    rewrite (tie_decision (shifted d) (- 2129 / 1024) ltac:(lra)); [|intros x Hx; unfold shifted; destruct (Req_EM_T x _); [contradiction|reflexivity]|exact D1|exact HU].
    rewrite ln_exp. unfold shifted, level. destruct (Req_EM_T (-1873 / 1024) _); [lra|]. destruct (Req_EM_T (- 2129 / 1024) _); [|lra].
    cbn [fsub fneg fadd]. destruct (Req_EM_T (- 2129 / 1024 + d + - - (1 / 4)) _); [lra|]. cbn [fneg fadd]. destruct (Req_EM_T (- 2129 / 1024 + d + - - (1 / 4) + - 0) _); [lra|].
    cbn [fltb]. destruct (Rlt_dec _ _); [reflexivity|lra].
Qed.
Print Assumptions C66_ties_refuted.

(** *** A concrete case without ties: log u = -2 *)
Section NoTie.
Variables (u : R) (w : world fvec fvec float float unit).
Hypothesis Hd : i_delta (w_inst w) = Fin (1 / 2).
Hypothesis Hu : 0 < u.
Lemma or_decision : i_acc (w_inst (fst (pxmala_run (or_equal (tie_ops Fin u)) tie_prm false 1 (Some [Fin 0]) w))) =
  Some [if fltb (Fin level) (Fin (ln u)) then 0%Z else 1%Z].
Proof.
  set (o := tie_ops Fin u). rewrite run_split. change (start_up (or_equal o) (Some [Fin 0])) with (start_up o (Some [Fin 0])). unfold bind at 1.
  destruct (tie_start Fin (-3) ltac:(lra) ltac:(reflexivity) u w Hd) as (s' & EA & ED & E). fold o in E. rewrite E. clear E. cbn [pxmala_loop tie_prm p_nsamples]. change (0 <? 1)%Z with true. cbn iota.
  assert (B := body_split tie_prm (or_equal o) false 0 0 (mkMala [Fin 0] [Fin 0] [Fin 0] [Fin 0] (Fin (- 0 - 0 * 0)) (Fin (0 * 0)) (Fin 0)) (mkWorld s' (w_rng w))).
  unfold bind in B at 1. destruct (tie_pre Fin (-3) ltac:(lra) ltac:(reflexivity) u w Hu s' ED) as (c1 & EP). fold o in EP.
  change (pre (or_equal o)) with (pre o) in B. rewrite EP in B. cbn [fst snd] in B. clear EP.
  assert (EB : o_kltb (or_equal o) (Fin (ln u)) (fsub Fin (fsub Fin (Fin (- 2129 / 1024)) (Fin (- (1 / 4)))) (Fin 0)) = negb (fltb (Fin level) (Fin (ln u)))).
  { cbn [or_equal o_kltb o fl_ops]. f_equal. f_equal. cbn [fsub fneg fadd]. apply (f_equal Fin). unfold level. field. }
  rewrite EB in B. set (b := fltb (Fin level) (Fin (ln u))) in *.
  assert (PA := post_acc (or_equal o) tie_prm false 0 0 (mkMala [Fin 0] [Fin 0] [Fin 0] [Fin 0] (Fin (- 0 - 0 * 0)) (Fin (0 * 0)) (Fin 0)) c1 (negb b) (mkWorld s' (w_rng w)) [] EA). cbn [app] in PA. rewrite <- B in PA.
  replace (if b then 0%Z else 1%Z) with (if negb b then 1%Z else 0%Z) by (destruct b; reflexivity).
  clearbody b. clear B EB. unfold bind. unfold tie_prm in PA. destruct (pxmala_body _ _ _ _ _ _ _) as [w2 [(j' & c2)|e|]]; cbn [fst] in *; [|exact PA|exact PA].
  destruct (j' <? 1)%Z; exact PA.
Qed.
End NoTie.

Example C66_pxmala_case : exists s, new_sampler (tie_real (exp (- (2)))) tie_prm (1 / 2) = Ok s /\
  i_acc (w_inst (fst (pxmala_run (tie_real (exp (- (2)))) tie_prm false 1 (StartArray [1%nat] [RtoC 0]) (mkWorld s tt)))) = Some [1%Z] /\
  no_ties (tie_real (exp (- (2)))) tie_prm false 1 (StartArray [1%nat] [RtoC 0]) (mkWorld s tt) /\
  exists d, 0 < d /\ forall rnd s', accurate rnd (/ d) d -> new_sampler (tie_ops rnd (exp (- (2)))) tie_prm (Fin (1 / 2)) = Ok s' ->
    i_acc (w_inst (fst (pxmala_run (tie_ops rnd (exp (- (2)))) tie_prm false 1 (Some [Fin 0]) (mkWorld s' tt)))) = Some [1%Z].
Proof.
  assert (HU : 0 < exp (- (2))) by apply exp_pos. assert (PS := one_setup (exp (- (2))) HU).
  destruct (new_sampler (tie_real (exp (- (2)))) tie_prm (1 / 2)) as [s|] eqn:Es; [|discriminate]. exists s. split; [reflexivity|].
  assert (ST : same_start 1 (Some [Fin 0]) (StartArray [1%nat] [RtoC 0])) by (split; [reflexivity|exists [0]; auto]).
  assert (WR : exists s1, rel_inst (same_vec 1) (same_vec 1) same_num same_step s1 s).
  { injection Es as <-. eexists (mkInst None None None None (Some [[Fin 0]]) None None (Fin (1 / 2)) []). constructor; cbn; auto; [constructor; [exists [0]; auto|constructor]|split; [reflexivity|lra]]. }
  destruct WR as (s1 & WR). assert (D1 : i_delta s1 = Fin (1 / 2)). { destruct (ri_delta _ _ _ _ _ _ WR) as (E & _). rewrite E. injection Es as <-. reflexivity. }
  assert (HW : rel_world (same_vec 1) (same_vec 1) same_num same_step eq (mkWorld s1 tt) (mkWorld s tt)) by (split; [exact WR|reflexivity]).
  assert (SP := same_paths _ _ _ _ _ _ _ PS). assert (PS' := PS). destruct PS' as [GR HR IC LY LS NZ Ht Hl NC].
  assert (RO := exact_ops (unit_draws (exp (- (2)))) 1 1 _ _ _ one_num GR HR SP NC Hl).
  assert (RO' : rel_ops (same_vec 1) (same_vec 1) same_num same_step eq (same_start 1) (or_equal (tie_ops Fin (exp (- (2))))) (or_equal (tie_real (exp (- (2)))))).
  { destruct RO. constructor; try assumption. intros a a' b b' Ha Hb. cbn [or_equal o_kltb]. f_equal. now apply ro_kltb. }
  destruct (C59_parametric _ _ _ _ _ _ _ _ _ _ _ _ _ _ _ _ _ _ _ _ tie_prm 1 (Some [Fin 0]) _ (mkWorld s1 tt) (mkWorld s tt) RO ST HW) as (_ & A & _). specialize (A false).
  destruct (C59_parametric _ _ _ _ _ _ _ _ _ _ _ _ _ _ _ _ _ _ _ _ tie_prm 1 (Some [Fin 0]) _ (mkWorld s1 tt) (mkWorld s tt) RO' ST HW) as (_ & A' & _). specialize (A' false).
  assert (E1 := ri_acc _ _ _ _ _ _ (proj1 (proj1 A))). assert (E2 := ri_acc _ _ _ _ _ _ (proj1 (proj1 A'))).
  assert (T2 := or_decision (exp (- (2))) (mkWorld s1 tt) D1 HU).
  assert (T1 := tie_decision Fin (-3) ltac:(lra) ltac:(reflexivity) (exp (- (2))) (mkWorld s1 tt) D1 HU).
  assert (E1' : Some [1%Z] = i_acc (w_inst (fst (pxmala_run (tie_real (exp (- (2)))) tie_prm false 1 (StartArray [1%nat] [RtoC 0]) (mkWorld s tt))))).
  { rewrite <- E1. etransitivity; [|symmetry; exact T1]. rewrite ln_exp. cbn [fsub fneg fadd fltb]. destruct (Rlt_dec _ _); [reflexivity|lra]. }
  clear E1. assert (E2' : Some [1%Z] = i_acc (w_inst (fst (pxmala_run (or_equal (tie_real (exp (- (2))))) tie_prm false 1 (StartArray [1%nat] [RtoC 0]) (mkWorld s tt))))).
  { rewrite <- E2. etransitivity; [|symmetry; exact T2]. rewrite ln_exp. unfold level. cbn [fltb]. destruct (Rlt_dec _ _); [lra|reflexivity]. }
  assert (NTI : no_ties (tie_real (exp (- (2)))) tie_prm false 1 (StartArray [1%nat] [RtoC 0]) (mkWorld s tt)) by (unfold no_ties; congruence).
  split; [congruence|]. split; [exact NTI|].
  destruct (C66_pxmala _ _ _ _ _ _ _ PS tie_prm false 1 (StartArray [1%nat] [RtoC 0]) (mkWorld s tt) 1 NTI Rlt_0_1) as (d & Hd & H). exists d. split; [exact Hd|].
  intros rnd s' AC Es'. assert (NS : near_step d (Fin (1 / 2)) (1 / 2)) by (apply step_near0; [lra|split; [reflexivity|lra]]).
  destruct (C66_new_sampler _ _ _ _ _ _ _ PS rnd tie_prm (1 / 2) (1 / 2) d ltac:(lra) NS) as (Q & _).
  assert (Q' : rel_inst (near_vec 1 d) (near_vec 1 d) (near_num d) (near_step d) s' s).
  { unfold rel_res in Q. change (new_sampler _ tie_prm (Fin (1 / 2))) with (new_sampler (tie_ops rnd (exp (- (2)))) tie_prm (Fin (1 / 2))) in Q. rewrite Es', Es in Q. exact Q. }
  destruct (H rnd (Some [Fin 0]) (mkWorld s' tt) AC (start_near 1 d _ _ (Rlt_le _ _ Hd) ST) (conj Q' eq_refl)) as (R & _). rewrite E1'. exact (ri_acc _ _ _ _ _ _ (proj1 R)).
Qed.

(** *** MYULA and SKROCK on ever finer grids: two pixels, the three paths of C64_case *)
Definition fine (p : nat) (x : R) : float := Fin (IZR (up (x * 2 ^ p) - 1) / 2 ^ p).
Lemma fine_near : forall p x, exists y, fine p x = Fin y /\ Rabs (y - x) <= / 2 ^ p.
Proof.
  intros p0 x. eexists. split; [reflexivity|]. destruct (archimed (x * 2 ^ p0)) as (H1 & H2). rewrite minus_IZR.
  set (p := 2 ^ p0) in *. assert (0 < p) by (unfold p; apply pow_lt; lra). clearbody p.
  assert (B : -1 <= IZR (up (x * p)) - 1 - x * p <= 0) by lra.
  replace ((IZR (up (x * p)) - 1) / p - x) with ((IZR (up (x * p)) - 1 - x * p) * / p) by (field; lra).
  rewrite Rabs_mult. rewrite (Rabs_pos_eq (/ p)) by (left; apply Rinv_0_lt_compat; lra).
  assert (0 < / p) by (apply Rinv_0_lt_compat; lra). assert (Rabs (IZR (up (x * p)) - 1 - x * p) <= 1) by (apply Rabs_le; lra).
  rewrite <- (Rmult_1_l (/ p)) at 2. apply Rmult_le_compat_r; lra.
Qed.
Lemma fine_accurate : forall d, 0 < d -> exists p0, forall p M, (p0 <= p)%nat -> accurate (fine p) M d.
Proof.
  intros d Hd. destruct (Pow_x_infinity 2 ltac:(rewrite Rabs_pos_eq; lra) (/ d)) as (p0 & H). exists p0. intros p M Hp. split; [lra|].
  intros x _. destruct (fine_near p x) as (y & E & D). exists y. split; [exact E|]. apply Rle_trans with (1 := D). assert (P : 0 < 2 ^ p) by (apply pow_lt; lra). specialize (H p Hp).
  rewrite Rabs_pos_eq in H by lra. rewrite <- (Rinv_inv d). apply Rinv_le_contravar; [now apply Rinv_0_lt_compat|]. lra.
Qed.

Example C66_case : forall prm fuel e, 0 < e -> (0 <= p_nsamples prm)%Z ->
  let q := mkNum 1 1 3 false in let ys := [1; 1; 2] in let sig := [1; 1; 1] in
  let f := exact_paths_fwd 2 three_paths ys sig in let real := mcmc_ops alternating f (l1_prior (1 / 4)) q in
  let sops := fun p => fl_sk_ops (fine p) 3 (g_randn alternating) (g_laplace alternating) (g_rand alternating) (float_paths (fine p) 2 three_paths ys sig (1 / 4)) (Fin 1) (Fin 1) in
  let fops := fun p => fl_ops (fine p) (g_randn alternating) (g_laplace alternating) (g_rand alternating) (float_paths (fine p) 2 three_paths ys sig (1 / 4)) (Fin 1) (Fin 1) in
  exists s, new_sampler real prm (1 / 4) = Ok s /\ exists p0, forall p, (p0 <= p)%nat -> exists s', new_sampler (fops p) prm (Fin (1 / 4)) = Ok s' /\
    near_run 2 3 e (myula_run (fops p) prm fuel (Some [Fin 0; Fin 0]) (mkWorld s' 0%nat)) (myula_run real prm fuel (StartArray [2%nat] [RtoC 0; RtoC 0]) (mkWorld s 0%nat)) /\
    near_run 2 3 e (skrock_run (sops p) prm fuel (Some [Fin 0; Fin 0]) (mkWorld s' 0%nat)) (skrock_run real prm fuel (StartArray [2%nat] [RtoC 0; RtoC 0]) (mkWorld s 0%nat)).
Proof.
  intros prm fuel e He HN q ys sig f real sops fops.
  assert (PS : path_setup alternating 2 three_paths ys sig (1 / 4) q).
  { constructor; cbn; auto; try lra; [apply alternating_ok|intros; lra|repeat constructor|intros s [<- | [<- | [<- | []]]]; lra]. }
  destruct (C44_new_sampler_exists _ _ _ _ _ _ real prm (1 / 4) HN) as (s & Es). exists s. split; [exact Es|].
  assert (ST : same_start 2 (Some [Fin 0; Fin 0]) (StartArray [2%nat] [RtoC 0; RtoC 0])) by (split; [reflexivity|exists [0; 0]; auto]).
  destruct (C66_myula _ _ _ _ _ _ _ PS prm fuel (StartArray [2%nat] [RtoC 0; RtoC 0]) (mkWorld s 0%nat) e He) as (d1 & H1 & K1).
  destruct (C66_skrock _ _ _ _ _ _ _ PS ltac:(cbn; lia) prm fuel (StartArray [2%nat] [RtoC 0; RtoC 0]) (mkWorld s 0%nat) e He) as (d2 & H2 & K2).
  destruct (fine_accurate d1 H1) as (p1 & A1). destruct (fine_accurate d2 H2) as (p2 & A2). exists (Nat.max p1 p2). intros p Hp.
  destruct (C44_new_sampler_exists _ _ _ _ _ _ (fops p) prm (Fin (1 / 4)) HN) as (s' & Es'). exists s'. split; [exact Es'|].
  assert (NS : forall d, 0 < d -> near_world 2 3 d (mkWorld s' 0%nat) (mkWorld s 0%nat)).
  { intros d Hd. split; [|reflexivity]. assert (NS : near_step d (Fin (1 / 4)) (1 / 4)) by (apply step_near0; [lra|split; [reflexivity|lra]]).
    destruct (C66_new_sampler _ _ _ _ _ _ _ PS (fine p) prm (1 / 4) (1 / 4) d ltac:(lra) NS) as (Q & _). unfold rel_res in Q.
    change (new_sampler _ prm (Fin (1 / 4))) with (new_sampler (fops p) prm (Fin (1 / 4))) in Q. change (new_sampler _ prm (1 / 4)) with (new_sampler real prm (1 / 4)) in Q. rewrite Es', Es in Q. exact Q. }
  split.
  - apply (K1 (fine p) (Some [Fin 0; Fin 0]) (mkWorld s' 0%nat)); [apply A1; lia|apply start_near; [lra|exact ST]|now apply NS].
  - apply (K2 (fine p) (Some [Fin 0; Fin 0]) (mkWorld s' 0%nat)); [apply A2; lia|apply start_near; [lra|exact ST]|now apply NS].
Qed.
