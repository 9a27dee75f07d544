(** Small concrete operator records used to show that the hypotheses of the
    sampler theorems are met by non-trivial runs, and as counterexamples. *)
From Coq Require Import List ZArith Bool String Lia.
From Verif Require Import PyBase Sampler SamplerSpec.
Import ListNotations.
Open Scope Z_scope.

(** integers throughout; the random generator is a linear congruence *)
Definition demo : ops Z Z Z Z Z (option Z) := {|
  o_init := fun st g => match st with
                        | Some x => (if x <? 0 then Raise ValueError else Ok x, g)
                        | None => (Ok (g mod 5), g + 1)
                        end;
  o_forward := fun x => Ok (2 * x);
  o_gradg := fun d => Ok (d / 4);
  o_proxf := fun x => Ok (x - x / 3);
  o_logpi := fun x d => Ok (- (x * x) - (d - 3) * (d - 3), (d - 3) * (d - 3), x * x);
  o_step := fun delta x p gr g => (Ok (x - delta * (x - p) - delta * gr + g mod 7 - 3), (5 * g + 3) mod 64);
  o_skstep := fun delta x g => (Ok (x - delta * (x / 3) + g mod 5 - 2), (5 * g + 1) mod 64);
  o_logtrans := fun delta x y p gr => Ok (- (delta * (y - p + gr)));
  o_logrand := fun g => (- (g mod 20), (3 * g + 7) mod 64);
  o_kadd := Z.add; o_ksub := Z.sub; o_kltb := Z.ltb;
  o_tune := fun d a i => if a =? 1 then d + 1 else Z.max 1 (d - 1);
  o_rowV := fun x => Ok x; o_rowD := fun x => Ok x; o_rowK := fun x => x;
  o_zeroV := 0; o_zeroD := 0; o_zeroK := 0
|}.

(** the same, with a forward operator that fails on one input *)
Definition demo_crash (bad : Z) : ops Z Z Z Z Z (option Z) := {|
  o_init := o_init demo;
  o_forward := fun x => if x =? bad then Raise ValueError else Ok (2 * x);
  o_gradg := o_gradg demo; o_proxf := o_proxf demo; o_logpi := o_logpi demo;
  o_step := o_step demo; o_skstep := o_skstep demo; o_logtrans := o_logtrans demo;
  o_logrand := o_logrand demo; o_kadd := Z.add; o_ksub := Z.sub; o_kltb := Z.ltb;
  o_tune := o_tune demo; o_rowV := o_rowV demo; o_rowD := o_rowD demo; o_rowK := o_rowK demo;
  o_zeroV := 0; o_zeroD := 0; o_zeroK := 0
|}.

(** every proposal moves away from the mode and is rejected *)
Definition demo_reject : ops Z Z Z Z Z (option Z) := {|
  o_init := o_init demo;
  o_forward := o_forward demo; o_gradg := o_gradg demo; o_proxf := o_proxf demo;
  o_logpi := fun x d => Ok (- (10 * x), 0, 10 * x);
  o_step := fun delta x p gr g => (Ok (x + 1), g);
  o_skstep := o_skstep demo;
  o_logtrans := fun delta x y p gr => Ok 0;
  o_logrand := fun g => (-1, g); o_kadd := Z.add; o_ksub := Z.sub; o_kltb := Z.ltb;
  o_tune := o_tune demo; o_rowV := o_rowV demo; o_rowD := o_rowD demo; o_rowK := o_rowK demo;
  o_zeroV := 0; o_zeroD := 0; o_zeroK := 0
|}.

Definition all_tracks : list string := ["logposterior"; "L2"; "prior"; "predictions"; "chain"]%string.
Definition demo_prm (n b g v : Z) (tr : list string) : params :=
  {| p_nsamples := n; p_nburn := b; p_ngap := g; p_verbosity := v; p_track := tr |}.
Definition demo_inst (n : Z) : inst Z Z Z Z :=
  let z := repeat 0 (Z.to_nat n) in
  mkInst (Some z) (Some z) (Some z) (Some z) (Some z) None None 1 [].
Definition demo_world (n g : Z) : world Z Z Z Z Z := mkWorld (demo_inst n) g.
(** an object that tracks only the chain *)
Definition chain_only (n g : Z) : world Z Z Z Z Z :=
  mkWorld (mkInst None None None None (Some (repeat 0 (Z.to_nat n))) None None 1 []) g.

Lemma demo_new n b g v : 0 <= n -> new_sampler demo (demo_prm n b g v all_tracks) 1 = Ok (demo_inst n).
Proof.
  intros H. unfold new_sampler, opt_array, np_zeros, demo_prm, demo_inst. simpl.
  destruct (n <? 0) eqn:E; [apply Z.ltb_lt in E; lia|]. reflexivity.
Qed.

(** [demo] with a start point that is always accepted: nothing raises *)
Definition demo_ok : ops Z Z Z Z Z (option Z) := {|
  o_init := fun st g => match st with Some x => (Ok x, g) | None => (Ok (g mod 5), g + 1) end;
  o_forward := o_forward demo; o_gradg := o_gradg demo; o_proxf := o_proxf demo; o_logpi := o_logpi demo;
  o_step := o_step demo; o_skstep := o_skstep demo; o_logtrans := o_logtrans demo;
  o_logrand := o_logrand demo; o_kadd := Z.add; o_ksub := Z.sub; o_kltb := Z.ltb;
  o_tune := o_tune demo; o_rowV := o_rowV demo; o_rowD := o_rowD demo; o_rowK := o_rowK demo;
  o_zeroV := 0; o_zeroD := 0; o_zeroK := 0
|}.
Lemma demo_ok_total : total_ops demo_ok.
Proof. repeat split; intros; simpl; try (destruct s); eauto. Qed.

Definition demo_reject_ok : ops Z Z Z Z Z (option Z) := {|
  o_init := o_init demo_ok;
  o_forward := o_forward demo; o_gradg := o_gradg demo; o_proxf := o_proxf demo;
  o_logpi := o_logpi demo_reject; o_step := o_step demo_reject; o_skstep := o_skstep demo;
  o_logtrans := o_logtrans demo_reject;
  o_logrand := o_logrand demo_reject; o_kadd := Z.add; o_ksub := Z.sub; o_kltb := Z.ltb;
  o_tune := o_tune demo; o_rowV := o_rowV demo; o_rowD := o_rowD demo; o_rowK := o_rowK demo;
  o_zeroV := 0; o_zeroD := 0; o_zeroK := 0
|}.
Lemma demo_reject_total : total_ops demo_reject_ok.
Proof. repeat split; intros; simpl; try (destruct s); eauto. Qed.

Lemma demo_crash_completes bad : completes (demo_crash bad) demo.
Proof.
  repeat split; auto. intros x d. simpl. destruct (x =? bad); [discriminate|auto].
Qed.

Lemma demo_sized n g : sized (w_inst (demo_world n g)) (Z.to_nat n).
Proof. repeat split; simpl; apply repeat_length. Qed.
Lemma chain_only_sized n g : sized (w_inst (chain_only n g)) (Z.to_nat n).
Proof. repeat split; simpl; apply repeat_length. Qed.


(** Executable form of the uncached reference, for examples. *)
Section Exec.
Context {V D K P G I : Type}.
Variable o : ops V D K P G I.

Definition mh_step (tune : bool) (i : Z) (s : mh_state V P G) : option (bool * mh_state V P G) :=
  let '(x, dl, g) := s in
  match o_forward o x with Raise _ => None | Ok dx =>
  match o_gradg o dx with Raise _ => None | Ok gx =>
  match o_proxf o x with Raise _ => None | Ok px =>
  match o_logpi o x dx with Raise _ => None | Ok lx =>
  match o_step o dl x px gx g with (Raise _, _) => None | (Ok y, g1) =>
  match o_forward o y with Raise _ => None | Ok dy =>
  match o_gradg o dy with Raise _ => None | Ok gy =>
  match o_proxf o y with Raise _ => None | Ok py =>
  match o_logpi o y dy with Raise _ => None | Ok ly =>
  match o_logtrans o dl x y px gx with Raise _ => None | Ok qxy =>
  match o_logtrans o dl y x py gy with Raise _ => None | Ok qyx =>
    let a := o_ksub o (o_ksub o (o_kadd o qyx (fst (fst ly))) qxy) (fst (fst lx)) in
    let '(u, g') := o_logrand o g1 in
    let acc := o_kltb o u a in
    Some (acc, (if acc then y else x, if tune then o_tune o dl (b2z acc) i else dl, g'))
  end end end end end end end end end end end.

Fixpoint mh_exec (tune : bool) (i : Z) (s : mh_state V P G) (k : nat) : option (list (bool * mh_state V P G)) :=
  match k with
  | O => Some []
  | S k' => match mh_step tune i s with
            | None => None
            | Some (acc, s') => match mh_exec tune (i + 1) s' k' with
                                | None => None
                                | Some l => Some ((acc, s') :: l)
                                end
            end
  end.

Lemma mh_step_sound tune i s acc s' : mh_step tune i s = Some (acc, s') -> mh_trans o tune i s acc s'.
Proof.
  destruct s as [[x dl] g], s' as [[x' dl'] g']. unfold mh_step.
  destruct (o_forward o x) as [dx|] eqn:E1; [|discriminate].
  destruct (o_gradg o dx) as [gx|] eqn:E2; [|discriminate].
  destruct (o_proxf o x) as [px|] eqn:E3; [|discriminate].
  destruct (o_logpi o x dx) as [lx|] eqn:E4; [|discriminate].
  destruct (o_step o dl x px gx g) as [[y|] g1] eqn:E5; [|discriminate].
  destruct (o_forward o y) as [dy|] eqn:E6; [|discriminate].
  destruct (o_gradg o dy) as [gy|] eqn:E7; [|discriminate].
  destruct (o_proxf o y) as [py|] eqn:E8; [|discriminate].
  destruct (o_logpi o y dy) as [ly|] eqn:E9; [|discriminate].
  destruct (o_logtrans o dl x y px gx) as [qxy|] eqn:E10; [|discriminate].
  destruct (o_logtrans o dl y x py gy) as [qyx|] eqn:E11; [|discriminate].
  destruct (o_logrand o g1) as [u g2] eqn:E12. intros H. injection H as H1 H2 H3 H4.
  exists y, g1, u, (o_ksub o (o_ksub o (o_kadd o qyx (fst (fst ly))) qxy) (fst (fst lx))).
  split; [exists dx, gx, px; auto|]. split; [exists dx, gx, px, lx, dy, gy, py, ly, qxy, qyx; auto 15|].
  subst. auto.
Qed.

Lemma mh_exec_sound tune : forall k i s l, mh_exec tune i s k = Some l -> mh_path o tune i s l.
Proof.
  induction k as [|k IH]; intros i s l H; simpl in H.
  - injection H as <-. constructor.
  - destruct (mh_step tune i s) as [[acc s']|] eqn:E; [|discriminate].
    destruct (mh_exec tune (i + 1) s' k) as [l'|] eqn:E'; [|discriminate].
    injection H as <-. constructor; [apply mh_step_sound; exact E|apply IH; exact E'].
Qed.
End Exec.
