(** C53: what plot.py needs in a results file, and how it fails when an entry is
    missing or of another kind. *)
From Coq Require Import List ZArith Lia Bool Reals Lra String.
From Coquelicot Require Import Coquelicot.
From Verif Require Import PyBase PyBaseFacts CVec Utils Prior Forward Sampler Mcmc Objects Measure Transforms Plotting ExpRun ExpPlot ExpLink P_ExpRun.
Import ListNotations.
Open Scope R_scope.
Notation length := List.length.

(** ** Specification *)

Definition is_int (v : pv) : Prop := exists z, v = VInt z.
Definition is_number (v : pv) : Prop := is_int v \/ exists r, v = VOther (XReal r).
Definition is_text (v : pv) : Prop := exists s, v = VOther (XStr s).
Definition is_scalars (v : pv) : Prop := exists l, v = VScal l.
Definition is_chain (v : pv) : Prop := exists l, v = VChain l.
Definition is_noise (v : pv) : Prop := is_number v \/ exists l, v = VOther (XArr l).

(** an entry of the file: among the attributes or the data sets, its name,
    whether it must be there, and what it must be *)
Record entry := mkEntry { e_attr : bool; e_name : string; e_needed : bool; e_kind : pv -> Prop }.
(** in the order in which the scripts ask for them *)
Definition entries : list entry := [
  mkEntry true "L" true is_int; mkEntry true "B" true is_number; mkEntry true "J_min" true is_int;
  mkEntry true "setting" false is_text;
  mkEntry false "logposterior" true is_scalars; mkEntry false "L2s" true (fun _ => True); mkEntry false "priors" true (fun _ => True);
  mkEntry false "chain" true is_chain; mkEntry true "nsamples" true is_int; mkEntry true "noise" false is_noise ].

Section Open.
Context {B : Type} (rd : B -> pv) (file : h5file B).
Definition stored_as (e : entry) : option pv := option_map rd (dget (if e_attr e then h5_attrs file else h5_datasets file) (e_name e)).
Definition good (e : entry) : Prop := match stored_as e with Some v => e_kind e v | None => e_needed e = false end.
(** why an entry cannot be used *)
Definition missing (e : entry) : Prop := stored_as e = None /\ e_needed e = true.
Definition wrong (e : entry) : Prop := exists v, stored_as e = Some v /\ ~ e_kind e v.

(** the values of a file whose entries are all good *)
Definition values (o : opened) : Prop :=
  (forall b z, dget (h5_attrs file) "L" = Some b -> rd b = VInt z -> rs_L (op_results o) = Z.to_nat z) /\
  (forall b, dget (h5_attrs file) "B" = Some b -> (forall z, rd b = VInt z -> op_B o = IZR z) /\ forall r, rd b = VOther (XReal r) -> op_B o = r) /\
  (forall b z, dget (h5_attrs file) "J_min" = Some b -> rd b = VInt z -> op_Jmin o = z) /\
  (forall b s, dget (h5_attrs file) "setting" = Some b -> rd b = VOther (XStr s) -> rs_setting (op_results o) = Some s) /\
  (dget (h5_attrs file) "setting" = None -> rs_setting (op_results o) = None) /\
  (forall b l, dget (h5_datasets file) "logposterior" = Some b -> rd b = VScal l -> rs_logpi (op_results o) = map fst l) /\
  (forall b l, dget (h5_datasets file) "chain" = Some b -> rd b = VChain l -> rs_chain (op_results o) = l) /\
  (forall b z, dget (h5_attrs file) "nsamples" = Some b -> rd b = VInt z -> rs_nsamples (op_results o) = z) /\
  (forall b, dget (h5_attrs file) "noise" = Some b ->
     (forall z, rd b = VInt z -> op_noise o = NNum (IZR z)) /\ (forall r, rd b = VOther (XReal r) -> op_noise o = NNum r) /\
     forall l, rd b = VOther (XArr l) -> op_noise o = NArr l) /\
  (dget (h5_attrs file) "noise" = None -> op_noise o = NoNoise).

Ltac entry E := unfold good, missing, wrong, stored_as in E; cbn [e_attr e_name e_needed e_kind] in E.

Theorem C53_file_read : (forall e, In e entries -> good e) -> exists o, open_results rd file = Ok o /\ values o.
Proof.
  intros H. unfold entries in H.
  assert (H1 := H _ (or_introl eq_refl)). assert (H2 := H _ (or_intror (or_introl eq_refl))).
  assert (H3 := H _ (or_intror (or_intror (or_introl eq_refl)))).
  assert (H4 := H _ (or_intror (or_intror (or_intror (or_introl eq_refl))))).
  assert (H5 := H _ (or_intror (or_intror (or_intror (or_intror (or_introl eq_refl)))))).
  assert (H6 := H _ (or_intror (or_intror (or_intror (or_intror (or_intror (or_introl eq_refl))))))).
  assert (H7 := H _ (or_intror (or_intror (or_intror (or_intror (or_intror (or_intror (or_introl eq_refl)))))))).
  assert (H8 := H _ (or_intror (or_intror (or_intror (or_intror (or_intror (or_intror (or_intror (or_introl eq_refl))))))))).
  assert (H9 := H _ (or_intror (or_intror (or_intror (or_intror (or_intror (or_intror (or_intror (or_intror (or_introl eq_refl)))))))))).
  assert (H10 := H _ (or_intror (or_intror (or_intror (or_intror (or_intror (or_intror (or_intror (or_intror (or_intror (or_introl eq_refl))))))))))).
  clear H. entry H1. entry H2. entry H3. entry H4. entry H5. entry H6. entry H7. entry H8. entry H9. entry H10.
  unfold open_results, read_key, values.
  destruct (dget (h5_attrs file) "L") as [b1|]; [|discriminate]. destruct H1 as (L & E1). cbn [rbind]. rewrite E1. cbn [as_int rbind].
  destruct (dget (h5_attrs file) "B") as [b2|]; [|discriminate]. cbn [option_map] in H2. cbn [rbind].
  assert (F2 : exists wB, as_float (rd b2) = Ok wB /\ (forall z, rd b2 = VInt z -> wB = IZR z) /\ forall r, rd b2 = VOther (XReal r) -> wB = r).
  { destruct H2 as [(z & ->)|(r & ->)]; eexists; (split; [reflexivity|split; intros ? X; congruence]). }
  destruct F2 as (wB & F2 & V2). rewrite F2. cbn [rbind].
  destruct (dget (h5_attrs file) "J_min") as [b3|]; [|discriminate]. destruct H3 as (J & E3). cbn [rbind]. rewrite E3. cbn [as_int rbind].
  set (st := match dget (h5_attrs file) "setting" with Some b => _ | None => _ end).
  assert (F4 : exists s, st = Ok s /\ (forall b t, dget (h5_attrs file) "setting" = Some b -> rd b = VOther (XStr t) -> s = Some t) /\
                (dget (h5_attrs file) "setting" = None -> s = None)).
  { unfold st. destruct (dget (h5_attrs file) "setting") as [b4|].
    - destruct H4 as (t & E4). rewrite E4. cbn. eexists. split; [reflexivity|]. split; [|discriminate]. intros b u X; injection X as <-. rewrite E4. congruence.
    - eexists. split; [reflexivity|]. split; [discriminate|auto]. }
  destruct F4 as (s & -> & V4 & V4'). cbn [rbind].
  destruct (dget (h5_datasets file) "logposterior") as [b5|]; [|discriminate]. destruct H5 as (lp & E5). cbn [rbind]. rewrite E5. cbn [as_numbers rbind].
  destruct (dget (h5_datasets file) "L2s") as [b6|]; [|discriminate]. cbn [rbind].
  destruct (dget (h5_datasets file) "priors") as [b7|]; [|discriminate]. cbn [rbind].
  destruct (dget (h5_datasets file) "chain") as [b8|]; [|discriminate]. destruct H8 as (ch & E8). cbn [rbind]. rewrite E8. cbn [as_rows rbind].
  destruct (dget (h5_attrs file) "nsamples") as [b9|]; [|discriminate]. destruct H9 as (ns & E9). cbn [rbind]. rewrite E9. cbn [as_int rbind].
  assert (F10 : exists nz, as_noise (option_map rd (dget (h5_attrs file) "noise")) = Ok nz /\
     (forall b, dget (h5_attrs file) "noise" = Some b ->
       (forall z, rd b = VInt z -> nz = NNum (IZR z)) /\ (forall r, rd b = VOther (XReal r) -> nz = NNum r) /\ forall l, rd b = VOther (XArr l) -> nz = NArr l) /\
     (dget (h5_attrs file) "noise" = None -> nz = NoNoise)).
  { destruct (dget (h5_attrs file) "noise") as [b10|]; cbn [option_map] in *.
    - destruct H10 as [[(z & E)|(r & E)]|(l & E)]; rewrite E; eexists; (split; [reflexivity|split; [|discriminate]]);
        intros b X; injection X as <-; rewrite E; split; [|split| |split| |split]; intros; congruence.
    - eexists. split; [reflexivity|]. split; [discriminate|auto]. }
  destruct F10 as (nz & -> & V10 & V10'). cbn [rbind]. eexists. split; [reflexivity|]. cbn [rs_L op_B op_Jmin op_noise op_results rs_setting rs_logpi rs_chain rs_nsamples].
  split; [intros b z X; injection X as <-; rewrite E1; congruence|].
  split; [intros b X; injection X as <-; exact V2|].
  split; [intros b z X; injection X as <-; rewrite E3; congruence|].
  split; [auto|]. split; [auto|].
  split; [intros b l X; injection X as <-; rewrite E5; congruence|].
  split; [intros b l X; injection X as <-; rewrite E8; congruence|].
  split; [intros b z X; injection X as <-; rewrite E9; congruence|].
  split; [exact V10|exact V10'].
Qed.

(** the first entry that cannot be used decides the exception, before anything is drawn *)
Theorem C53_file_unusable : forall pre e post lib junk rest, entries = pre ++ e :: post -> (forall e', In e' pre -> good e') ->
  (missing e -> with_file rd lib junk file rest = ([], Raise KeyError)) /\
  (wrong e -> with_file rd lib junk file rest = ([], Raise TypeError)).
Proof.
  intros pre e post lib junk rest EQ GP.
  assert (K : (missing e -> open_results rd file = Raise KeyError) /\ (wrong e -> open_results rd file = Raise TypeError));
    [|destruct K as (K1 & K2); split; intros H; unfold with_file; [rewrite (K1 H)|rewrite (K2 H)]; reflexivity].
  assert (R1 : forall x : pv, ~ is_int x -> as_int x = Raise TypeError).
  { intros [] Hx; cbn; auto. exfalso; apply Hx; eexists; reflexivity. }
  assert (R2 : forall x : pv, ~ is_number x -> as_float x = Raise TypeError).
  { intros [| | | | | | | |[]] Hx; cbn; auto; exfalso; apply Hx; [left|right]; eexists; reflexivity. }
  assert (R3 : forall x : pv, ~ is_text x -> as_text x = Raise TypeError).
  { intros [| | | | | | | |[]] Hx; cbn; auto; exfalso; apply Hx; eexists; reflexivity. }
  assert (R4 : forall x : pv, ~ is_scalars x -> as_numbers x = Raise TypeError).
  { intros [] Hx; cbn; auto; exfalso; apply Hx; eexists; reflexivity. }
  assert (R5 : forall x : pv, ~ is_chain x -> as_rows x = Raise TypeError).
  { intros [] Hx; cbn; auto; exfalso; apply Hx; eexists; reflexivity. }
  assert (R6 : forall x : pv, ~ is_noise x -> as_noise (Some x) = Raise TypeError).
  { intros [| | | | | | | |[]] Hx; cbn; auto; exfalso; apply Hx; [left; left|left; right|right]; eexists; reflexivity. }
  unfold open_results, read_key, entries in *.
  Ltac fin d k lem := split; intros Q; entry Q;
    [destruct Q as (Q & _); destruct (dget d k); [discriminate|reflexivity]
    |destruct Q as (v & Q & NK); destruct (dget d k); [|discriminate]; cbn [option_map] in Q; injection Q as <-; cbn [rbind]; rewrite lem by exact NK; reflexivity].
  Ltac take EQ GP H := injection EQ as <- EQ; assert (H := GP _ (or_introl eq_refl)); assert (GP' := fun e' I => GP e' (or_intror I)); clear GP; rename GP' into GP; entry H.
  destruct pre as [|p pre]; [injection EQ as <- EQ; fin (h5_attrs file) "L"%string R1|take EQ GP H].
  destruct (dget (h5_attrs file) "L") as [b1|]; [|discriminate]. destruct H as (L & E1). cbn [rbind]. rewrite E1. cbn [as_int rbind].
  destruct pre as [|p pre]; [injection EQ as <- EQ; fin (h5_attrs file) "B"%string R2|take EQ GP H].
  destruct (dget (h5_attrs file) "B") as [b2|]; [|discriminate]. cbn [rbind].
  assert (F2 : exists wB, as_float (rd b2) = Ok wB) by (destruct H as [(z & E)|(z & E)]; rewrite E; eexists; reflexivity).
  destruct F2 as (wB & F2). rewrite F2. cbn [rbind]. clear H.
  destruct pre as [|p pre]; [injection EQ as <- EQ; fin (h5_attrs file) "J_min"%string R1|take EQ GP H].
  destruct (dget (h5_attrs file) "J_min") as [b3|]; [|discriminate]. destruct H as (J & E3). cbn [rbind]. rewrite E3. cbn [as_int rbind].
  destruct pre as [|p pre].
  { injection EQ as <- EQ. split; intros Q; entry Q; [destruct Q as (_ & Q); discriminate|].
    destruct Q as (v & Q & NK). destruct (dget (h5_attrs file) "setting"); [|discriminate]. cbn [option_map] in Q. injection Q as <-.
    rewrite R3 by exact NK. reflexivity. }
  take EQ GP H.
  set (st := match dget (h5_attrs file) "setting" with Some b => _ | None => _ end).
  assert (F4 : exists s, st = Ok s).
  { unfold st. destruct (dget (h5_attrs file) "setting") as [b4|]; [destruct H as (t & ->)|]; eexists; reflexivity. }
  destruct F4 as (s & ->). cbn [rbind]. clear H.
  destruct pre as [|p pre]; [injection EQ as <- EQ; fin (h5_datasets file) "logposterior"%string R4|take EQ GP H].
  destruct (dget (h5_datasets file) "logposterior") as [b5|]; [|discriminate]. destruct H as (lp & E5). cbn [rbind]. rewrite E5. cbn [as_numbers rbind].
  destruct pre as [|p pre]; [injection EQ as <- EQ; split; intros Q; entry Q; [destruct Q as (Q & _)|destruct Q as (v & _ & Q); tauto]|take EQ GP H].
  { destruct (dget (h5_datasets file) "L2s"); [discriminate|reflexivity]. }
  destruct (dget (h5_datasets file) "L2s") as [b6|]; [|discriminate]. cbn [rbind]. clear H.
  destruct pre as [|p pre]; [injection EQ as <- EQ; split; intros Q; entry Q; [destruct Q as (Q & _)|destruct Q as (v & _ & Q); tauto]|take EQ GP H].
  { destruct (dget (h5_datasets file) "priors"); [discriminate|reflexivity]. }
  destruct (dget (h5_datasets file) "priors") as [b7|]; [|discriminate]. cbn [rbind]. clear H.
  destruct pre as [|p pre]; [injection EQ as <- EQ; fin (h5_datasets file) "chain"%string R5|take EQ GP H].
  destruct (dget (h5_datasets file) "chain") as [b8|]; [|discriminate]. destruct H as (ch & E8). cbn [rbind]. rewrite E8. cbn [as_rows rbind].
  destruct pre as [|p pre]; [injection EQ as <- EQ; fin (h5_attrs file) "nsamples"%string R1|take EQ GP H].
  destruct (dget (h5_attrs file) "nsamples") as [b9|]; [|discriminate]. destruct H as (ns & E9). cbn [rbind]. rewrite E9. cbn [as_int rbind].
  destruct pre as [|p pre].
  { injection EQ as <- EQ. split; intros Q; entry Q; [destruct Q as (_ & Q); discriminate|].
    destruct Q as (v & Q & NK). destruct (dget (h5_attrs file) "noise"); [|discriminate]. cbn [option_map] in *. injection Q as <-.
    rewrite R6 by exact NK. reflexivity. }
  injection EQ as _ EQ. destruct pre; discriminate.
Qed.
End Open.
Print Assumptions C53_file_read.
Print Assumptions C53_file_unusable.

(** a file as main.py writes it for L = 8, with the noise given as one number;
    without its priors; with a text for its chain *)
Definition saved (noise : pv) (drop : string) (chain : pv) : h5file pv :=
  mkH5 (filter (fun kv => negb (String.eqb (fst kv) drop))
             [("logposterior"%string, VScal [RtoC 3; RtoC 4]); ("L2s"%string, VScal []); ("priors"%string, VScal []); ("chain"%string, chain)])
          [("L"%string, VInt 8); ("B"%string, VInt 2); ("J_min"%string, VInt 1); ("setting"%string, VOther (XStr "synthesis"));
           ("nsamples"%string, VInt 2); ("noise"%string, noise)].

Example C53_file_case : forall lib junk rest,
  (exists o, open_results (fun v => v) (saved (VOther (XReal 5)) ""%string (VChain [[RtoC 1]; [RtoC 2]])) = Ok o /\
     rs_L (op_results o) = 8%nat /\ op_B o = 2 /\ op_noise o = NNum 5 /\ rs_chain (op_results o) = [[RtoC 1]; [RtoC 2]] /\ rs_logpi (op_results o) = [3; 4]) /\
  with_file (fun v => v) lib junk (saved (VOther (XReal 5)) "priors"%string (VChain [])) rest = ([], Raise KeyError) /\
  with_file (fun v => v) lib junk (saved (VOther (XReal 5)) ""%string (VOther (XStr "none"))) rest = ([], Raise TypeError).
Proof.
  intros lib junk rest. split; [|split].
  - destruct (C53_file_read (fun v => v) (saved (VOther (XReal 5)) ""%string (VChain [[RtoC 1]; [RtoC 2]]))) as (o & E & V1 & V2 & _ & _ & _ & V6 & V7 & _ & V9 & _).
    { intros e. cbn [In entries]. intros HI. repeat (destruct HI as [<-|HI]); try destruct HI;
        unfold good; cbn; try exact I; unfold is_number, is_int, is_noise; try (eexists; reflexivity); try (left; eexists; reflexivity).
      left. right. eexists; reflexivity. }
    exists o. split; [exact E|]. split; [apply (V1 (VInt 8) 8%Z); reflexivity|].
    destruct (V2 (VInt 2) eq_refl) as (V2' & _). split; [apply (V2' 2%Z eq_refl)|].
    destruct (V9 (VOther (XReal 5)) eq_refl) as (_ & V9' & _). split; [apply (V9' 5 eq_refl)|].
    split; [apply (V7 _ _ eq_refl eq_refl)|]. apply (V6 _ _ eq_refl eq_refl).
  - apply (C53_file_unusable (fun v => v) _ (firstn 6 entries) (mkEntry false "priors" true (fun _ => True)) (skipn 7 entries)); [reflexivity| |split; reflexivity].
    intros e. cbn [In firstn entries]. intros HI. repeat (destruct HI as [<-|HI]); try destruct HI;
        unfold good; cbn; try exact I; unfold is_number, is_int, is_noise; try (eexists; reflexivity); try (left; eexists; reflexivity).
  - apply (C53_file_unusable (fun v => v) _ (firstn 7 entries) (mkEntry false "chain" true is_chain) (skipn 8 entries)); [reflexivity| |].
    + intros e. cbn [In firstn entries]. intros HI. repeat (destruct HI as [<-|HI]); try destruct HI;
        unfold good; cbn; try exact I; unfold is_number, is_int, is_noise; try (eexists; reflexivity); try (left; eexists; reflexivity).
    + eexists. split; [reflexivity|]. intros (l & E). discriminate.
Qed.
