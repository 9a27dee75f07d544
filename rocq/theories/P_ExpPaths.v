(** C49: data and path matrix of the phase velocity experiment
    (experiments/phasevel/main.py). *)
From Coq Require Import List ZArith Lia Bool Reals Lra Psatz String.
From Coquelicot Require Import Coquelicot.
From Verif Require Import PyBase PyBaseFacts CVec RSort Utils UtilsSpec UtilsProof Measure MeasProof Prior Forward
  FwdProof Transforms McmcSpec ExpData ExpSpec ExpProof.
Import ListNotations.
Open Scope R_scope.
Notation length := List.length.

(** ** reading the data file *)

Lemma force_positive : forall l, (if existsb (fun s => Rltb s 0) l then map Rabs l else l) = map Rabs l.
Proof.
  intros l. destruct (existsb _ l) eqn:E; [reflexivity|]. rewrite <- (map_id l) at 1. apply map_ext_in. intros a Ha.
  destruct (Rltb_spec a 0) as [N|N].
  - assert (X : existsb (fun s => Rltb s 0) l = true); [|congruence]. apply existsb_exists. exists a. split; auto.
    destruct (Rltb_spec a 0); [reflexivity|lra].
  - rewrite Rabs_right; lra.
Qed.
Lemma column_nth : forall (rows : list (list R)) j i, (i < length rows)%nat -> nth i (map (fun row => nth j row 0) rows) 0 = cell rows i j.
Proof. intros rows j i H. unfold cell. rewrite (nth_map_in _ _ _ _ []) by auto. reflexivity. Qed.
Lemma combine_nth_pair : forall (a b : list R) i, length a = length b -> nth i (combine a b) (0, 0) = (nth i a 0, nth i b 0).
Proof. intros. apply combine_nth; auto. Qed.

(** eight columns and at least two rows: all fields, row by row; errors are made
    positive *)
Theorem C49_read : forall rows n, table rows n 8 -> (2 <= n)%nat ->
  exists d, read_datafile rows = Ok d /\
    length (pd_start d) = n /\ length (pd_stop d) = n /\ length (pd_data d) = n /\ length (pd_sig d) = n /\ length (pd_nsim d) = n /\
    forall i, (i < n)%nat ->
      nth i (pd_start d) (0, 0) = (cell rows i 0, cell rows i 1) /\
      nth i (pd_stop d) (0, 0) = (cell rows i 2, cell rows i 3) /\
      nth i (pd_data d) 0 = cell rows i 4 /\
      nth i (pd_sig d) 0 = Rabs (cell rows i 5) /\
      nth i (pd_nsim d) 0 = cell rows i 7.
Proof.
  intros rows n (Ln & HR) Hn.
  destruct rows as [|r [|r2 rs]]; [simpl in Ln; lia|simpl in Ln; lia|].
  assert (Lr : length r = 8%nat) by (apply HR; left; auto).
  assert (F : forallb (fun x => Nat.eqb (length x) (length r)) (r2 :: rs) = true).
  { apply forallb_forall. intros x Hx. apply Nat.eqb_eq. rewrite Lr. apply HR. right; auto. }
  assert (E : loadtxt_unpack (r :: r2 :: rs) = Ok (map (fun j => Col (map (fun row => nth j row 0) (r :: r2 :: rs))) (seq 0 8))).
  { unfold loadtxt_unpack. destruct r as [|x [|y r]]; cbn [List.length] in Lr; try lia. cbv iota. rewrite F.
    destruct (Nat.eqb_spec (length (x :: y :: r)) 1) as [Q|_]; [simpl in Q; lia|]. replace (length (x :: y :: r)) with 8%nat by (simpl; lia). reflexivity. }
  set (rows := r :: r2 :: rs) in *. unfold read_datafile. rewrite E. cbn [rbind seq map].
  unfold stack1. rewrite !map_length, Nat.eqb_refl. cbn [rbind as_col]. rewrite force_positive.
  eexists. split; [reflexivity|]. cbn [pd_start pd_stop pd_data pd_sig pd_nsim].
  rewrite !combine_length, !map_length, Ln, Nat.min_id. split; [reflexivity|]. split; [reflexivity|]. split; [reflexivity|].
  split; [reflexivity|]. split; [reflexivity|]. intros i Hi.
  rewrite !combine_nth_pair by (rewrite !map_length; auto). rewrite !column_nth by lia.
  split; [reflexivity|]. split; [reflexivity|]. split; [reflexivity|]. split; [|reflexivity].
  rewrite (nth_map_in _ _ _ _ 0) by (rewrite map_length; lia). rewrite column_nth by lia. reflexivity.
Qed.
Print Assumptions C49_read.

(** everything else is rejected: wrong number of columns, ragged rows, and also
    a file with a single path *)
Theorem C49_read_errors : forall rows, ~ (exists n, table rows n 8 /\ (2 <= n)%nat) ->
  ((exists x, rows = [[x]]) -> read_datafile rows = Raise TypeError) /\
  (~ (exists x, rows = [[x]]) -> read_datafile rows = Raise ValueError).
Proof.
  intros rows N. split.
  - intros (x & ->). reflexivity.
  - intros NX.
    assert (S8 : forall cols, (length cols <> 8%nat \/ exists l, cols = map Scal l) ->
      match cols with
      | [start_lat; start_lon; stop_lat; stop_lon; data; sig_d; mima; nsim] =>
          let* start := stack1 start_lat start_lon in
          let* stop := stack1 stop_lat stop_lon in
          let sig_d := as_col sig_d in
          let sig_d := if existsb (fun s => Rltb s 0) sig_d then map Rabs sig_d else sig_d in
          Ok (mkPaths start stop (as_col data) sig_d (as_col nsim))
      | _ => Raise ValueError
      end = Raise ValueError).
    { intros cols H. destruct cols as [|a [|b [|c [|d [|e [|f [|g [|h [|i cols]]]]]]]]]; try reflexivity.
      destruct H as [H|(l & H)]; [simpl in H; congruence|]. destruct l as [|x [|y l]]; try discriminate. injection H as -> -> _. reflexivity. }
    unfold read_datafile. destruct rows as [|r rs]; [reflexivity|]. destruct rs as [|r2 rs].
    + destruct r as [|x [|y r]]; [reflexivity|exfalso; apply NX; eauto|]. unfold loadtxt_unpack. cbn [rbind]. apply S8. right. eauto.
    + unfold loadtxt_unpack. replace (match r with [] | _ => _ end) with
        (if forallb (fun x => Nat.eqb (length x) (length r)) (r2 :: rs) then
           if Nat.eqb (length r) 1 then Ok (map Scal (List.concat (r :: r2 :: rs)))
           else Ok (map (fun j => Col (map (fun row => nth j row 0) (r :: r2 :: rs))) (seq 0 (length r)))
         else Raise ValueError) by (destruct r as [|? [|? ?]]; reflexivity).
      destruct (forallb _ (r2 :: rs)) eqn:F; [|reflexivity].
      destruct (Nat.eqb_spec (length r) 1) as [L1|L1]; cbn [rbind]; apply S8; [right; eauto|]. left. rewrite map_length, seq_length.
      intros L8. apply N. exists (length (r :: r2 :: rs)). split; [|simpl; lia]. split; [reflexivity|].
      rewrite forallb_forall in F. intros row [<-|I]; [exact L8|]. apply F in I. apply Nat.eqb_eq in I. congruence.
Qed.
Print Assumptions C49_read_errors.

(** so a file with one well-formed path cannot be inverted *)
Theorem C49_one_path_refuted : exists rows, table rows 1 8 /\ read_datafile rows = Raise ValueError.
Proof.
  exists [[0; 0; 0; 0; 1; 1; 0; 1]]. split; [split; [reflexivity|intros row [<-|[]]; reflexivity]|]. reflexivity.
Qed.
Print Assumptions C49_one_path_refuted.

(** ** the path matrix *)

(** row i of the matrix is the path from start i to stop i *)
Theorem C49_matrix : forall build_path start stop L n npix (prow : nat -> list R),
  length start = n -> length stop = n -> (1 <= n)%nat ->
  (forall i, (i < n)%nat -> build_path (nth i start (0, 0)) (nth i stop (0, 0)) L = Ok (prow i) /\ length (prow i) = npix) ->
  exists P, get_path_matrix build_path start stop L = Ok P /\ m_rows P = n /\ m_cols P = npix /\
    forall i j, (i < n)%nat -> (j < npix)%nat -> m_ent P i j = RtoC (nth j (prow i) 0).
Proof.
  intros bp start stop L n npix prow L1 L2 Hn H. unfold get_path_matrix.
  assert (E : rseq (map (fun st => bp (fst st) (snd st) L) (combine start stop)) = Ok (map prow (seq 0 n))).
  { clear Hn. revert start stop n prow L1 L2 H. induction start as [|a start IH]; intros [|b stop] n prow L1 L2 H; simpl in L1, L2; subst n; try lia; [reflexivity|].
    cbn [combine map rseq fst snd seq]. destruct (H 0%nat ltac:(lia)) as (E0 & _). cbn [nth] in E0. rewrite E0. cbn [rbind].
    rewrite <- seq_shift, map_map.
    rewrite (IH stop (length start) (fun i => prow (S i)) eq_refl ltac:(lia)); [reflexivity|]. intros i Hi. apply (H (S i)). lia. }
  rewrite E. cbn [rbind]. unfold csr_matrix.
  destruct (map prow (seq 0 n)) as [|r rs] eqn:EM.
  { assert (X := f_equal (@length _) EM). rewrite map_length, seq_length in X. simpl in X. lia. }
  assert (Lr : forall x, In x (r :: rs) -> length x = npix).
  { intros x Hx. rewrite <- EM in Hx. apply in_map_iff in Hx. destruct Hx as (i & <- & Hi). apply in_seq in Hi. apply H. lia. }
  replace (forallb (fun x => Nat.eqb (length x) (length r)) rs) with true.
  2:{ symmetry. apply forallb_forall. intros x Hx. apply Nat.eqb_eq. rewrite (Lr x), (Lr r); auto; [left|right]; auto. }
  eexists. split; [reflexivity|]. cbn [m_rows m_cols m_ent]. rewrite <- EM. rewrite map_length, seq_length.
  split; [reflexivity|]. split; [apply Lr; left; auto|]. intros i j Hi Hj.
  rewrite (nth_map_in _ _ _ _ 0%nat) by (rewrite seq_length; auto). rewrite seq_nth by auto. reflexivity.
Qed.
Print Assumptions C49_matrix.

(** a path that cannot be built makes the whole call fail with its exception *)
Theorem C49_matrix_failure : forall build_path start stop L i e, length start = length stop -> (i < length start)%nat ->
  build_path (nth i start (0, 0)) (nth i stop (0, 0)) L = Raise e ->
  (forall k, (k < i)%nat -> exists r, build_path (nth k start (0, 0)) (nth k stop (0, 0)) L = Ok r) ->
  get_path_matrix build_path start stop L = Raise e.
Proof.
  intros bp start stop L i e LS Hi Ei HB. unfold get_path_matrix.
  assert (E : rseq (map (fun st => bp (fst st) (snd st) L) (combine start stop)) = Raise e); [|rewrite E; reflexivity].
  revert stop i LS Hi Ei HB. induction start as [|a start IH]; intros [|b stop] i LS Hi Ei HB; simpl in LS, Hi; try lia.
  cbn [combine map rseq fst snd]. destruct i as [|i]; cbn [nth] in Ei.
  - rewrite Ei. reflexivity.
  - destruct (HB 0%nat ltac:(lia)) as (r & Er). cbn [nth] in Er. rewrite Er. cbn [rbind].
    rewrite (IH stop i); [reflexivity|lia|lia|exact Ei|]. intros k Hk. apply (HB (S k)). lia.
Qed.
Print Assumptions C49_matrix_failure.

(** ** the operator *)

(** the matrix in use: the file's, or the one built, and the files afterwards *)
Definition matrix_used (build_path : R * R -> R * R -> nat -> res (list R)) (fs : npz_files) (rows : list (list R))
           (pathsfile : string) (L n : nat) (P : cmat) (fs' : npz_files) : Prop :=
  (fs pathsfile = Some P /\ fs' = fs) \/
  (fs pathsfile = None /\
   m_rows P = n /\
   (forall i, (i < n)%nat -> exists r,
      build_path (cell rows i 0, cell rows i 1) (cell rows i 2, cell rows i 3) L = Ok r /\ length r = m_cols P /\
      forall j, (j < m_cols P)%nat -> m_ent P i j = RtoC (nth j r 0)) /\
   exists written, ends_with ".npz" written /\ (written = pathsfile \/ written = (pathsfile ++ ".npz")%string) /\
     (ends_with ".npz" pathsfile -> written = pathsfile) /\
     fs' written = Some P /\ forall q, q <> written -> fs' q = fs q).
(** the variance of datum i *)
Definition path_variance (rows : list (list R)) (use_nsim : bool) (i : nat) : R :=
  (cell rows i 5) ^ 2 * (if use_nsim then cell rows i 7 else 1).

Lemma npz_name_spec : forall p, ends_with ".npz" (npz_name p) /\ (npz_name p = p \/ npz_name p = (p ++ ".npz")%string) /\
  (ends_with ".npz" p -> npz_name p = p).
Proof.
  intros p. unfold npz_name. destruct (str_ends ".npz" p) eqn:E.
  - apply str_ends_iff in E. auto.
  - split; [exists p; reflexivity|]. split; [auto|]. intros H. apply str_ends_iff in H. congruence.
Qed.

Theorem C49_operator : forall sl junk inv build_path fs rows n pathsfile use_nsim setting L t npix,
  table rows n 8 -> (2 <= n)%nat -> known_setting setting = true ->
  SWT_init sl junk L 2 2 1 0 false = Ok t ->
  (use_nsim = true -> forall i, (i < n)%nat -> 0 <= cell rows i 7) ->
  ((exists P, fs pathsfile = Some P /\ m_rows P = n) \/
   (fs pathsfile = None /\ forall i, (i < n)%nat -> exists r,
      build_path (cell rows i 0, cell rows i 1) (cell rows i 2, cell rows i 3) L = Ok r /\ length r = npix)) ->
  exists f P fs', phasevel_operator sl junk inv build_path fs rows pathsfile use_nsim setting L = (fs', Ok f) /\
    matrix_used build_path fs rows pathsfile L n P fs' /\ m_rows P = n /\
    d_complex (fo_data f) = false /\ length (d_val (fo_data f)) = n /\
    (forall i, (i < n)%nat -> nth i (d_val (fo_data f)) (RtoC 0) = RtoC (cell rows i 4)) /\
    m_rows (fo_invcov f) = n /\ m_cols (fo_invcov f) = n /\
    (forall i j, (i < n)%nat -> (j < n)%nat ->
       m_ent (fo_invcov f) i j = if Nat.eqb i j then (RtoC 1 / RtoC (path_variance rows use_nsim i))%C else RtoC 0) /\
    fo_setting f = setting /\ fo_transform f = Some (swt_transform t) /\
    fo_nparams f = Some (if String.eqb setting "analysis" then L * (2 * L - 1) else sw_ncoefs t)%nat /\
    exists ms, fo_measurement f = Some ms /\
      (forall X, length X = m_cols P -> exists Y, ms_forward ms X = Ok Y /\ length Y = n /\
         forall i, (i < n)%nat -> nth i Y (RtoC 0) = csum (map (fun j => m_ent P i j * nth j X (RtoC 0))%C (seq 0 (m_cols P)))) /\
      (forall X, length X <> m_cols P -> ms_forward ms X = Raise AssertionError).
Proof.
  intros sl junk inv bp fs rows n pf un setting L t npix T Hn K ET HS HM.
  destruct (C49_read rows n T Hn) as (d & ER & L1 & L2 & L3 & L4 & L5 & HD).
  set (sd := if un then map2 (fun s n => s * sqrt n) (pd_sig d) (pd_nsim d) else pd_sig d).
  assert (Lsd : length sd = n) by (unfold sd; destruct un; [rewrite map2_length; congruence|auto]).
  assert (Vsd : forall i, (i < n)%nat -> nth i sd 0 * nth i sd 0 = path_variance rows un i).
  { intros i Hi. destruct (HD i Hi) as (_ & _ & _ & D4 & D5). unfold sd, path_variance. destruct un.
    - rewrite (nth_map2 _ _ _ _ 0 0) by congruence. rewrite D4, D5. assert (Q := HS eq_refl i Hi).
      replace (Rabs (cell rows i 5) * sqrt (cell rows i 7) * (Rabs (cell rows i 5) * sqrt (cell rows i 7)))
        with (Rabs (cell rows i 5) ^ 2 * (sqrt (cell rows i 7) * sqrt (cell rows i 7))) by ring.
      rewrite sqrt_sqrt by auto. rewrite pow2_abs. reflexivity.
    - rewrite D4. rewrite Rmult_1_r, <- (pow2_abs (cell rows i 5)). ring. }
  assert (Core : forall P, m_rows P = n -> exists f,
    (if Nat.eqb (m_rows P) (length (pd_data d)) then
       PIO_init sl junk inv P (mkData (map RtoC (pd_data d)) false) (SVec (map RtoC sd) false) setting L 2 2 1 0
     else Raise AssertionError) = Ok f /\
    d_complex (fo_data f) = false /\ length (d_val (fo_data f)) = n /\
    (forall i, (i < n)%nat -> nth i (d_val (fo_data f)) (RtoC 0) = RtoC (cell rows i 4)) /\
    m_rows (fo_invcov f) = n /\ m_cols (fo_invcov f) = n /\
    (forall i j, (i < n)%nat -> (j < n)%nat ->
       m_ent (fo_invcov f) i j = if Nat.eqb i j then (RtoC 1 / RtoC (path_variance rows un i))%C else RtoC 0) /\
    fo_setting f = setting /\ fo_transform f = Some (swt_transform t) /\
    fo_nparams f = Some (if String.eqb setting "analysis" then L * (2 * L - 1) else sw_ncoefs t)%nat /\
    exists ms, fo_measurement f = Some ms /\
      (forall X, length X = m_cols P -> exists Y, ms_forward ms X = Ok Y /\ length Y = n /\
         forall i, (i < n)%nat -> nth i Y (RtoC 0) = csum (map (fun j => m_ent P i j * nth j X (RtoC 0))%C (seq 0 (m_cols P)))) /\
      (forall X, length X <> m_cols P -> ms_forward ms X = Raise AssertionError)).
  { intros P HP. rewrite HP, L3, Nat.eqb_refl. unfold PIO_init. rewrite ET. cbn [rbind]. unfold Forward_init, build_invcov.
    cbn [d_val d_complex]. rewrite !map_length, Lsd, L3, Nat.eqb_refl. cbn [rbind]. rewrite K. eexists. split; [reflexivity|].
    cbn [fo_data fo_invcov fo_setting fo_transform fo_measurement fo_nparams d_val d_complex]. split; [reflexivity|].
    split; [rewrite map_length; auto|]. split.
    { intros i Hi. rewrite (nth_map_in _ _ _ _ 0) by congruence. f_equal. apply (HD i Hi). }
    unfold diags. cbn [m_rows m_cols m_ent]. rewrite !map_length, Lsd. split; [reflexivity|]. split; [reflexivity|]. split.
    { intros i j Hi Hj. destruct (Nat.eqb_spec i j) as [<-|_]; [|reflexivity].
      rewrite !map_map. rewrite (nth_map_in _ _ _ _ 0) by lia. unfold variance. cbn [andb]. rewrite <- RtoC_mult, Vsd by auto. reflexivity. }
    split; [reflexivity|]. split; [reflexivity|]. split; [reflexivity|].
    eexists. split; [reflexivity|]. cbn [ms_forward]. split.
    - intros X LX. exists (matvec P X). unfold Path_forward. rewrite LX, Nat.eqb_refl. rewrite np_dot_ok by auto. split; [reflexivity|].
      split; [rewrite matvec_length; auto|]. intros i Hi. unfold matvec. rewrite (nth_map_in _ _ _ _ 0%nat) by (rewrite seq_length; lia).
      rewrite seq_nth by lia. reflexivity.
    - intros X LX. unfold Path_forward. rewrite (proj2 (Nat.eqb_neq _ _) LX). reflexivity. }
  unfold phasevel_operator. rewrite ER. destruct HM as [(P & EP & HP)|(EP & HB)].
  - rewrite EP. cbn [rbind]. cbv zeta. fold sd. destruct (Core P HP) as (f & Ef & Q). exists f, P, fs. rewrite Ef.
    split; [reflexivity|]. split; [left; auto|]. split; [exact HP|]. exact Q.
  - rewrite EP.
    assert (HB' : forall i, exists r, (i < n)%nat -> bp (nth i (pd_start d) (0, 0)) (nth i (pd_stop d) (0, 0)) L = Ok r /\ length r = npix).
    { intros i. destruct (Nat.lt_ge_cases i n) as [Hi|Hi]; [|exists []; intros; lia]. destruct (HB i Hi) as (r & Er & Lr). exists r. intros _.
      destruct (HD i Hi) as (D1 & D2 & _). rewrite D1, D2. auto. }
    assert (EX : exists prow : nat -> list R, forall i, (i < n)%nat -> bp (nth i (pd_start d) (0, 0)) (nth i (pd_stop d) (0, 0)) L = Ok (prow i) /\ length (prow i) = npix).
    { exists (fun i => match bp (nth i (pd_start d) (0, 0)) (nth i (pd_stop d) (0, 0)) L with Ok r => r | Raise _ => [] end).
      intros i Hi. destruct (HB' i) as (r & Hr). destruct (Hr Hi) as (Er & Lr). rewrite Er. auto. }
    destruct EX as (prow & Hprow).
    destruct (C49_matrix bp (pd_start d) (pd_stop d) L n npix prow L1 L2 ltac:(lia) Hprow) as (P & EPm & R1 & R2 & R3).
    rewrite EPm. cbn [rbind]. cbv zeta. fold sd. destruct (Core P R1) as (f & Ef & Q). exists f, P, (save_npz fs pf P). rewrite Ef.
    split; [reflexivity|]. split; [|split; [exact R1|exact Q]]. right. split; [exact EP|]. split; [exact R1|]. split.
    + intros i Hi. exists (prow i). destruct (Hprow i Hi) as (Er & Lr). destruct (HD i Hi) as (D1 & D2 & _). rewrite D1, D2 in Er.
      split; [exact Er|]. split; [congruence|]. intros j Hj. apply R3; auto. lia.
    + destruct (npz_name_spec pf) as (S1 & S2 & S3). exists (npz_name pf). split; [exact S1|]. split; [exact S2|]. split; [exact S3|].
      unfold save_npz. rewrite String.eqb_refl. split; [reflexivity|]. intros q Hq. rewrite (proj2 (String.eqb_neq _ _) Hq). reflexivity.
Qed.
Print Assumptions C49_operator.

(** a stored matrix with another number of rows is an AssertionError; nothing is
    written *)
Theorem C49_assertion : forall sl junk inv build_path fs rows n pathsfile use_nsim setting L P,
  table rows n 8 -> (2 <= n)%nat -> fs pathsfile = Some P -> m_rows P <> n ->
  phasevel_operator sl junk inv build_path fs rows pathsfile use_nsim setting L = (fs, Raise AssertionError).
Proof.
  intros sl junk inv bp fs rows n pf un setting L P T Hn EP HP. destruct (C49_read rows n T Hn) as (d & ER & _ & _ & L3 & _).
  unfold phasevel_operator. rewrite ER, EP. cbn [rbind]. rewrite L3. rewrite (proj2 (Nat.eqb_neq _ _) HP). reflexivity.
Qed.
Print Assumptions C49_assertion.

(** a second run with the same arguments gives the same operator and leaves the
    same files, whether it reads the stored matrix or (name without .npz) builds
    it again *)
Theorem C49_rerun : forall sl junk inv build_path fs rows pathsfile use_nsim setting L fs1 r1 fs2 r2,
  phasevel_operator sl junk inv build_path fs rows pathsfile use_nsim setting L = (fs1, r1) ->
  phasevel_operator sl junk inv build_path fs1 rows pathsfile use_nsim setting L = (fs2, r2) ->
  r2 = r1 /\ forall q, fs2 q = fs1 q.
Proof.
  intros sl junk inv bp fs rows pf un setting L fs1 r1 fs2 r2 E1 E2. unfold phasevel_operator in E1, E2.
  destruct (read_datafile rows) as [d|e]; [|injection E1 as <- <-; injection E2 as <- <-; auto].
  destruct (fs pf) as [P|] eqn:EP.
  - injection E1 as <- <-. rewrite EP in E2. injection E2 as <- <-. auto.
  - destruct (get_path_matrix bp (pd_start d) (pd_stop d) L) as [P|e] eqn:EM.
    + injection E1 as <- <-. unfold save_npz in E2 at 1. destruct (String.eqb pf (npz_name pf)) eqn:EN.
      * injection E2 as <- <-. auto.
      * rewrite EP in E2. injection E2 as <- <-. split; [reflexivity|]. intros q. unfold save_npz.
        destruct (String.eqb q (npz_name pf)); reflexivity.
    + injection E1 as <- <-. rewrite EP in E2. injection E2 as <- <-. auto.
Qed.
Print Assumptions C49_rerun.

(** a matrix for another band limit is noticed only when a prediction is made *)
Theorem C49_other_bandlimit : forall sl junk inv build_path fs rows n pathsfile use_nsim setting L t P,
  table rows n 8 -> (2 <= n)%nat -> known_setting setting = true ->
  SWT_init sl junk L 2 2 1 0 false = Ok t -> (use_nsim = true -> forall i, (i < n)%nat -> 0 <= cell rows i 7) ->
  fs pathsfile = Some P -> m_rows P = n -> m_cols P <> (L * (2 * L - 1))%nat ->
  exists f np, phasevel_operator sl junk inv build_path fs rows pathsfile use_nsim setting L = (fs, Ok f) /\
    fo_nparams f = Some np /\
    forall X, length X = np -> (setting <> "analysis"%string -> exists Y, SWT_inverse t X = Ok Y /\ length Y = (L * (2 * L - 1))%nat) ->
      fo_forward f X = Raise AssertionError.
Proof.
  intros sl junk inv bp fs rows n pf un setting L t P T Hn K ET HS EP HP HC.
  destruct (C49_operator sl junk inv bp fs rows n pf un setting L t 0 T Hn K ET HS (or_introl (ex_intro _ P (conj EP HP))))
    as (f & P' & fs' & E & MU & _ & _ & _ & _ & _ & _ & _ & FS & FT & FN & ms & FM & _ & HA).
  destruct MU as [(E' & ->)|(E' & _)]; [|congruence]. assert (P' = P) by congruence. subst P'.
  eexists f, _. split; [exact E|]. split; [exact FN|]. intros X LX HY. unfold fo_forward. rewrite FS, FM, FT. cbn [attr rbind].
  destruct (String.eqb_spec setting "analysis") as [->|N].
  - apply HA. rewrite LX. auto.
  - destruct (HY N) as (Y & EY & LY). unfold swt_transform. cbn [t_inverse]. rewrite EY. cbn [rbind]. apply HA. rewrite LY. auto.
Qed.
Print Assumptions C49_other_bandlimit.

(** n similar paths with the same error and nsim = n weigh as much as one path *)
Theorem C49_similar_paths : forall rows (I : list nat) s, I <> [] ->
  (forall i, In i I -> cell rows i 5 = s /\ cell rows i 7 = INR (length I)) -> s <> 0 ->
  rsum (map (fun i => 1 / path_variance rows true i) I) = 1 / s ^ 2.
Proof.
  intros rows I s NI H Hs. assert (NL : INR (length I) <> 0) by (apply not_0_INR; destruct I; simpl; congruence).
  rewrite (map_ext_in _ (fun _ => 1 / (s ^ 2 * INR (length I)))).
  2:{ intros i Hi. destruct (H i Hi) as (E5 & E7). unfold path_variance. rewrite E5, E7. reflexivity. }
  assert (Q : forall (l : list nat) c, rsum (map (fun _ => c) l) = INR (length l) * c).
  { induction l as [|a l IH]; intros c; [simpl; ring|]. cbn [map rsum fold_right List.length]. change (fold_right Rplus 0 (map (fun _ => c) l)) with (rsum (map (fun _ => c) l)).
    rewrite IH, S_INR. ring. }
  rewrite Q. field. auto.
Qed.
Print Assumptions C49_similar_paths.

(** A stored matrix is used without looking at the paths in the data file: the
    predictions can belong to other paths. *)
Theorem C49_stored_paths_refuted : exists sl junk build_path (fs : npz_files) rows f ms,
  table rows 2 8 /\
  phasevel_operator sl junk (fun A => Ok A) build_path fs rows "p.npz" false "analysis" 1 = (fs, Ok f) /\
  fo_measurement f = Some ms /\
  ~ (forall X Y i r, length X = 1%nat -> (i < 2)%nat -> ms_forward ms X = Ok Y ->
       build_path (cell rows i 0, cell rows i 1) (cell rows i 2, cell rows i 3) 1%nat = Ok r ->
       nth i Y (RtoC 0) = csum (map (fun j => RtoC (nth j r 0) * nth j X (RtoC 0))%C (seq 0 1))).
Proof.
  set (sl := mkS2let (fun _ _ _ => 2%Z) (fun _ x => Ok (x, x)) (fun _ x _ => Ok x) (fun _ x _ => Ok x) (fun _ x => Ok (x, x))
                     (fun _ x => Ok (x, x)) (fun _ x _ => Ok x) (fun _ x _ => Ok x) (fun _ x => Ok (x, x))).
  set (rows := [[0; 0; 0; 0; 1; 1; 0; 1]; [0; 0; 0; 0; 1; 1; 0; 1]]).
  set (bp := fun (_ _ : R * R) (_ : nat) => Ok [1]).
  set (fs := fun q : string => if String.eqb q "p.npz" then Some (mkMat 2 1 (fun _ _ => RtoC 0)) else None).
  assert (T : table rows 2 8) by (split; [reflexivity|intros row [<-|[<-|[]]]; reflexivity]).
  destruct (C49_operator sl (fun _ => RtoC 0) (fun A => Ok A) bp fs rows 2 "p.npz" false "analysis" 1 _ 1 T (le_n 2) eq_refl eq_refl ltac:(discriminate)
    (or_introl (ex_intro _ _ (conj eq_refl eq_refl))))
    as (f & P & fs' & E & MU & _ & _ & _ & _ & _ & _ & _ & FS & FT & FN & ms & FM & HF & _).
  destruct MU as [(E' & ->)|(E' & _)]; [|discriminate]. injection E' as <-. exists sl, (fun _ => RtoC 0), bp, fs, rows, f, ms.
  split; [exact T|]. split; [exact E|]. split; [exact FM|]. intros H. destruct (HF [RtoC 1] eq_refl) as (Y & EY & LY & HY).
  specialize (H [RtoC 1] Y 0%nat [1] eq_refl ltac:(lia) EY eq_refl). rewrite (HY 0%nat) in H by lia.
  cbn [m_cols m_ent seq map csum fold_right nth] in H. assert (H1 := f_equal fst H). simpl in H1. lra.
Qed.
Print Assumptions C49_stored_paths_refuted.

(** two paths: a negative error is taken as positive, and nsim enters the variance *)
Example C49_case : let rows := [[10; 20; 30; 40; 5; -2; 0; 3]; [11; 21; 31; 41; 6; 4; 0; 1]] in
  exists d, read_datafile rows = Ok d /\ pd_start d = [(10, 20); (11, 21)] /\ pd_stop d = [(30, 40); (31, 41)] /\
    pd_data d = [5; 6] /\ pd_sig d = [2; 4] /\ path_variance rows true 0 = 12.
Proof.
  intros rows. assert (T : table rows 2 8) by (split; [reflexivity|intros row [<-|[<-|[]]]; reflexivity]).
  destruct (C49_read rows 2 T (le_n 2)) as (d & E & L1 & L2 & L3 & L4 & _ & H). exists d. split; [exact E|].
  destruct (H 0%nat ltac:(lia)) as (A1 & A2 & A3 & A4 & _). destruct (H 1%nat ltac:(lia)) as (B1 & B2 & B3 & B4 & _).
  unfold cell, rows in *. cbn [nth] in *. rewrite Rabs_left in A4 by lra. rewrite Rabs_right in B4 by lra.
  destruct (pd_start d) as [|? [|? [|]]]; try discriminate. destruct (pd_stop d) as [|? [|? [|]]]; try discriminate.
  destruct (pd_data d) as [|? [|? [|]]]; try discriminate. destruct (pd_sig d) as [|? [|? [|]]]; try discriminate.
  cbn [nth] in *. split; [congruence|]. split; [congruence|]. split; [congruence|]. split.
  - f_equal; [lra|]. f_equal; lra.
  - unfold path_variance, cell. cbn [nth]. ring.
Qed.
