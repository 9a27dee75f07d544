(** C48: data preparation of the Earth topography experiment
    (experiments/earthtopography/main.py). *)
From Coq Require Import List ZArith Lia Bool Reals Lra Psatz String.
From Coquelicot Require Import Coquelicot.
From Verif Require Import PyBase PyBaseFacts CVec RSort Utils UtilsSpec UtilsProof Measure MeasProof Prior Forward
  FwdProof Transforms McmcSpec ExpData ExpSpec ExpProof.
Import ListNotations.
Open Scope R_scope.
Notation length := List.length.

(** the image v read from a HEALPix file *)
Definition hpx_image (lib : topo_lib) (L : nat) (infile : string) (v : vec) : Prop :=
  contains "_hpx_" infile /\
  exists m alm lm, tl_read_map lib infile = Ok m /\ tl_map2alm lib m (Z.of_nat L - 1) = Ok alm /\
    tl_hp2lm lib alm L = Ok lm /\ tl_alm2map lib lm L 0 = Ok v.

(** the file name alone decides how the file is read; any other name is a
    ValueError *)
Theorem C48_input : forall lib L infile,
  (forall v, hpx_image lib L infile v -> read_topo lib L infile = Ok (Arr1 v, true)) /\
  (~ contains "_hpx_" infile -> contains "_mw_" infile -> forall x c, tl_load lib infile = Ok (x, c) ->
     read_topo lib L infile = if Nat.eqb (length x) (L * (2 * L - 1)) then Ok (Arr2 L (2 * L - 1) x, c) else Raise ValueError) /\
  (~ contains "_hpx_" infile -> ~ contains "_mw_" infile ->
     forall G (rnd : npr G) thetas phis makenoise sigma scale g,
     prepare_topo lib rnd L thetas phis infile makenoise sigma scale g = Raise ValueError).
Proof.
  intros lib L infile. split; [|split].
  - intros v (H & m & alm & lm & E1 & E2 & E3 & E4). unfold read_topo. rewrite (proj2 (str_contains_iff _ _) H).
    rewrite E1. cbn [rbind]. rewrite E2. cbn [rbind]. rewrite E3. cbn [rbind]. rewrite E4. reflexivity.
  - intros N H x c E. unfold read_topo. rewrite (proj2 (str_contains_false _ _) N), (proj2 (str_contains_iff _ _) H), E. reflexivity.
  - intros N N' G rnd thetas phis mk sigma scale g. unfold prepare_topo, read_topo.
    rewrite (proj2 (str_contains_false _ _) N), (proj2 (str_contains_false _ _) N'). reflexivity.
Qed.
Print Assumptions C48_input.

(** the block over Africa holds 1 exactly at the pixels hit by the grid; negative
    longitudes index from the end *)
Theorem C48_block : forall lib L,
  let theta_index x := tl_theta_index lib x L in let phi_index x := tl_phi_index lib x L in
  (forall block i j, africa_block lib L = Ok block -> (i < L)%nat -> (j < 2 * L - 1)%nat ->
     (cell block i j = 1 <-> in_africa theta_index phi_index L i j) /\
     (cell block i j = 0 <-> ~ in_africa theta_index phi_index L i j)) /\
  ((forall a, (a < 100)%nat -> exists k i, theta_index (africa_colatitude a * PI / 180) = Ok k /\ at_index L k i) ->
   (forall b, (b < 100)%nat -> exists l j, phi_index (africa_longitude b * PI / 180) = Ok l /\ at_index (2 * L - 1) l j) ->
   exists block, africa_block lib L = Ok block).
Proof.
  intros lib L theta_index phi_index. split.
  - intros block i j E Hi Hj. destruct (africa_block_spec lib L block E) as (_ & H). specialize (H i j Hi). cbv zeta in H.
    fold theta_index in H. fold phi_index in H.
    destruct H as [(V & A)|(V & A)]; rewrite V; split; split; intros Q; try tauto; lra.
  - intros HT HP. unfold africa_block. cbv zeta.
    apply (outer_block_ok (fun x => tl_theta_index lib x L) (fun x => tl_phi_index lib x L) L (2 * L - 1)).
    + apply table_zeros.
    + intros theta I. apply africa_thetas in I. destruct I as (a & Ha & ->). apply HT; auto.
    + intros phi I. apply africa_phis in I. destruct I as (a & Ha & ->). apply HP; auto.
Qed.
Print Assumptions C48_block.

(** the noise level of pixel (i, j): sigma over the square root of its area,
    times scaleafrica (once) in the block; C order *)
Theorem C48_noise_level : forall lib L sigma scale, (1 <= L)%nat ->
  let theta_index x := tl_theta_index lib x L in let phi_index x := tl_phi_index lib x L in
  (forall sl, noise_level lib L (mw_thetas L) (mw_phis L) sigma scale = Ok sl ->
     length sl = (L * (2 * L - 1))%nat /\
     forall i j, (i < L)%nat -> (j < 2 * L - 1)%nat ->
       let base := Rabs sigma / sqrt (patch_area L i) in
       let s := nth (i * (2 * L - 1) + j) sl 0 in
       (scale <> 0%Z /\ in_africa theta_index phi_index L i j -> s = base * IZR scale) /\
       (~ (scale <> 0%Z /\ in_africa theta_index phi_index L i j) -> s = base)) /\
  (scale = 0%Z \/ (exists block, africa_block lib L = Ok block) ->
     exists sl, noise_level lib L (mw_thetas L) (mw_phis L) sigma scale = Ok sl) /\
  (forall e, scale <> 0%Z -> africa_block lib L = Raise e -> noise_level lib L (mw_thetas L) (mw_phis L) sigma scale = Raise e).
Proof.
  intros lib L sigma scale HL theta_index phi_index. destruct (areas_table L HL) as (areas & EA & TA & CA).
  assert (B : forall i, (i < L)%nat -> sqrt (sigma ^ 2 / patch_area L i) = Rabs sigma / sqrt (patch_area L i)).
  { intros i Hi. assert (P := patch_area_pos L i Hi). rewrite sqrt_div_alt by auto. f_equal. rewrite <- Rsqr_pow2. apply sqrt_Rsqr_abs. }
  assert (TS := table_map _ _ _ (fun a => sqrt (sigma ^ 2 / a)) TA).
  split; [|split].
  - intros sl E. unfold noise_level in E. rewrite EA in E. cbn [rbind] in E. cbv zeta in E.
    destruct (Z.eqb_spec scale 0) as [->|N]; cbn [rbind] in E.
    + apply Ok_inj in E. subst sl. split; [apply length_concat_table; auto|]. intros i j Hi Hj base s.
      assert (s = base).
      { unfold s. rewrite (nth_concat_table _ L) by auto. rewrite (cell_map _ L (2 * L - 1)) by auto.
        rewrite CA by auto. apply B; auto. }
      split; [intros (Q & _); congruence|auto].
    + destruct (africa_block lib L) as [block|] eqn:EB; cbn [rbind] in E; [|discriminate].
      destruct (africa_block_spec lib L block EB) as (TB & HB).
      destruct (scale_block_table _ _ _ _ (IZR scale) TS TB) as (m & Em & Tm & Cm). rewrite Em in E. cbn [rbind] in E.
      apply Ok_inj in E. subst sl. split; [apply length_concat_table; auto|]. intros i j Hi Hj base s.
      assert (Q : s = if Req_EM_T (cell block i j) 1 then base * IZR scale else base).
      { unfold s. rewrite (nth_concat_table _ L) by auto. rewrite Cm by auto. rewrite (cell_map _ L (2 * L - 1)) by auto.
        rewrite CA by auto. rewrite B by auto. reflexivity. }
      specialize (HB i j Hi). cbv zeta in HB. fold theta_index phi_index in HB.
      destruct HB as [(V & A)|(V & A)]; destruct (Req_EM_T (cell block i j) 1) as [Q1|Q1]; try (exfalso; lra); rewrite Q.
      * split; [intros _; reflexivity|]. intros X. exfalso. apply X. auto.
      * split; [|intros _; reflexivity]. intros (_ & X). contradiction.
  - intros H. unfold noise_level. rewrite EA. cbn [rbind]. cbv zeta. destruct (Z.eqb_spec scale 0) as [->|N]; cbn [rbind]; [eauto|].
    destruct H as [H|(block & EB)]; [contradiction|]. rewrite EB. cbn [rbind]. destruct (africa_block_spec lib L block EB) as (TB & _).
    destruct (scale_block_table _ _ _ _ (IZR scale) TS TB) as (m & Em & _). rewrite Em. cbn [rbind]. eauto.
  - intros e N EB. unfold noise_level. rewrite EA. cbn [rbind]. cbv zeta. destruct (Z.eqb_spec scale 0) as [->|_]; [congruence|].
    rewrite EB. reflexivity.
Qed.
Print Assumptions C48_noise_level.

Lemma np_normal_ok : forall G (rnd : npr G) s g, (forall x, In x s -> 0 <= x) -> np_normal rnd s g = Ok (r_normal rnd s g).
Proof.
  intros G rnd s g H. unfold np_normal. destruct (existsb _ s) eqn:E; [|reflexivity]. apply existsb_exists in E.
  destruct E as (x & I & E). destruct (Rltb_spec x 0); [|discriminate]. assert (Q := H x I). lra.
Qed.
Lemma np_normal_neg : forall G (rnd : npr G) s g x, In x s -> x < 0 -> np_normal rnd s g = Raise ValueError.
Proof.
  intros G rnd s g x I H. unfold np_normal. replace (existsb _ s) with true; [reflexivity|]. symmetry. apply existsb_exists.
  exists x. split; auto. destruct (Rltb_spec x 0); [reflexivity|lra].
Qed.

(** with noise: the data are (image + noise) / 1000, the noise drawn with the
    levels [sl] after seeding with 2; sig_d is [sl]; the generator is reseeded
    from the operating system afterwards *)
Theorem C48_noisy_data : forall G (rnd : npr G) lib L thetas phis infile sigma scale g v sl,
  hpx_image lib L infile v -> noise_level lib L thetas phis sigma scale = Ok sl -> (forall s, In s sl -> 0 <= s) ->
  (forall g, length (fst (r_normal rnd sl g)) = length sl) -> length v = length sl ->
  let (noise, g1) := r_normal rnd sl (r_seed rnd (Some 2%Z) g) in
  exists d, prepare_topo lib rnd L thetas phis infile true sigma scale g =
      Ok (mkTopo (Arr1 d) true (SVec (map RtoC sl) false) (Some noise), r_seed rnd None g1) /\
    length d = length v /\
    forall k, (k < length v)%nat -> nth k d (RtoC 0) = ((nth k v (RtoC 0) + RtoC (nth k noise 0)) / RtoC 1000)%C.
Proof.
  intros G rnd lib L thetas phis infile sigma scale g v sl HI HN HP HL LV. assert (Q := HL (r_seed rnd (Some 2%Z) g)).
  destruct (r_normal rnd sl (r_seed rnd (Some 2%Z) g)) as [noise g1] eqn:EN. cbn [fst] in Q.
  exists (map (fun z : C => z / RtoC 1000)%C (map2 Cplus v (map RtoC noise))). split; [|split].
  - unfold prepare_topo. destruct (C48_input lib L infile) as (HR & _). rewrite (HR v HI). cbn [rbind]. rewrite HN. cbn [rbind].
    rewrite (np_normal_ok _ rnd sl _ HP), EN. cbn [rbind]. unfold np_iadd, np_add.
    rewrite np_bin_same by (rewrite map_length; congruence). cbn [rbind]. rewrite map2_length by (rewrite map_length; congruence).
    rewrite Nat.eqb_refl. reflexivity.
  - rewrite map_length, map2_length; [reflexivity|rewrite map_length; congruence].
  - intros k Hk. rewrite (nth_map_in _ _ _ _ (RtoC 0)) by (rewrite map2_length; [auto|rewrite map_length; congruence]).
    rewrite (nth_map2 _ _ _ _ (RtoC 0) (RtoC 0)) by (auto; rewrite map_length; congruence).
    rewrite (nth_map_in _ _ _ _ 0) by congruence. reflexivity.
Qed.
Print Assumptions C48_noisy_data.

(** without noise: image / 1000, sig_d the number sigma, generator untouched *)
Theorem C48_noiseless_data : forall G (rnd : npr G) lib L thetas phis infile sigma scale g v,
  hpx_image lib L infile v ->
  exists d, prepare_topo lib rnd L thetas phis infile false sigma scale g = Ok (mkTopo (Arr1 d) true (SPy (RtoC sigma) false) None, g) /\
    length d = length v /\ forall k, (k < length v)%nat -> nth k d (RtoC 0) = (nth k v (RtoC 0) / RtoC 1000)%C.
Proof.
  intros G rnd lib L thetas phis infile sigma scale g v HI. exists (map (fun z : C => z / RtoC 1000)%C v). split; [|split].
  - unfold prepare_topo. destruct (C48_input lib L infile) as (HR & _). rewrite (HR v HI). reflexivity.
  - apply map_length.
  - intros k Hk. apply (nth_map_in (fun z : C => z / RtoC 1000)%C v k (RtoC 0) (RtoC 0) Hk).
Qed.
Print Assumptions C48_noiseless_data.

(** seeding makes the prepared data independent of the generator's state *)
Theorem C48_reproducible : forall G (rnd : npr G) lib L thetas phis infile makenoise sigma scale g g',
  (forall k h h', r_seed rnd (Some k) h = r_seed rnd (Some k) h') ->
  rmap fst (prepare_topo lib rnd L thetas phis infile makenoise sigma scale g) =
  rmap fst (prepare_topo lib rnd L thetas phis infile makenoise sigma scale g').
Proof.
  intros G rnd lib L thetas phis infile mk sigma scale g g' HS. unfold prepare_topo.
  destruct (read_topo lib L infile) as [[td c]|]; cbn [rbind]; [|reflexivity]. destruct mk; [|reflexivity].
  rewrite (HS 2%Z g g'). destruct (noise_level lib L thetas phis sigma scale); cbn [rbind]; [|reflexivity].
  destruct (np_normal rnd a (r_seed rnd (Some 2%Z) g')) as [[noise g1]|]; cbn [rbind]; [|reflexivity].
  destruct (np_iadd td (map RtoC noise)); reflexivity.
Qed.
Print Assumptions C48_reproducible.

(** a negative factor for Africa is a ValueError from the generator *)
Theorem C48_negative_factor : forall G (rnd : npr G) lib L infile sigma scale g v i j sl, (1 <= L)%nat ->
  hpx_image lib L infile v -> (scale < 0)%Z -> sigma <> 0 -> (i < L)%nat -> (j < 2 * L - 1)%nat ->
  in_africa (fun x => tl_theta_index lib x L) (fun x => tl_phi_index lib x L) L i j ->
  noise_level lib L (mw_thetas L) (mw_phis L) sigma scale = Ok sl ->
  prepare_topo lib rnd L (mw_thetas L) (mw_phis L) infile true sigma scale g = Raise ValueError.
Proof.
  intros G rnd lib L infile sigma scale g v i j sl HL HI HS Sn Hi Hj A E. unfold prepare_topo.
  destruct (C48_input lib L infile) as (HR & _). rewrite (HR v HI). cbn [rbind]. rewrite E. cbn [rbind].
  destruct (C48_noise_level lib L sigma scale HL) as (H & _). destruct (H sl E) as (LS & H'). destruct (H' i j Hi Hj) as (H1 & _).
  assert (Sc : scale <> 0%Z) by (clear - HS; lia). specialize (H1 (conj Sc A)). assert (P := patch_area_pos L i Hi). assert (SP := sqrt_lt_R0 _ P).
  assert (AS := Rabs_pos_lt sigma Sn). assert (Z0 : IZR scale < 0) by (apply IZR_lt; auto).
  rewrite (np_normal_neg _ rnd sl _ (nth (i * (2 * L - 1) + j) sl 0)); [reflexivity| |].
  - apply nth_In. rewrite LS. clear - Hi Hj. remember (2 * L - 1)%nat as c. nia.
  - rewrite H1. assert (0 < Rabs sigma / sqrt (patch_area L i)) by (apply Rdiv_lt_0_compat; auto). nra.
Qed.
Print Assumptions C48_negative_factor.

(** ** The error bars

    np.random.normal(0, s) is s times standard normal numbers z.  The operator
    is given the noise level s in metres together with data in kilometres: the
    noise in the data is (s/1000) z, so every normalised residual of the true
    image is z/1000 instead of z. *)
Theorem C48_error_bars : forall G (rnd : npr G) (z : G -> list R) lib L thetas phis infile sigma scale g v sl,
  (forall s g, fst (r_normal rnd s g) = map2 Rmult s (z g)) ->
  hpx_image lib L infile v -> noise_level lib L thetas phis sigma scale = Ok sl -> (forall s, In s sl -> 0 <= s) ->
  (forall g, length (z g) = length sl) -> length v = length sl ->
  exists d sd noise g', prepare_topo lib rnd L thetas phis infile true sigma scale g = Ok (mkTopo (Arr1 d) true sd (Some noise), g') /\
    sd = SVec (map RtoC sl) false /\ length d = length v /\
    forall k, (k < length v)%nat ->
      (nth k d (RtoC 0) - nth k v (RtoC 0) / RtoC 1000)%C =
      (RtoC (nth k sl 0) * RtoC (nth k (z (r_seed rnd (Some 2%Z) g)) 0 / 1000))%C.
Proof.
  intros G rnd z lib L thetas phis infile sigma scale g v sl HZ HI HN HP LZ LV.
  assert (LN : forall g, length (fst (r_normal rnd sl g)) = length sl) by (intros; rewrite HZ, map2_length; auto).
  assert (Q := C48_noisy_data G rnd lib L thetas phis infile sigma scale g v sl HI HN HP LN LV).
  assert (EZ := HZ sl (r_seed rnd (Some 2%Z) g)).
  destruct (r_normal rnd sl (r_seed rnd (Some 2%Z) g)) as [noise g1]. cbn [fst] in EZ. subst noise. destruct Q as (d & E & Ld & H).
  eexists d, _, _, _. split; [exact E|]. split; [reflexivity|]. split; [exact Ld|]. intros k Hk. rewrite H by auto.
  rewrite (nth_map2 _ _ _ _ 0 0) by (rewrite ?LZ; congruence).
  unfold Rdiv at 1. rewrite !RtoC_mult, RtoC_inv by lra. field. intros X0; apply RtoC_inj in X0; lra.
Qed.
Print Assumptions C48_error_bars.

Lemma in_L1 : forall sigma sl lib, noise_level lib 1 (mw_thetas 1) (mw_phis 1) sigma 0 = Ok sl -> sl = [Rabs sigma / sqrt (patch_area 1 0)].
Proof.
  intros sigma sl lib E. destruct (C48_noise_level lib 1 sigma 0 ltac:(lia)) as (H & _). destruct (H sl E) as (LS & Q).
  destruct (Q 0%nat 0%nat ltac:(lia) ltac:(lia)) as (_ & Q'). simpl in LS. destruct sl as [|a [|]]; simpl in LS; try lia.
  simpl in Q'. f_equal. apply Q'. intros (X & _). lia.
Qed.

(** so the data and sig_d do not belong together: the residual of the true image
    is not sig_d times the standard normal number drawn *)
Theorem C48_units_refuted : exists (lib : topo_lib) (rnd : npr unit) (z : unit -> list R) L infile sigma v d sl noise g',
  (forall s g, length s = 1%nat -> fst (r_normal rnd s g) = map2 Rmult s (z g)) /\
  hpx_image lib L infile v /\
  prepare_topo lib rnd L (mw_thetas L) (mw_phis L) infile true sigma 0 tt =
    Ok (mkTopo (Arr1 d) true (SVec (map RtoC sl) false) (Some noise), g') /\
  length d = length v /\ length sl = length v /\
  ~ (forall k, (k < length v)%nat ->
       (nth k d (RtoC 0) - nth k v (RtoC 0) / RtoC 1000)%C = (RtoC (nth k sl 0) * RtoC (nth k (z tt) 0))%C).
Proof.
  set (lib := mkTopoLib (fun _ => Ok [RtoC 1000]) (fun m _ => Ok m) (fun m _ => Ok m) (fun m _ _ => Ok m)
                        (fun _ => Raise ValueError) (fun _ _ => Ok 0%Z) (fun _ _ => Ok 0%Z)).
  set (rnd := mkNpr unit (fun _ g => g) (fun s g => (map2 Rmult s [1], g))).
  assert (HI : hpx_image lib 1 "a_hpx_b" [RtoC 1000]).
  { split; [exists "a"%string, "b"%string; reflexivity|]. exists [RtoC 1000], [RtoC 1000], [RtoC 1000]. auto. }
  destruct (C48_noise_level lib 1 1 0 ltac:(lia)) as (_ & H2 & _). destruct (H2 (or_introl eq_refl)) as (sl & Esl).
  assert (Sl := in_L1 _ _ _ Esl). assert (P := patch_area_pos 1 0 ltac:(lia)). assert (SP := sqrt_lt_R0 _ P).
  assert (Q : 0 < Rabs 1 / sqrt (patch_area 1 0)) by (apply Rdiv_lt_0_compat; auto; rewrite Rabs_R1; lra).
  assert (HQ := C48_noisy_data unit rnd lib 1 (mw_thetas 1) (mw_phis 1) "a_hpx_b" 1 0 tt [RtoC 1000] sl HI Esl).
  rewrite Sl in HQ. specialize (HQ ltac:(intros s [<-|[]]; lra) ltac:(intros; reflexivity) ltac:(reflexivity)).
  set (s := Rabs 1 / sqrt (patch_area 1 0)) in *. cbn [rnd r_normal r_seed map2] in HQ. destruct HQ as (d & E & Ld & H).
  exists lib, rnd, (fun _ => [1]), 1%nat, "a_hpx_b"%string, 1, [RtoC 1000], d, [s], [s * 1], tt.
  split; [reflexivity|]. split; [exact HI|]. split; [exact E|]. split; [exact Ld|]. split; [reflexivity|].
  intros X. specialize (X 0%nat ltac:(simpl; lia)). rewrite (H 0%nat) in X by (simpl; lia). cbn [nth] in X.
  assert (Y : ((RtoC 1000 + RtoC (s * 1)) / RtoC 1000 - RtoC 1000 / RtoC 1000)%C = RtoC (s / 1000)).
  { rewrite RtoC_mult. unfold Rdiv. rewrite RtoC_mult, RtoC_inv by lra. field. intros X0; apply RtoC_inj in X0; lra. }
  rewrite Y, <- RtoC_mult in X. apply RtoC_inj in X. lra.
Qed.
Print Assumptions C48_units_refuted.

(** ** MW input never works: adding noise to the 2-D image is an error, and
    without noise every residual is *)
Theorem C48_mw_unusable : forall G (rnd : npr G) lib L thetas phis infile sigma scale g, (2 <= L)%nat ->
  ~ contains "_hpx_" infile ->
  (forall sl, noise_level lib L thetas phis sigma scale = Ok sl -> length sl = (L * (2 * L - 1))%nat) ->
  (forall s g, length (fst (r_normal rnd s g)) = length s) ->
  (forall ts g', prepare_topo lib rnd L thetas phis infile true sigma scale g <> Ok (ts, g')) /\
  (forall ts g', prepare_topo lib rnd L thetas phis infile false sigma scale g = Ok (ts, g') ->
     exists buf, ts_data ts = Arr2 L (2 * L - 1) buf /\
       forall X, length X = mw_size L -> residual_2d L L (2 * L - 1) buf X = Raise ValueError).
Proof.
  intros G rnd lib L thetas phis infile sigma scale g HL N HN HR.
  assert (R : forall td, read_topo lib L infile = Ok td -> exists x c, td = (Arr2 L (2 * L - 1) x, c)).
  { intros td E. unfold read_topo in E. rewrite (proj2 (str_contains_false _ _) N) in E.
    destruct (str_contains "_mw_" infile); [|discriminate]. destruct (tl_load lib infile) as [x|]; cbn [rbind] in E; [|discriminate].
    destruct (Nat.eqb _ _); [|discriminate]. apply Ok_inj in E. subst td. eauto. }
  assert (Z : forall r c buf (x : vec), (2 <= c)%nat -> length x = (L * c)%nat -> c = (2 * L - 1)%nat -> np_iadd (Arr2 r c buf) x = Raise ValueError).
  { intros r c buf x Hc Lx _. unfold np_iadd. destruct (Nat.eqb_spec (length x) c) as [Q|_]; [clear - Q Lx HL Hc; nia|].
    destruct x as [|a [|b x]]; try reflexivity. cbn [List.length] in Lx. clear - Lx HL Hc. nia. }
  split.
  - intros ts g' E. unfold prepare_topo in E. destruct (read_topo lib L infile) as [td|] eqn:ER; cbn [rbind] in E; [|discriminate].
    destruct (R td eq_refl) as (x & c & ->). destruct (noise_level lib L thetas phis sigma scale) as [sl|] eqn:EN; cbn [rbind] in E; [|discriminate].
    unfold np_normal in E. destruct (existsb _ sl); cbn [rbind] in E; [discriminate|].
    assert (Q := HR sl (r_seed rnd (Some 2%Z) g)). destruct (r_normal rnd sl (r_seed rnd (Some 2%Z) g)) as [noise g1]. cbn [fst] in Q.
    rewrite (Z L (2 * L - 1)%nat x (map RtoC noise)) in E; [discriminate|lia| |reflexivity].
    rewrite map_length, Q. apply HN; reflexivity.
  - intros ts g' E. unfold prepare_topo in E. destruct (read_topo lib L infile) as [td|] eqn:ER; cbn [rbind] in E; [|discriminate].
    destruct (R td eq_refl) as (x & c & ->). apply Ok_inj in E. injection E as <- _. cbn [ts_data per_thousand].
    eexists. split; [reflexivity|]. intros X LX. unfold residual_2d, Identity_forward. rewrite LX, Nat.eqb_refl.
    rewrite np_dot_ok by exact LX. cbn [rbind]. unfold np_sub_2d.
    assert (LM : length (matvec (eye L (mw_size L)) X) = L) by apply matvec_length.
    rewrite LM. destruct (Nat.eqb_spec L (2 * L - 1)); [lia|].
    destruct (matvec (eye L (mw_size L)) X) as [|a [|b y]]; cbn [List.length] in LM; try lia.
    destruct (Nat.eqb_spec (2 * L - 1) 1); [lia|reflexivity].
Qed.
Print Assumptions C48_mw_unusable.
(** as a refutation: a file in MW sampling with the right number of pixels that
    is accepted by the script, and no image can be compared with it *)
Theorem C48_mw_refuted : exists (lib : topo_lib) (rnd : npr unit) infile ts,
  contains "_mw_" infile /\ (exists x, tl_load lib infile = Ok (x, false) /\ length x = mw_size 2) /\
  prepare_topo lib rnd 2 (mw_thetas 2) (mw_phis 2) infile false 1 0 tt = Ok (ts, tt) /\
  exists buf, ts_data ts = Arr2 2 3 buf /\ forall X, length X = mw_size 2 -> residual_2d 2 2 3 buf X = Raise ValueError.
Proof.
  set (lib := mkTopoLib (fun _ => Raise ValueError) (fun m _ => Ok m) (fun m _ => Ok m) (fun m _ _ => Ok m)
                        (fun _ => Ok (repeat (RtoC 5) 6, false)) (fun _ _ => Ok 0%Z) (fun _ _ => Ok 0%Z)).
  set (rnd := mkNpr unit (fun _ g => g) (fun s g => (map (fun _ => 0) s, g))).
  exists lib, rnd, "x_mw_y"%string. eexists. split; [exists "x"%string, "y"%string; reflexivity|].
  split; [exists (repeat (RtoC 5) 6); split; reflexivity|]. split; [reflexivity|].
  apply (proj2 (C48_mw_unusable unit rnd lib 2 (mw_thetas 2) (mw_phis 2) "x_mw_y" 1 0 tt ltac:(lia)
    ltac:(apply str_contains_false; reflexivity)
    (fun sl E => proj1 (proj1 (C48_noise_level lib 2 1 0 ltac:(lia)) sl E)) ltac:(intros; apply map_length)) _ tt).
  reflexivity.
Qed.
Print Assumptions C48_mw_refuted.

(** one pixel: 4 pi of area, sigma = 2, noise level 1/sqrt pi *)
Example C48_case : forall lib, noise_level lib 1 (mw_thetas 1) (mw_phis 1) 2 0 = Ok [2 / sqrt (4 * PI)].
Proof.
  intros lib. destruct (C48_noise_level lib 1 2 0 ltac:(lia)) as (_ & H & _). destruct (H (or_introl eq_refl)) as (sl & E).
  rewrite E. f_equal. rewrite (in_L1 _ _ _ E). rewrite Rabs_right by lra. do 3 f_equal.
  unfold patch_area, strip_top, strip_bottom. simpl. replace (1 * PI / 1) with PI by field. rewrite cos_0, cos_PI. field.
Qed.
(** indices that wrap: with L = 2 the longitude index -1 is column 2 *)
Example C48_case_wrap :
  let lib := mkTopoLib (fun _ => Raise ValueError) (fun m _ => Ok m) (fun m _ => Ok m) (fun m _ _ => Ok m)
                       (fun _ => Raise ValueError) (fun _ _ => Ok 1%Z) (fun x _ => Ok (if Rltb x 0 then (-1)%Z else 0%Z)) in
  exists block, africa_block lib 2 = Ok block /\ cell block 1 2 = 1 /\ cell block 1 0 = 1 /\ cell block 1 1 = 0 /\ cell block 0 2 = 0.
Proof.
  intros lib. destruct (C48_block lib 2) as (H & HE). cbv zeta in *.
  destruct HE as (block & E).
  - intros a Ha. exists 1%Z, 1%nat. split; [reflexivity|]. split; lia.
  - intros b Hb. cbn [tl_phi_index lib]. destruct (Rltb _ 0); [exists (-1)%Z, 2%nat|exists 0%Z, 0%nat]; (split; [reflexivity|]; split; lia).
  - exists block. split; [exact E|]. assert (P := PI_RGT_0).
    assert (N0 : africa_longitude 0 * PI / 180 < 0) by (unfold africa_longitude; simpl; lra).
    assert (N1 : 0 <= africa_longitude 99 * PI / 180) by (unfold africa_longitude; rewrite INR_99; lra).
    split; [|split; [|split]].
    + apply (H block 1%nat 2%nat E); try lia. exists 0%nat, 0%nat, 1%Z, (-1)%Z. split; [lia|]. split; [lia|]. split; [reflexivity|].
      split; [cbn [tl_phi_index lib]; destruct (Rltb_spec (africa_longitude 0 * PI / 180) 0); [reflexivity|lra]|]. split; split; lia.
    + apply (H block 1%nat 0%nat E); try lia. exists 0%nat, 99%nat, 1%Z, 0%Z. split; [lia|]. split; [lia|]. split; [reflexivity|].
      split; [cbn [tl_phi_index lib]; destruct (Rltb_spec (africa_longitude 99 * PI / 180) 0); [lra|reflexivity]|]. split; split; lia.
    + apply (H block 1%nat 1%nat E); try lia. intros (a & b & k & l & _ & _ & _ & El & _ & (_ & Al)).
      cbn [tl_phi_index lib] in El. destruct (Rltb _ 0); apply Ok_inj in El; subst l; lia.
    + apply (H block 0%nat 2%nat E); try lia. intros (a & b & k & l & _ & _ & Ek & _ & (_ & Ak) & _).
      cbn [tl_theta_index lib] in Ek. apply Ok_inj in Ek; subst k; lia.
Qed.
