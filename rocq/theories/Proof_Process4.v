(* Too few incidence directions leave columns of a ray-traced matrix unset; the default options. *)
From Coq Require Import Reals List ZArith Bool Lia Lra.
From Verif Require Import Base Lib Model_Angles Model_Ideal Model_MatMul Model_Optics Model_RayIface
  Model_RT Spec_Angles Spec_Matrix Spec_RT Proof_Angles Proof_AnglesProps Proof_RT Proof_RT2 Model_Process.
Import ListNotations.
Local Notation length := List.length.
Open Scope list_scope.
Open Scope R_scope.

(* a number below h that is not in a list of fewer than h numbers *)
Lemma pigeon (l : list nat) h : (length l < h)%nat -> exists k, (k < h)%nat /\ ~ In k l.
Proof.
  intros H. destruct (existsb (fun k => negb (existsb (Nat.eqb k) l)) (seq 0 h)) eqn:E.
  - apply existsb_exists in E. destruct E as [k [Hk E]]. exists k. apply in_seq in Hk. split; [lia|].
    intros Hin. apply negb_true_iff in E. assert (existsb (Nat.eqb k) l = true); [|congruence].
    apply existsb_exists. exists k. split; auto. apply Nat.eqb_refl.
  - exfalso. assert (I : incl (seq 0 h) l).
    { intros k Hk. destruct (existsb (Nat.eqb k) l) eqn:F.
      - apply existsb_exists in F. destruct F as [k' [Hk' F]]. apply Nat.eqb_eq in F. subst. auto.
      - exfalso. assert (existsb (fun k => negb (existsb (Nat.eqb k) l)) (seq 0 h) = true); [|congruence].
        apply existsb_exists. exists k. rewrite F. auto. }
    apply NoDup_incl_length in I; [|apply seq_NoDup]. rewrite seq_length in I. lia.
Qed.

Lemma rt_underpopulated n phi_sym c sp g h s tmm n_abs beams x :
  valid_request n phi_sym c -> make_angle_vector n phi_sym c sp = Ok g -> length (g_av g) = (2 * h)%nat -> (length beams < h)%nat ->
  (forall b, In b beams -> good_beam phi_sym b /\ forall y, In y (b_rays b) -> good_ray tmm phi_sym n_abs y) ->
  exists G res k, RT_wl s tmm phi_sym g n_abs beams G = Ok res /\ (k < h)%nat /\
    (forall col row, bins_of_rays s phi_sym g h beams col row -> n_rays_in col k beams = 0) /\
    forall r, (r < 2 * h)%nat -> entry (o_mat res) r k = x.
Proof.
  intros Hv Hg Hh Hl Hb.
  destruct (bins_exist n _ c sp _ h s tmm n_abs _ Hv Hg Hh Hb) as [col [row Hbins]].
  pose (G := {| gb_out := fun _ _ => Some x; gb_frac := fun _ => Some 0; gb_scale := fun _ => Some 0 |}).
  destruct (rt_empty n phi_sym c sp g h s tmm n_abs beams G Hv Hg Hh Hb) as [res [E H]].
  destruct (pigeon (map col beams) h) as [k [Hk Hn]]; [rewrite map_length; auto|].
  assert (Hne : forall col row, bins_of_rays s phi_sym g h beams col row -> n_rays_in col k beams = 0).
  { intros col' row' Hb'. unfold n_rays_in. apply in_column_none. intros b y Hp.
    apply in_pairs in Hp. destruct Hp as [Hin _].
    assert (col' b = col b).
    { pose proof (beam_bin n phi_sym c sp g h s tmm n_abs beams Hv Hg Hh Hb col row Hbins b Hin) as H0.
      pose proof (beam_bin n phi_sym c sp g h s tmm n_abs beams Hv Hg Hh Hb col' row' Hb' b Hin) as H1.
      rewrite H0 in H1. injection H1 as H1. lia. }
    intros Ek. apply Hn. rewrite <- Ek, H0. apply in_map. auto. }
  exists G, res, k. split; auto. split; auto. split; auto.
  intros r Hr. destruct (H col row Hbins k Hk (Hne _ _ Hbins)) as [_ ->]; auto.
Qed.

(* number of default incidence directions *)
Lemma regular_length g n : (length (regular_directions g n) <= n)%nat.
Proof. unfold regular_directions, tile. rewrite firstn_length. lia. Qed.

Lemma quarter k : Zceil (1 / 4 * INR k) = Z.of_nat ((k + 3) / 4).
Proof.
  apply Zceil_unique. set (q := ((k + 3) / 4)%nat).
  assert (H : (4 * q <= k + 3 /\ k <= 4 * q)%nat).
  { unfold q. pose proof (Nat.div_mod (k + 3) 4 ltac:(lia)). pose proof (Nat.mod_upper_bound (k + 3) 4 ltac:(lia)). lia. }
  clearbody q. rewrite <- INR_IZR_INZ. destruct H as [H1 H2]. apply le_INR in H1. apply le_INR in H2.
  rewrite plus_INR, mult_INR in H1. rewrite mult_INR in H2.
  assert (I4 : INR 4 = 4) by (simpl; lra). assert (I3 : INR 3 = 3) by (simpl; lra). rewrite I3, I4 in H1. rewrite I4 in H2. lra.
Qed.

Lemma default_channels g : make_angle_vector (opt_n_theta default_options) (opt_phi_sym default_options)
    (opt_c_azimuth default_options) (opt_spacing default_options) = Ok g -> length (g_av g) = (2 * 338)%nat.
Proof.
  intros H. change (Ok (grid_of_edges (theta_edges SpSin 50) (PI / 2) (1 / 4)) = Ok g) in H. injection H as <-. pose proof PI_RGT_0.
  rewrite (av_half SpSin 50 (PI / 2) (1 / 4)) by (try lia; try lra). f_equal. unfold off, ring_count.
  erewrite map_ext_in; [|intros i Hi; rewrite quarter, Nat2Z.id; reflexivity]. reflexivity.
Qed.

Lemma default_directions : n_angles_of (opt_n_rays default_options) (opt_nx default_options) (opt_ny default_options) = 100%nat.
Proof.
  unfold n_angles_of. replace 100%nat with (Z.to_nat 100) by reflexivity. f_equal. apply Zceil_unique.
  cbn [opt_n_rays opt_nx opt_ny default_options]. rewrite !mult_INR. rewrite (INR_IZR_INZ 100), (INR_IZR_INZ 10).
  change (Z.of_nat 100) with 100%Z. change (Z.of_nat 10) with 10%Z. lra.
Qed.

Definition default_request g : Prop := make_angle_vector (opt_n_theta default_options) (opt_phi_sym default_options)
    (opt_c_azimuth default_options) (opt_spacing default_options) = Ok g.

Lemma default_valid : valid_request (opt_n_theta default_options) (opt_phi_sym default_options) (opt_c_azimuth default_options).
Proof. cbn. pose proof PI_RGT_0. split; [lia|]. lra. Qed.

Lemma default_fold : m_fold 4 (opt_phi_sym default_options).
Proof. split; [lia|]. cbn. field. Qed.

Lemma defaults_leave_gaps g s tmm n_abs beams x :
  make_angle_vector (opt_n_theta default_options) (opt_phi_sym default_options)
    (opt_c_azimuth default_options) (opt_spacing default_options) = Ok g ->
  map (fun b => (b_theta b, b_phi b)) beams =
    regular_directions g (n_angles_of (opt_n_rays default_options) (opt_nx default_options) (opt_ny default_options)) ->
  (forall b y, In b beams -> In y (b_rays b) -> good_ray tmm (opt_phi_sym default_options) n_abs y) ->
  exists G res k, RT_wl s tmm (opt_phi_sym default_options) g n_abs beams G = Ok res /\ (k < length (g_av g) / 2)%nat /\
    forall r, (r < length (g_av g))%nat -> entry (o_mat res) r k = x.
Proof.
  intros Hg Hd Hr. pose proof (default_channels g Hg) as Hh.
  assert (Hl : (length beams < 338)%nat).
  { rewrite <- (map_length (fun b => (b_theta b, b_phi b))), Hd. rewrite default_directions. pose proof (regular_length g 100). lia. }
  assert (Hb : forall b, In b beams -> good_beam (opt_phi_sym default_options) b /\
      forall y, In y (b_rays b) -> good_ray tmm (opt_phi_sym default_options) n_abs y).
  { intros b Hin. split; [|intros y Hy; apply (Hr b); auto].
    assert (Hi : In (b_theta b, b_phi b) (map (fun b => (b_theta b, b_phi b)) beams)) by (apply (in_map (fun b => (b_theta b, b_phi b))); auto).
    rewrite Hd in Hi. destruct (regular_in g 338 Hh _ _ Hi) as [k [r [Hk [Er E]]]]. injection E as E1 E2.
    destruct (C01_rows _ _ _ _ _ default_valid Hg) as [_ [R1 _]]. destruct (R1 k ltac:(lia)) as [i [j Hij]].
    destruct (row_direction _ 4 _ _ _ g 338 default_valid default_fold Hg Hh k r i j Er Hk Hij) as [D1 [D2 D3]].
    unfold good_beam. rewrite E1, E2, D3. split; lra. }
  destruct (rt_underpopulated _ _ _ _ g 338 s tmm n_abs beams x default_valid Hg Hh Hl Hb) as [G [res [k [A [B [_ C]]]]]].
  exists G, res, k. rewrite Hh. split; auto.
Qed.

(* with 3.38 times as many rays every column is set *)
Lemma more_rays g s tmm n_abs n_rays beams G :
  make_angle_vector (opt_n_theta default_options) (opt_phi_sym default_options)
    (opt_c_azimuth default_options) (opt_spacing default_options) = Ok g ->
  (338 * (opt_nx default_options * opt_ny default_options) <= n_rays)%nat ->
  map (fun b => (b_theta b, b_phi b)) beams = regular_directions g (n_angles_of n_rays (opt_nx default_options) (opt_ny default_options)) ->
  (forall b, In b beams -> length (b_rays b) = (opt_nx default_options * opt_ny default_options)%nat /\
     forall y, In y (b_rays b) -> good_ray tmm (opt_phi_sym default_options) n_abs y) ->
  exists res, RT_wl s tmm (opt_phi_sym default_options) g n_abs beams G = Ok res /\
    forall k, (k < length (g_av g) / 2)%nat -> col_total (o_mat res) k + col_total (o_Amat res) k = 1.
Proof.
  intros Hg Hn Hd Hr. pose proof (default_channels g Hg) as Hh.
  destruct (rt_regular _ 4 _ _ _ g 338 s tmm n_abs n_rays (opt_nx default_options) (opt_ny default_options) beams G default_valid default_fold Hg Hh ltac:(cbn; lia) Hn Hd Hr) as [res [A B]].
  exists res. split; auto. rewrite Hh. exact B.
Qed.
