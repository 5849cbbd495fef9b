(* Redistribution matrices from traced rays: C24, C25, C26, C81, C82, C83. *)
From Coq Require Import Reals List ZArith Bool Lia Lra.
From Verif Require Import Base Lib Model_Angles Model_Ideal Model_MatMul Model_Optics Model_RayIface Model_RT
  Spec_Angles Spec_Matrix Spec_RT Proof_Angles Proof_AnglesProps Proof_RT2.
Import ListNotations.
Open Scope R_scope.

(* ---------------- C24 ---------------- *)

Theorem C24_ray_fractions : forall n phi_sym c sp g h s tmm n_abs beams G,
  valid_request n phi_sym c -> make_angle_vector n phi_sym c sp = Ok g -> length (g_av g) = (2 * h)%nat ->
  (forall b, In b beams -> good_beam phi_sym b /\ forall y, In y (b_rays b) -> good_ray tmm phi_sym n_abs y) ->
  (exists col row, bins_of_rays s phi_sym g h beams col row) /\
  exists res, RT_wl s tmm phi_sym g n_abs beams G = Ok res /\
    has_shape (o_mat res) (2 * h) h /\ has_shape (o_Amat res) n_abs h /\
    forall col row, bins_of_rays s phi_sym g h beams col row ->
    forall k, (k < h)%nat -> 0 < n_rays_in col k beams ->
      (forall r, (r < 2 * h)%nat -> entry (o_mat res) r k =
         in_column col k (fun y => if leaves y && Nat.eqb (row y) r then 1 else 0) (pairs beams) / n_rays_in col k beams) /\
      col_total (o_Amat res) k = n_absorbed_in col k beams / n_rays_in col k beams /\
      col_total (o_mat res) k + col_total (o_Amat res) k = 1.
Proof. exact rt_fractions. Qed.
Print Assumptions C24_ray_fractions.

(* one beam with a reflected, a transmitted and an absorbed ray *)
Example C24_case :
  let phi_sym := PI / 2 in
  let out th := {| y_out := {| ro_theta := th; ro_A := None; ro_loc := 10; ro_dir := mkv 0 0 1; ro_checks := 1 |}; y_phi := 1 |} in
  let b := {| b_theta := 1; b_phi := 1; b_rays := [out 1; out 2; absorbed_ray [1/4; 1/4] 1] |} in
  (exists g, make_angle_vector 2 phi_sym 1 SpSin = Ok g) /\ valid_request 2 phi_sym 1 /\
  good_beam phi_sym b /\ forall y, In y (b_rays b) -> good_ray true phi_sym 2 y.
Proof.
  pose proof PI2_3_2. pose proof PI_4. intros phi_sym.
  assert (F : fold_phi 1 phi_sym = 1). { apply fold_phi_unique with (m := 4%Z) (k := 0%Z); unfold phi_sym; lra. }
  intros out b. split; [eexists; reflexivity|]. split; [split; [lia|]; unfold phi_sym; lra|]. split.
  - split; [unfold b; cbn [b_theta]; lra|]. unfold b. cbn [b_phi]. rewrite F. lra.
  - intros y [<-|[<-|[<-|[]]]]; unfold good_ray, out, absorbed_ray; cbn [y_out ro_A ro_theta y_phi ro_loc length rsum].
    + rewrite F. lra.
    + rewrite F. lra.
    + split; auto. split; auto. split; auto. split; [lra|]. rewrite Rabs_pos_eq; lra.
Qed.

(* ---------------- C81 ---------------- *)

(* the default ray directions populate every column from either side *)
Theorem C81_regular_rays_conserve : forall n m phi_sym c sp g h s tmm n_abs n_rays nx ny beams G,
  valid_request n phi_sym c -> m_fold m phi_sym -> make_angle_vector n phi_sym c sp = Ok g -> length (g_av g) = (2 * h)%nat ->
  (1 <= nx * ny)%nat -> (h * (nx * ny) <= n_rays)%nat ->
  map (fun b => (b_theta b, b_phi b)) beams = regular_directions g (n_angles_of n_rays nx ny) ->
  (forall b, In b beams -> length (b_rays b) = (nx * ny)%nat /\ forall y, In y (b_rays b) -> good_ray tmm phi_sym n_abs y) ->
  exists res, RT_wl s tmm phi_sym g n_abs beams G = Ok res /\
    forall k, (k < h)%nat -> col_total (o_mat res) k + col_total (o_Amat res) k = 1.
Proof. exact rt_regular. Qed.
Print Assumptions C81_regular_rays_conserve.

(* every ray of a 3 x 2 grid of positions reflected at angle 1 *)
Example C81_case : exists g beams, make_angle_vector 2 (PI / 2) 1 SpSin = Ok g /\ m_fold 4 (PI / 2) /\
  map (fun b => (b_theta b, b_phi b)) beams = regular_directions g (n_angles_of 60 3 2) /\
  forall b, In b beams -> length (b_rays b) = (3 * 2)%nat /\ forall y, In y (b_rays b) -> good_ray false (PI / 2) 0 y.
Proof.
  eexists. exists (map (fun d => {| b_theta := fst d; b_phi := snd d;
      b_rays := repeat {| y_out := {| ro_theta := 1; ro_A := None; ro_loc := 10; ro_dir := mkv 0 0 1; ro_checks := 1 |}; y_phi := 1 |} 6 |})
    (regular_directions (grid_of_edges (theta_edges SpSin 2) (PI / 2) 1) (n_angles_of 60 3 2))).
  split; [reflexivity|]. split; [split; [lia|simpl; field]|]. split.
  - rewrite map_map. cbn [b_theta b_phi]. etransitivity; [|apply map_id]. apply map_ext. intros [a b]. reflexivity.
  - intros b Hb. apply in_map_iff in Hb. destruct Hb as [d [<- _]]. cbn [b_rays]. split; [apply repeat_length|].
    intros y Hy. apply repeat_spec in Hy. subst y. unfold good_ray. cbn [y_out ro_A ro_theta y_phi].
    pose proof PI2_3_2. pose proof PI_4. split; [lra|].
    rewrite (fold_phi_unique 1 (PI / 2) 1 4 0); lra.
Qed.

(* ---------------- C25 ---------------- *)

(* the absorption column of an empty bin is zero; the other entries are whatever was in memory, so
   they are zero if that was zero or NaN *)
Theorem C25_empty_column_partial : forall n phi_sym c sp g h s tmm n_abs beams G,
  valid_request n phi_sym c -> make_angle_vector n phi_sym c sp = Ok g -> length (g_av g) = (2 * h)%nat ->
  (forall b, In b beams -> good_beam phi_sym b /\ forall y, In y (b_rays b) -> good_ray tmm phi_sym n_abs y) ->
  exists res, RT_wl s tmm phi_sym g n_abs beams G = Ok res /\
    forall col row, bins_of_rays s phi_sym g h beams col row ->
    forall k, (k < h)%nat -> n_rays_in col k beams = 0 ->
      (forall l, (l < n_abs)%nat -> entry (o_Amat res) l k = 0) /\
      forall r, (r < 2 * h)%nat -> entry (o_mat res) r k = unnan (gb_out G r k).
Proof. exact rt_empty. Qed.
Print Assumptions C25_empty_column_partial.

(* tracing one incidence direction only (only_incidence_angle) leaves arbitrary numbers in another column *)
Theorem C25_empty_column_refuted : forall n phi_sym c sp g h s tmm n_abs b x,
  valid_request n phi_sym c -> make_angle_vector n phi_sym c sp = Ok g -> length (g_av g) = (2 * h)%nat -> (2 <= h)%nat ->
  good_beam phi_sym b -> (forall y, In y (b_rays b) -> good_ray tmm phi_sym n_abs y) ->
  exists G res k, RT_wl s tmm phi_sym g n_abs [b] G = Ok res /\ (k < h)%nat /\
    (forall col row, bins_of_rays s phi_sym g h [b] col row -> n_rays_in col k [b] = 0) /\
    forall r, (r < 2 * h)%nat -> entry (o_mat res) r k = x.
Proof. exact rt_empty_garbage. Qed.
Print Assumptions C25_empty_column_refuted.

(* ---------------- C26 ---------------- *)

(* excluded: rays leaving exactly horizontally, exactly vertically or at folded azimuth exactly 0 *)
Theorem C26_hemisphere_partial : forall n phi_sym c sp g h s tmm n_abs beams G,
  valid_request n phi_sym c -> make_angle_vector n phi_sym c sp = Ok g -> length (g_av g) = (2 * h)%nat ->
  (forall b, In b beams -> good_beam phi_sym b /\ forall y, In y (b_rays b) -> good_ray tmm phi_sym n_abs y /\
     (leaves y = true -> ro_theta (y_out y) <> PI / 2)) ->
  exists res, RT_wl s tmm phi_sym g n_abs beams G = Ok res /\
    forall col row, bins_of_rays s phi_sym g h beams col row ->
    forall k, (k < h)%nat -> 0 < n_rays_in col k beams ->
      rsum (map (fun r => entry (o_mat res) r k) (reflection_rows s h)) =
        in_column col k (fun y => if upwards y then 1 else 0) (pairs beams) / n_rays_in col k beams /\
      rsum (map (fun r => entry (o_mat res) r k) (transmission_rows s h)) =
        in_column col k (fun y => if downwards y then 1 else 0) (pairs beams) / n_rays_in col k beams.
Proof. exact rt_halves. Qed.
Print Assumptions C26_hemisphere_partial.

(* a ray reflected straight up with azimuth 0 (np.arctan2(0, 0)) is counted as transmitted *)
Theorem C26_vertical_ray_refuted : forall n phi_sym c sp g h tmm n_abs b_th b_ph G,
  valid_request n phi_sym c -> make_angle_vector n phi_sym c sp = Ok g -> length (g_av g) = (2 * h)%nat ->
  0 < b_th < PI / 2 -> fold_phi b_ph phi_sym <> 0 ->
  exists res k, RT_wl Front tmm phi_sym g n_abs (one_ray b_th b_ph 0 0) G = Ok res /\ (k < h)%nat /\
    rsum (map (fun r => entry (o_mat res) r k) (reflection_rows Front h)) = 0 /\
    entry (o_mat res) (2 * h - 1) k = 1.
Proof. exact vertical_refuted. Qed.
Print Assumptions C26_vertical_ray_refuted.

Example C26_case : upwards (hd (absorbed_ray [] 0) (b_rays (hd (Build_beam 0 0 []) (one_ray 1 1 1 1)))) = true /\
  downwards (hd (absorbed_ray [] 0) (b_rays (hd (Build_beam 0 0 []) (one_ray 1 1 (5 / 2) 1)))) = true.
Proof.
  pose proof PI2_3_2. pose proof PI_4. unfold upwards, downwards. cbn [one_ray hd b_rays leaves y_out ro_A ro_theta andb].
  split; apply Rltb_true; lra.
Qed.

(* ---------------- C83 ---------------- *)

(* true when the absorbed rays of the incidence bin divide in the same proportions *)
Theorem C83_layer_split_partial : forall n phi_sym c sp g h s tmm n_abs beams G (p : nat -> nat -> R),
  valid_request n phi_sym c -> make_angle_vector n phi_sym c sp = Ok g -> length (g_av g) = (2 * h)%nat ->
  (forall b, In b beams -> good_beam phi_sym b /\ forall y, In y (b_rays b) -> good_ray tmm phi_sym n_abs y) ->
  exists res, RT_wl s tmm phi_sym g n_abs beams G = Ok res /\
    forall col row, bins_of_rays s phi_sym g h beams col row ->
    forall k, (k < h)%nat -> 0 < n_rays_in col k beams ->
    (forall b y l, In b beams -> In y (b_rays b) -> leaves y = false -> col b = k ->
       nth l (absorption y) 0 / rsum (absorption y) = p k l) ->
    forall l, (l < n_abs)%nat -> entry (o_Amat res) l k =
      in_column col k (fun y => nth l (absorption y) 0 / rsum (absorption y)) (pairs beams) / n_rays_in col k beams.
Proof. exact rt_layers. Qed.
Print Assumptions C83_layer_split_partial.

(* two absorbed rays at different local angles: layer 0 gets 8/11 of the power instead of 4/10 *)
Theorem C83_layer_split_refuted : forall n phi_sym c sp g h s th ph G,
  valid_request n phi_sym c -> make_angle_vector n phi_sym c sp = Ok g -> length (g_av g) = (2 * h)%nat ->
  0 < th < PI / 2 -> fold_phi ph phi_sym <> 0 ->
  exists res col row k, RT_wl s true phi_sym g 2 (two_absorbed th ph) G = Ok res /\
    bins_of_rays s phi_sym g h (two_absorbed th ph) col row /\ (k < h)%nat /\
    entry (o_Amat res) 0 k = 8 / 11 /\
    in_column col k (fun y => nth 0 (absorption y) 0 / rsum (absorption y)) (pairs (two_absorbed th ph)) /
      n_rays_in col k (two_absorbed th ph) = 4 / 10.
Proof. exact layers_refuted. Qed.
Print Assumptions C83_layer_split_refuted.

Example C83_case : let A := [1/4; 1/4] in nth 0 A 0 / rsum A = 1 / 2 /\ nth 1 A 0 / rsum A = 1 / 2.
Proof. cbn [nth rsum]. split; field. Qed.

(* ---------------- C82 ---------------- *)

Theorem C82_local_angles_partial : forall n phi_sym c sp g h s tmm n_abs beams G,
  valid_request n phi_sym c -> make_angle_vector n phi_sym c sp = Ok g -> length (g_av g) = (2 * h)%nat ->
  (forall b, In b beams -> good_beam phi_sym b /\ forall y, In y (b_rays b) -> good_ray tmm phi_sym n_abs y) ->
  exists res, RT_wl s tmm phi_sym g n_abs beams G = Ok res /\ has_shape (o_local res) n h /\
    forall col row, bins_of_rays s phi_sym g h beams col row ->
    forall k, (k < h)%nat ->
      (n_absorbed_in col k beams <> 0 -> col_total (o_local res) k = 1) /\
      (n_absorbed_in col k beams = 0 -> forall l, (l < n)%nat -> entry (o_local res) l k = 0) /\
      nth k (o_intgr res) 0 = in_column col k (fun y => rsum (absorption y)) (pairs beams) / n_absorbed_in col k beams /\
      forall lrow, local_rings g beams lrow -> forall l, (l < n)%nat ->
        entry (o_local res) l k =
        in_column col k (fun y => if negb (leaves y) && Nat.eqb (lrow y) l then 1 else 0) (pairs beams) / n_absorbed_in col k beams.
Proof. exact rt_local. Qed.
Print Assumptions C82_local_angles_partial.

(* an exactly normal local hit is recorded in the most grazing ring *)
Theorem C82_normal_hit_refuted : forall n phi_sym c sp g h s th ph G,
  valid_request n phi_sym c -> make_angle_vector n phi_sym c sp = Ok g -> length (g_av g) = (2 * h)%nat -> (2 <= n)%nat ->
  0 < th < PI / 2 -> fold_phi ph phi_sym <> 0 ->
  exists res k, RT_wl s true phi_sym g 1 [{| b_theta := th; b_phi := ph; b_rays := [absorbed_ray [1/2] 0] |}] G = Ok res /\ (k < h)%nat /\
    entry (o_local res) (n - 1) k = 1 /\ entry (o_local res) 0 k = 0 /\ 0 < nth (n - 1) (g_theta_intv g) 0.
Proof. exact local_zero_refuted. Qed.
Print Assumptions C82_normal_hit_refuted.

(* the local angle 1 has a ring *)
Example C82_case : exists i, in_bin (theta_edges SpSin 2) i (Rabs 1).
Proof.
  pose proof PI2_3_2. destruct (C01_edges 2 (PI / 2) 1 SpSin _ ltac:(split; [lia|lra]) eq_refl) as [L [Inc [E0 [_ [E2 _]]]]].
  rewrite Rabs_pos_eq by lra. destruct (find_interval_right (theta_edges SpSin 2) 1 Inc) as [i [Hi Hx]].
  - cbn [g_theta_intv grid_of_edges] in L. rewrite L. lia.
  - cbn [g_theta_intv grid_of_edges] in L, E0, E2. rewrite L. change (2 * 2 + 1 - 1)%nat with (2 * 2)%nat. rewrite E2, E0. lra.
  - exists i. split; auto.
Qed.
