(* Theorems about the angular grid (C01, C02, C03, C66, C70) *)
From Coq Require Import Reals List ZArith Bool Lia Lra.
From Verif Require Import Base Lib Model_Angles Proof_Angles Spec_Angles Proof_AnglesProps
  Model_Ideal Spec_Matrix Proof_Ideal Proof_IdealProps Proof_Summary.
Import ListNotations.
Open Scope R_scope.

(* ---------------- C01 ---------------- *)

(* the polar edges *)
Theorem C01_polar_edges : forall n phi_sym c sp g,
  valid_request n phi_sym c -> make_angle_vector n phi_sym c sp = Ok g ->
  length (g_theta_intv g) = (2 * n + 1)%nat /\
  strictly_increasing (g_theta_intv g) /\
  nth 0 (g_theta_intv g) 0 = 0 /\ nth n (g_theta_intv g) 0 = PI / 2 /\
  nth (2 * n) (g_theta_intv g) 0 = PI /\
  (forall i, (i <= 2 * n)%nat ->
     nth i (g_theta_intv g) 0 + nth (2 * n - i) (g_theta_intv g) 0 = PI) /\
  (forall i, (i <= n)%nat ->
     match sp with
     | SpSin => sin (nth i (g_theta_intv g) 0) = INR i / INR n
     | _ => nth i (g_theta_intv g) 0 = INR i / INR n * (PI / 2)
     end).
Proof. exact C01_edges. Qed.
Print Assumptions C01_polar_edges.

(* the azimuth edges of every ring *)
Theorem C01_azimuth_edges : forall n phi_sym c sp g,
  valid_request n phi_sym c -> make_angle_vector n phi_sym c sp = Ok g ->
  length (g_phi_intv g) = (2 * n)%nat /\
  forall i, (i < 2 * n)%nat ->
    length (phi_edges_of g (2 * n - 1 - i)) = length (phi_edges_of g i) /\
    strictly_increasing (phi_edges_of g i) /\
    nth 0 (phi_edges_of g i) 0 = 0 /\
    nth (length (phi_edges_of g i) - 1) (phi_edges_of g i) 0 = phi_sym /\
    ((i < n)%nat -> c * INR (i + 1) <= INR (length (phi_edges_of g i) - 1) < c * INR (i + 1) + 1).
Proof. exact C01_rings. Qed.
Print Assumptions C01_azimuth_edges.

(* the rows: two halves, one row per bin, in order, centre inside the bin *)
Theorem C01_angle_vector : forall n phi_sym c sp g,
  valid_request n phi_sym c -> make_angle_vector n phi_sym c sp = Ok g ->
  (exists h, length (g_av g) = (2 * h)%nat /\
     forall k r, nth_error (g_av g) k = Some r ->
       ((k < h)%nat <-> 0 < a_theta r < PI / 2) /\
       ((h <= k)%nat <-> PI / 2 < a_theta r < PI) /\
       ((k < h)%nat <-> (a_ring r < n)%nat)) /\
  (forall k, (k < length (g_av g))%nat -> exists i j, row_is g k i j) /\
  (forall i j, (i < 2 * n)%nat -> (S j < length (phi_edges_of g i))%nat ->
     exists k, row_is g k i j /\ forall k', row_is g k' i j -> k' = k) /\
  (forall k k' i j i' j', row_is g k i j -> row_is g k' i' j' -> (k < k')%nat ->
     (i < i')%nat \/ (i = i' /\ (j < j')%nat)).
Proof. exact C01_rows. Qed.
Print Assumptions C01_angle_vector.

(* a grid with 3 polar bins, 90 degree symmetry and a quarter bin per ring index *)
Example C01_case : exists g, valid_request 3 (PI / 2) (1 / 4) /\
  make_angle_vector 3 (PI / 2) (1 / 4) SpSin = Ok g.
Proof.
  pose proof PI_RGT_0. eexists. split; [|reflexivity]. repeat split; try lia; lra.
Qed.

(* ---------------- C02 ---------------- *)

Theorem C02_fold_phi_canonical : forall m s phi, m_fold m s ->
  0 <= fold_phi phi s < s /\
  (exists k : Z, fold_phi phi s = phi + IZR k * s) /\
  (forall k : Z, fold_phi (phi + IZR k * s) s = fold_phi phi s) /\
  (forall k : Z, fold_phi (phi + IZR k * (2 * PI)) s = fold_phi phi s) /\
  (0 <= phi < s -> fold_phi phi s = phi).
Proof. exact C02_all. Qed.
Print Assumptions C02_fold_phi_canonical.

Theorem C02_fold_phi_range : forall s phi, 0 < s -> 0 <= fold_phi phi s < s.
Proof. exact (fun s phi H => fold_phi_range phi s H). Qed.
Print Assumptions C02_fold_phi_range.

(* the divisibility hypothesis is needed *)
Theorem C02_needs_divisor : exists phi s, 0 < s /\ fold_phi (phi + 2 * PI) s <> fold_phi phi s.
Proof. exact C02_nondivisor_ex. Qed.
Print Assumptions C02_needs_divisor.

(* 45 degree symmetry is 8-fold *)
Example C02_case : m_fold 8 (PI / 4).
Proof. split; [lia|]. simpl. field. Qed.

(* ---------------- C03 ---------------- *)

Theorem C03_binning_unique : forall n phi_sym c sp g,
  valid_request n phi_sym c -> make_angle_vector n phi_sym c sp = Ok g ->
  forall theta phi, 0 < theta <= PI -> 0 < phi <= phi_sym ->
  exists k, bin_of g theta phi = Ok (Z.of_nat k) /\ (k < length (g_av g))%nat /\
            bin_contains g k theta phi /\
            forall k', bin_contains g k' theta phi -> k' = k.
Proof. exact C03_unique. Qed.
Print Assumptions C03_binning_unique.

Theorem C03_centre_in_own_row : forall n phi_sym c sp g,
  valid_request n phi_sym c -> make_angle_vector n phi_sym c sp = Ok g ->
  forall k r, nth_error (g_av g) k = Some r -> bin_of g (a_theta r) (a_phi r) = Ok (Z.of_nat k).
Proof. exact C03_center. Qed.
Print Assumptions C03_centre_in_own_row.

Example C03_case : 0 < PI / 3 <= PI /\ 0 < PI / 4 <= PI / 2.
Proof. pose proof PI_RGT_0. lra. Qed.

(* ---------------- C70 ---------------- *)

(* "a direction whose folded azimuth is exactly 0 is put in the ring that contains its theta" is
   false for every grid and every theta *)
Theorem C70_zero_azimuth_refuted : forall n phi_sym c sp g,
  valid_request n phi_sym c -> make_angle_vector n phi_sym c sp = Ok g ->
  forall theta, 0 < theta <= PI ->
  exists z, bin_of g theta 0 = Ok z /\ ((z = -1)%Z \/ ~ ring_contains g (Z.to_nat z) theta).
Proof. exact C03_zero. Qed.
Print Assumptions C70_zero_azimuth_refuted.

Example C70_case : exists phi, fold_phi phi (PI / 2) = 0 /\ phi <> 0.
Proof.
  pose proof PI_RGT_0. exists (PI / 2). split; [|lra].
  apply fold_phi_unique with (m := 4%Z) (k := 1%Z); lra.
Qed.

(* ---------------- C66 ---------------- *)

(* the columns of the polar summary: mean, over the incidence channels of the ring, of the total
   power of these channels (front: channels are the upper rows, rear: the lower ones) *)
Theorem C66_theta_summary_keeps_power : forall front mat ncols g ci,
  (length mat <= length (g_av g))%nat ->
  (forall row, In row mat -> length row = ncols) ->
  length (in_part front ncols g) = ncols ->
  (ci < length (rings_of (in_part front ncols g)))%nat ->
  col_total (theta_summary_grid front mat ncols g) ci =
  average (map (col_total mat)
     (channels_of_ring (in_part front ncols g) (nth ci (rings_of (in_part front ncols g)) 0%nat))).
Proof. exact theta_summary_grid_columns. Qed.
Print Assumptions C66_theta_summary_keeps_power.

(* three rows, two incidence channels in one ring *)
Example C66_case :
  let g := mk_grid [0; PI / 2; PI] [] [mk_arow 0 1 1; mk_arow 0 1 2; mk_arow 1 2 1; mk_arow 1 2 2] in
  let mat := [[1; 2]; [3; 4]; [5; 6]; [7; 8]] in
  length (in_part true 2 g) = 2%nat /\ (0 < length (rings_of (in_part true 2 g)))%nat /\
  col_total (theta_summary_grid true mat 2 g) 0 = 18.
Proof.
  split; [reflexivity|]. split; [unfold rings_of; simpl; lia|].
  unfold col_total, theta_summary_grid, theta_summary, rings_of, pick, weighted_mean, mean. simpl. lra.
Qed.

(* ---------------- C71 ---------------- *)

(* "RT summary + A summary of power-conserving matrices sum to 1" is false: theta_summary_A sums
   over the incidence azimuths instead of averaging *)
Theorem C71_summary_energy_refuted : exists g mat A_mat ncols,
  make_angle_vector 1 (PI / 2) 2 SpSin = Ok g /\
  (length mat = length (g_av g) /\ length (g_av g) = 2 * ncols)%nat /\
  (forall row, In row mat \/ In row A_mat -> length row = ncols) /\
  (forall k, (k < ncols)%nat -> col_total mat k + col_total A_mat k = 1) /\
  col_total (theta_summary_grid true mat ncols g) 0 + col_total (theta_summary_A_grid A_mat ncols g) 0 = 2.
Proof. exact summary_A_doubles. Qed.
Print Assumptions C71_summary_energy_refuted.

(* what theta_summary_A returns: for layer l and incidence ring ci, the sum of the absorption of this
   layer over the channels of the upper half that lie in the ring *)
Theorem C71_absorption_entries : forall A_mat ncols g l row ci,
  (ncols <= length (g_av g))%nat -> length row = ncols -> nth_error A_mat l = Some row ->
  (ci < length (rings_of (in_part true ncols g)))%nat ->
  nth ci (nth l (theta_summary_A_grid A_mat ncols g) []) 0 =
  rsum (map (fun k => nth k row 0)
    (channels_of_ring (in_part true ncols g) (nth ci (rings_of (in_part true ncols g)) 0%nat))).
Proof. exact theta_summary_A_entry. Qed.
Print Assumptions C71_absorption_entries.

(* dividing by the number of channels of the ring restores the balance, for every grid *)
Theorem C71_balance_partial : forall mat A_mat ncols g ci,
  (length mat <= length (g_av g))%nat -> (ncols <= length (g_av g))%nat ->
  (forall row, In row mat \/ In row A_mat -> length row = ncols) ->
  (forall k, (k < ncols)%nat -> col_total mat k + col_total A_mat k = 1) ->
  (ci < length (rings_of (in_part true ncols g)))%nat ->
  col_total (theta_summary_grid true mat ncols g) ci +
  col_total (theta_summary_A_grid A_mat ncols g) ci /
    INR (length (channels_of_ring (in_part true ncols g) (nth ci (rings_of (in_part true ncols g)) 0%nat))) = 1.
Proof. exact summary_balance. Qed.
Print Assumptions C71_balance_partial.

(* the two summaries add up to 1 exactly for rings of one channel and rings without absorption *)
Theorem C71_balance_iff_partial : forall mat A_mat ncols g ci,
  (length mat <= length (g_av g))%nat -> (ncols <= length (g_av g))%nat ->
  (forall row, In row mat \/ In row A_mat -> length row = ncols) ->
  (forall k, (k < ncols)%nat -> col_total mat k + col_total A_mat k = 1) ->
  (ci < length (rings_of (in_part true ncols g)))%nat ->
  let ch := channels_of_ring (in_part true ncols g) (nth ci (rings_of (in_part true ncols g)) 0%nat) in
  col_total (theta_summary_grid true mat ncols g) ci +
  col_total (theta_summary_A_grid A_mat ncols g) ci = 1 <->
  length ch = 1%nat \/ rsum (map (col_total A_mat) ch) = 0.
Proof. exact summary_balance_iff. Qed.
Print Assumptions C71_balance_iff_partial.

(* a ring of one channel and a ring of two, half of the power absorbed *)
Example C71_case :
  let g := mk_grid [0; PI / 4; PI / 2; PI] []
    [mk_arow 0 (1/2) 1; mk_arow 1 1 1; mk_arow 1 1 2; mk_arow 2 2 1; mk_arow 2 2 2; mk_arow 3 3 1] in
  let mat := [[1/2; 0; 0]; [0; 1/2; 0]; [0; 0; 1/2]; [0; 0; 0]; [0; 0; 0]; [0; 0; 0]] in
  let A_mat := [[1/4; 0; 1/2]; [1/4; 1/2; 0]] in
  (forall row, In row mat \/ In row A_mat -> length row = 3%nat) /\
  (forall k, (k < 3)%nat -> col_total mat k + col_total A_mat k = 1) /\
  rings_of (in_part true 3 g) = [0; 1]%nat /\
  theta_summary_A_grid A_mat 3 g = [[1/4 + 0; 0 + (1/2 + 0)]; [1/4 + 0; 1/2 + (0 + 0)]].
Proof.
  split; [intros row [H|H]; simpl in H; intuition; subst; auto|].
  split; [intros [|[|[|k]]] Hk; try lia; unfold col_total; simpl; lra|].
  split; reflexivity.
Qed.
