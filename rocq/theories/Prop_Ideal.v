(* Theorems about the ideal interfaces (C04, C05, C06, C72) *)
From Coq Require Import Reals List ZArith Bool Lia Lra.
From Verif Require Import Base Lib Model_Angles Proof_Angles Spec_Angles
  Model_Ideal Spec_Matrix Proof_Ideal Proof_IdealProps.
Import ListNotations.
Open Scope R_scope.

(* ---------------- C04 ---------------- *)

Theorem C04_lambertian : forall n phi_sym c sp g,
  valid_request n phi_sym c -> make_angle_vector n phi_sym c sp = Ok g ->
  exists h M, (0 < h)%nat /\ lambertian_matrix g = (M, [repeat 0 h]) /\
    length (g_av g) = (2 * h)%nat /\ has_shape M (2 * h) h /\ nonneg_matrix M /\
    (forall k, (k < h)%nat -> col_total (firstn h M) k = 1) /\
    (forall r k, (h <= r < 2 * h)%nat -> (k < h)%nat -> entry M r k = 0) /\
    (forall r k k', (r < 2 * h)%nat -> (k < h)%nat -> (k' < h)%nat -> entry M r k = entry M r k') /\
    (forall r r' k x x', nth_error (g_av g) r = Some x -> nth_error (g_av g) r' = Some x' ->
        a_ring x = a_ring x' -> (k < h)%nat -> entry M r k = entry M r' k) /\
    (forall r k, (r < h)%nat -> (k < h)%nat -> 0 < entry M r k).
Proof. exact C04_ex. Qed.
Print Assumptions C04_lambertian.

Example C04_case : exists g, valid_request 5 (PI / 4) (1 / 4) /\
  make_angle_vector 5 (PI / 4) (1 / 4) SpSin = Ok g.
Proof. pose proof PI_RGT_0. eexists. split; [|reflexivity]. repeat split; try lia; lra. Qed.

(* ---------------- C72 ---------------- *)

(* "a Lambertian interface lit from the rear also returns all power to where it came from" is false:
   the matrix does not depend on the side, and its rear reflection rows are empty *)
Theorem C72_rear_lambertian_refuted : exists n phi_sym c sp g h M A k,
  valid_request n phi_sym c /\ make_angle_vector n phi_sym c sp = Ok g /\
  lambertian_matrix g = (M, A) /\ length (g_av g) = (2 * h)%nat /\ (k < h)%nat /\
  rsum (map (fun r => entry M r k) (seq h h)) = 0.
Proof. exact C72_ex. Qed.
Print Assumptions C72_rear_lambertian_refuted.

(* ---------------- C05 ---------------- *)

(* true when the symmetry is even-fold, or when every ring has an even number of azimuth bins *)
Theorem C05_mirror_specular_partial : forall n phi_sym c sp g m s,
  valid_request n phi_sym c -> make_angle_vector n phi_sym c sp = Ok g -> m_fold m phi_sym ->
  (Nat.even m = true \/ forall i, (i < 2 * n)%nat -> Nat.even (length (phi_edges_of g i) - 1) = true) ->
  exists h M, length (g_av g) = (2 * h)%nat /\
    mirror_matrix g phi_sym s = Ok (M, [repeat 0 h]) /\ has_shape M (2 * h) h /\
    forall k r0, (k < h)%nat -> incidence_row g s h k = Some r0 ->
      exists r q, column_is_unit M (2 * h) k r /\ reflection_row s h r /\
        bin_contains g r (a_theta r0) (a_phi r0 + PI + IZR q * phi_sym).
Proof. exact C05_ex. Qed.
Print Assumptions C05_mirror_specular_partial.

Example C05_case : exists g, valid_request 3 (PI / 4) (1 / 2) /\
  make_angle_vector 3 (PI / 4) (1 / 2) SpLinear = Ok g /\ m_fold 8 (PI / 4) /\ Nat.even 8 = true.
Proof.
  pose proof PI_RGT_0. eexists. split; [|split; [reflexivity|split; [|reflexivity]]].
  - repeat split; try lia; lra.
  - split; [lia|]. simpl. field.
Qed.

(* full-circle symmetry and c_azimuth <= 1 (every number of polar bins, both spacings): light
   incident in channel 0 is sent into the last row, i.e. transmitted *)
Theorem C05_mirror_full_circle_refuted : forall n c sp g,
  valid_request n (2 * PI) c -> c <= 1 -> make_angle_vector n (2 * PI) c sp = Ok g ->
  exists h M A, (0 < h)%nat /\ length (g_av g) = (2 * h)%nat /\ mirror_matrix g (2 * PI) Front = Ok (M, A) /\
    column_is_unit M (2 * h) 0 (2 * h - 1) /\ ~ reflection_row Front h (2 * h - 1).
Proof. exact C05_refuted_ex. Qed.
Print Assumptions C05_mirror_full_circle_refuted.

Example C05_refuted_case : exists g, valid_request 10 (2 * PI) (1 / 4) /\ 1 / 4 <= 1 /\
  make_angle_vector 10 (2 * PI) (1 / 4) SpSin = Ok g.
Proof.
  pose proof PI_RGT_0. eexists. split; [|split; [lra|reflexivity]]. repeat split; try lia; lra.
Qed.

(* ---------------- C06 ---------------- *)

(* what is true: with equally spaced polar edges the ring [a, b] gets sin b - sin a *)
Theorem C06_ring_share_linear_partial : forall n phi_sym c g,
  valid_request n phi_sym c -> make_angle_vector n phi_sym c SpLinear = Ok g ->
  exists h, length (g_av g) = (2 * h)%nat /\ forall i k, (i < n)%nat -> (k < h)%nat ->
    ring_total g (fst (lambertian_matrix g)) i k =
    sin (nth (S i) (g_theta_intv g) 0) - sin (nth i (g_theta_intv g) 0).
Proof. exact C06_linear_share. Qed.
Print Assumptions C06_ring_share_linear_partial.

Theorem C06_cosine_law_refuted : forall n phi_sym c g, (2 <= n)%nat ->
  valid_request n phi_sym c -> make_angle_vector n phi_sym c SpLinear = Ok g ->
  exists h, (0 < h)%nat /\ length (g_av g) = (2 * h)%nat /\ forall k, (k < h)%nat ->
    (sin (nth 1 (g_theta_intv g) 0))² - (sin (nth 0 (g_theta_intv g) 0))² <
    ring_total g (fst (lambertian_matrix g)) 0 k.
Proof. exact C06_refuted_linear. Qed.
Print Assumptions C06_cosine_law_refuted.

Theorem C06_cosine_law_default_spacing_refuted : forall phi_sym c g, 0 < c -> 0 < phi_sym ->
  make_angle_vector 2 phi_sym c SpSin = Ok g ->
  exists k, (k < length (g_av g))%nat /\
  (sin (nth 1 (g_theta_intv g) 0))² - (sin (nth 0 (g_theta_intv g) 0))² = 1 / 4 /\
  1 / 3 < ring_total g (fst (lambertian_matrix g)) 0 k.
Proof. exact C06_refuted_default. Qed.
Print Assumptions C06_cosine_law_default_spacing_refuted.

Example C06_case : exists g, valid_request 4 (PI / 2) 1 /\ (2 <= 4)%nat /\
  make_angle_vector 4 (PI / 2) 1 SpLinear = Ok g.
Proof.
  pose proof PI_RGT_0. eexists. split; [|split; [lia|reflexivity]]. repeat split; try lia; lra.
Qed.
