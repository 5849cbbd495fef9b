(* C80: every reported quantity is the sum over passes of the light that went there. *)
From Coq Require Import Reals List ZArith Bool Lia Lra.
From Verif Require Import Base Lib Model_Angles Spec_Angles Model_Ideal Model_MatMul Spec_Matrix Spec_MatMul Spec_Series
  Proof_OutInProps Proof_RAT Proof_RAT2 Proof_RAT3 Proof_Series Prop_MatMul.
Import ListNotations.
Open Scope R_scope.

(* row: incident power (C07); u, d: relabelling between outgoing and incoming channels (C08) *)
Theorem C80_pass_series : forall n phi_sym c sp g h m theta phi_in alphas thick f0 b0 f1 thresh prof fuel st o row u d,
  valid_request n phi_sym c -> make_angle_vector n phi_sym c sp = Ok g -> length (g_av g) = (2 * h)%nat ->
  m_fold m phi_sym -> relabel_ok n m g -> good_direction phi_sym theta phi_in ->
  file_shaped (length alphas) h f0 -> file_shaped (length alphas) h b0 -> file_shaped (length alphas) h f1 ->
  make_v0_row g theta (fold_phi_in phi_in phi_sym) = Ok row ->
  out_to_in_matrix g phi_sym = Ok (u, d) ->
  calculate_RAT n phi_sym c sp theta phi_in alphas thick f0 b0 f1 thresh prof fuel = Ok (Some (st, o)) ->
  exists N,
    (forall w, (w < length alphas)%nat -> rsum (inside g h u d alphas thick f0 b0 f1 row w N) <= thresh) /\
    (forall k, (k < N)%nat -> exists w, (w < length alphas)%nat /\ thresh < rsum (inside g h u d alphas thick f0 b0 f1 row w k)) /\
    forall w, (w < length alphas)%nat ->
      R_at o w = series_R g h u d alphas thick f0 b0 f1 row w N /\
      T_at o w = series_T g h u d alphas thick f0 b0 f1 row w N /\
      A_bulk_at o w = series_A_bulk g h u d alphas thick f0 b0 f1 row w N /\
      ((1 <= N)%nat -> prof = true -> exists a_front a_back, o_A_interface o = Some (a_front, a_back) /\
         nth w a_front 0 = series_A_front g h u d alphas thick f0 b0 f1 row w N /\
         nth w a_back 0 = series_A_back g h u d alphas thick f0 b0 f1 row w N).
Proof. exact pass_series. Qed.
Print Assumptions C80_pass_series.

Example C80_case : exists g h row u d st o, valid_request 5 (PI / 2) (1 / 4) /\
  make_angle_vector 5 (PI / 2) (1 / 4) SpSin = Ok g /\ length (g_av g) = (2 * h)%nat /\ (0 < h)%nat /\
  m_fold 4 (PI / 2) /\ relabel_ok 5 4 g /\ good_direction (PI / 2) (PI / 6) (PhiNum 1) /\
  file_shaped 2 h (half_mirror h) /\
  make_v0_row g (PI / 6) (fold_phi_in (PhiNum 1) (PI / 2)) = Ok row /\
  out_to_in_matrix g (PI / 2) = Ok (u, d) /\
  calculate_RAT 5 (PI / 2) (1 / 4) SpSin (PI / 6) (PhiNum 1) [1; 2] 1 (half_mirror h) (half_mirror h) (half_mirror h)
    (1 / 1000) true (Z.to_nat (Zceil (ln (1 / 1000) / (- 2 * 1)) + 1)) = Ok (Some (st, o)).
Proof.
  destruct C09_case as [g [h [[st o] [A [B [C [D [E [F [G [H [_ I]]]]]]]]]]]].
  destruct (calc_unfold 5 (PI / 2) (1 / 4) SpSin g h A B C 4 (PI / 6) (PhiNum 1) [1; 2] 1 (half_mirror h)
    (half_mirror h) (half_mirror h) (1 / 1000) E F G) as [S [row [_ [E1 _]]]].
  destruct (C08_relabelling_partial 5 (PI / 2) (1 / 4) SpSin g 4 A B E F) as [h' [u [d [_ [E2 _]]]]].
  exists g, h, row, u, d, st, o. destruct H as [H _]. auto 15.
Qed.
