(* Theorems about calculate_RAT and its building blocks (C07-C17, C73) *)
From Coq Require Import Reals List ZArith Bool Lia Lra.
From Verif Require Import Base Lib Model_Angles Spec_Angles Model_Ideal Model_MatMul Spec_Matrix Spec_MatMul
  Proof_OutInProps Proof_RAT Proof_RAT2 Proof_Profile Proof_RAT3.
Import ListNotations.
Open Scope R_scope.

(* the grid used by the examples: 5 polar bins, quarter symmetry *)
Lemma sample_grid : exists g h, valid_request 5 (PI / 2) (1 / 4) /\
  make_angle_vector 5 (PI / 2) (1 / 4) SpSin = Ok g /\ length (g_av g) = (2 * h)%nat /\ (0 < h)%nat /\
  m_fold 4 (PI / 2) /\ relabel_ok 5 4 g /\ good_direction (PI / 2) (PI / 6) (PhiNum 1).
Proof.
  pose proof PI_RGT_0. pose proof PI2_1 as HP.
  assert (Hv : valid_request 5 (PI / 2) (1 / 4)) by (repeat split; try lia; lra).
  destruct (make_angle_vector 5 (PI / 2) (1 / 4) SpSin) as [g|] eqn:Hg; [|discriminate].
  destruct (C08_ex 5 (PI / 2) (1 / 4) SpSin g 4 Hv Hg) as [h [u [d [Hh [_ [[_ [Hu _]] _]]]]]].
  { split; [lia|]. simpl. field. } { left. reflexivity. }
  exists g, h. split; auto. split; auto. split; auto. split.
  - destruct h; [|lia]. exfalso. simpl in Hh.
    destruct (C07_every 5 (PI / 2) (1 / 4) SpSin g 0 1 Hv Hg) as [i [row [_ [_ [L [S _]]]]]]; [lra|].
    rewrite Hh in L. destruct row; simpl in *; [lra|lia].
  - split; [split; [lia|simpl; field]|]. split; [left; reflexivity|]. split; [lra|]. split; lra.
Qed.

(* ---------------- C07 ---------------- *)

(* Missing from the full claim: phi_in exactly equal to phi_symmetry (see below), theta_in = pi/2 *)
Theorem C07_incident_azimuth_partial : forall n phi_sym c sp g m theta phi nwl,
  valid_request n phi_sym c -> make_angle_vector n phi_sym c sp = Ok g -> m_fold m phi_sym ->
  0 <= theta < PI / 2 -> 0 <= phi -> phi <> phi_sym ->
  exists k i j q row, row_is g k i j /\ in_bin_left (g_theta_intv g) i theta /\
    in_bin_left (phi_edges_of g i) j (phi + IZR q * phi_sym) /\
    make_v0 g theta (fold_phi_in (PhiNum phi) phi_sym) nwl = Ok (repeat row nwl) /\
    length (g_av g) = (2 * length row)%nat /\ (k < length row)%nat /\
    forall k', nth k' row 0 = if Nat.eqb k' k then 1 else 0.
Proof. exact C07_num. Qed.
Print Assumptions C07_incident_azimuth_partial.

Theorem C07_incident_all_azimuths : forall n phi_sym c sp g theta nwl,
  valid_request n phi_sym c -> make_angle_vector n phi_sym c sp = Ok g -> 0 <= theta < PI / 2 ->
  exists i row, in_bin_left (g_theta_intv g) i theta /\
    make_v0 g theta PhiAll nwl = Ok (repeat row nwl) /\ length (g_av g) = (2 * length row)%nat /\ rsum row = 1 /\
    forall k r, (k < length row)%nat -> nth_error (g_av g) k = Some r ->
      nth k row 0 = if Nat.eqb (a_ring r) i then 1 / INR (length (phi_edges_of g i) - 1) else 0.
Proof. exact C07_every. Qed.
Print Assumptions C07_incident_all_azimuths.

(* phi_in = phi_symmetry is not folded (the test is phi_in > phi_symmetry) and the light is put into
   the next polar ring: all its power is in a row whose ring does not contain theta_in *)
Theorem C07_phi_at_symmetry_refuted : forall n phi_sym c sp g i theta nwl,
  valid_request n phi_sym c -> make_angle_vector n phi_sym c sp = Ok g -> (S i < n)%nat ->
  in_bin_left (g_theta_intv g) i theta ->
  exists k r row, nth_error (g_av g) k = Some r /\ a_ring r = S i /\
    make_v0 g theta (fold_phi_in (PhiNum phi_sym) phi_sym) nwl = Ok (repeat row nwl) /\
    nth k row 0 = 1 /\ rsum row = 1.
Proof. exact C07_sym. Qed.
Print Assumptions C07_phi_at_symmetry_refuted.

(* theta_in = pi/2 with phi_in = 'all': accepted, but the incident power is 0 *)
Theorem C07_grazing_refuted : forall n phi_sym c sp g nwl,
  valid_request n phi_sym c -> make_angle_vector n phi_sym c sp = Ok g ->
  exists row, make_v0 g (PI / 2) PhiAll nwl = Ok (repeat row nwl) /\ rsum row = 0.
Proof. exact C07_graze. Qed.
Print Assumptions C07_grazing_refuted.

Example C07_case : exists g, valid_request 5 (PI / 2) (1 / 4) /\
  make_angle_vector 5 (PI / 2) (1 / 4) SpSin = Ok g /\ m_fold 4 (PI / 2) /\
  0 <= PI / 6 < PI / 2 /\ 0 <= 7 /\ 7 <> PI / 2.
Proof.
  destruct sample_grid as [g [h [A [B [C [D [E [F G]]]]]]]]. exists g. pose proof PI_RGT_0. pose proof PI_4.
  repeat split; auto; try apply A; try apply E; lra.
Qed.
Example C07_ring_case : exists g, valid_request 5 (PI / 2) (1 / 4) /\
  make_angle_vector 5 (PI / 2) (1 / 4) SpSin = Ok g /\ (1 < 5)%nat /\
  exists i, in_bin_left (g_theta_intv g) i 0.
Proof.
  destruct sample_grid as [g [h [A [B _]]]]. exists g. split; auto. split; auto. split; [lia|].
  pose proof PI_RGT_0. destruct (C07_every 5 (PI / 2) (1 / 4) SpSin g 0 1 A B) as [i [row [H1 _]]]; [lra|]. eauto.
Qed.

(* ---------------- C08 ---------------- *)

(* Missing from the full claim: odd symmetry m >= 3 with an odd azimuth count in some ring (refuted
   below), and full-circle grids with more than about 10000 azimuth bins in a ring *)
Theorem C08_relabelling_partial : forall n phi_sym c sp g m,
  valid_request n phi_sym c -> make_angle_vector n phi_sym c sp = Ok g ->
  m_fold m phi_sym -> relabel_ok n m g ->
  exists h u d, length (g_av g) = (2 * h)%nat /\ out_to_in_matrix g phi_sym = Ok (u, d) /\
    permutation_matrix u h /\ permutation_matrix d h /\
    (forall k r0, (k < h)%nat -> nth_error (g_av g) k = Some r0 ->
       exists r r1 q, column_is_unit u h k r /\ nth_error (g_av g) (h + r) = Some r1 /\
         a_ring r1 = (2 * n - 1 - a_ring r0)%nat /\ a_theta r1 = PI - a_theta r0 /\
         Rabs (a_phi r1 - (a_phi r0 + PI + IZR q * phi_sym)) <=
           phi_sym / (2 * INR (length (phi_edges_of g (a_ring r0)) - 1))) /\
    (forall k r0, (k < h)%nat -> nth_error (g_av g) (h + k) = Some r0 ->
       exists r r1 q, column_is_unit d h k r /\ nth_error (g_av g) r = Some r1 /\
         a_ring r1 = (2 * n - 1 - a_ring r0)%nat /\ a_theta r1 = PI - a_theta r0 /\
         Rabs (a_phi r1 - (a_phi r0 + PI + IZR q * phi_sym)) <=
           phi_sym / (2 * INR (length (phi_edges_of g (a_ring r0)) - 1))).
Proof. exact C08_ex. Qed.
Print Assumptions C08_relabelling_partial.

Example C08_case : exists g, valid_request 5 (PI / 2) (1 / 4) /\
  make_angle_vector 5 (PI / 2) (1 / 4) SpSin = Ok g /\ m_fold 4 (PI / 2) /\ relabel_ok 5 4 g.
Proof. destruct sample_grid as [g [h [A [B [C [D [E [F G]]]]]]]]. exists g. auto. Qed.

(* for every odd m >= 3 and c_azimuth <= 1, with any number of polar bins and both spacings, some downward
   channel has no upward counterpart: its power disappears *)
Theorem C08_power_lost_refuted : forall n c sp g m,
  valid_request n (2 * PI / INR m) c -> Nat.odd m = true -> (3 <= m)%nat -> c <= 1 ->
  make_angle_vector n (2 * PI / INR m) c sp = Ok g ->
  exists h u d k, length (g_av g) = (2 * h)%nat /\ out_to_in_matrix g (2 * PI / INR m) = Ok (u, d) /\
    (k < h)%nat /\ has_shape d h h /\ col_total d k = 0.
Proof. exact C08_lost_ex. Qed.
Print Assumptions C08_power_lost_refuted.

Example C08_lost_case : exists g, valid_request 4 (2 * PI / INR 3) (1 / 4) /\
  make_angle_vector 4 (2 * PI / INR 3) (1 / 4) SpSin = Ok g.
Proof.
  pose proof PI_RGT_0. eexists. split; [|reflexivity]. repeat split; try lia; try lra.
  apply Rdiv_lt_0_compat; [lra|]. simpl. lra.
Qed.

(* ---------------- C09 ---------------- *)

Theorem C09_energy_conserved : forall n phi_sym c sp g h m theta phi_in alphas thick f0 b0 f1 thresh prof fuel,
  valid_request n phi_sym c -> make_angle_vector n phi_sym c sp = Ok g -> length (g_av g) = (2 * h)%nat ->
  m_fold m phi_sym -> relabel_ok n m g -> good_direction phi_sym theta phi_in ->
  file_conserves (length alphas) h f0 -> file_conserves (length alphas) h b0 -> file_conserves (length alphas) h f1 ->
  exists r, calculate_RAT n phi_sym c sp theta phi_in alphas thick f0 b0 f1 thresh prof fuel = Ok r /\
    forall st o, r = Some (st, o) -> forall w, (w < length alphas)%nat ->
      R_at o w + T_at o w + A_bulk_at o w + A_front_at st w + A_back_at st w + still_travelling st w = 1 /\
      still_travelling st w <= thresh.
Proof. exact C09_ex. Qed.
Print Assumptions C09_energy_conserved.

(* outside relabel_ok the claim is false: with three-fold symmetry all the light can disappear *)
Theorem C09_odd_symmetry_refuted : exists n phi_sym c sp g m theta phi_in alphas thick f0 b0 f1 thresh prof fuel st o,
  valid_request n phi_sym c /\ make_angle_vector n phi_sym c sp = Ok g /\ m_fold m phi_sym /\
  good_direction phi_sym theta phi_in /\
  file_conserves (length alphas) 1 f0 /\ file_conserves (length alphas) 1 b0 /\ file_conserves (length alphas) 1 f1 /\
  length (g_av g) = 2%nat /\
  calculate_RAT n phi_sym c sp theta phi_in alphas thick f0 b0 f1 thresh prof fuel = Ok (Some (st, o)) /\
  (0 < length alphas)%nat /\
  R_at o 0 + T_at o 0 + A_bulk_at o 0 + A_front_at st 0 + A_back_at st 0 + still_travelling st 0 = 0.
Proof. exact C09_lost. Qed.
Print Assumptions C09_odd_symmetry_refuted.

(* half-transparent interfaces, two wavelengths, an absorbing bulk: the run also terminates *)
Example C09_case : exists g h so, valid_request 5 (PI / 2) (1 / 4) /\
  make_angle_vector 5 (PI / 2) (1 / 4) SpSin = Ok g /\ length (g_av g) = (2 * h)%nat /\ (0 < h)%nat /\
  m_fold 4 (PI / 2) /\ relabel_ok 5 4 g /\ good_direction (PI / 2) (PI / 6) (PhiNum 1) /\
  file_conserves 2 h (half_mirror h) /\ file_passive 2 h (half_mirror h) /\
  calculate_RAT 5 (PI / 2) (1 / 4) SpSin (PI / 6) (PhiNum 1) [1; 2] 1 (half_mirror h) (half_mirror h) (half_mirror h)
    (1 / 1000) true (Z.to_nat (Zceil (ln (1 / 1000) / (- 2 * 1)) + 1)) = Ok (Some so).
Proof.
  destruct sample_grid as [g [h [A [B [C [D [E [F G]]]]]]]].
  destruct (C12_bulk 5 (PI / 2) (1 / 4) SpSin g h 4 (PI / 6) (PhiNum 1) [1; 2] 1
     (half_mirror h) (half_mirror h) (half_mirror h) (1 / 1000) true 1 A B C E F G) as [so Hso];
    auto using half_mirror_passive; try lra.
  { intros x [<-|[<-|[]]]; lra. }
  exists g, h, so. auto 12 using half_mirror_passive, half_mirror_conserves.
Qed.

(* ---------------- C10 ---------------- *)

Theorem C10_fractions : forall n phi_sym c sp g h m theta phi_in alphas thick f0 b0 f1 thresh prof fuel st o,
  valid_request n phi_sym c -> make_angle_vector n phi_sym c sp = Ok g -> length (g_av g) = (2 * h)%nat ->
  m_fold m phi_sym -> relabel_ok n m g -> good_direction phi_sym theta phi_in ->
  (forall a, In a alphas -> 0 <= a * thick) ->
  file_passive (length alphas) h f0 -> file_passive (length alphas) h b0 -> file_passive (length alphas) h f1 ->
  calculate_RAT n phi_sym c sp theta phi_in alphas thick f0 b0 f1 thresh prof fuel = Ok (Some (st, o)) ->
  forall w, (w < length alphas)%nat ->
    0 <= R_at o w /\ 0 <= T_at o w /\ 0 <= A_bulk_at o w /\ 0 <= A_front_at st w /\ 0 <= A_back_at st w /\
    0 <= still_travelling st w /\
    R_at o w + T_at o w + A_bulk_at o w + A_front_at st w + A_back_at st w + still_travelling st w <= 1.
Proof. exact C10_ex. Qed.
Print Assumptions C10_fractions.

Example C10_case : exists g h st o, valid_request 5 (PI / 2) (1 / 4) /\
  make_angle_vector 5 (PI / 2) (1 / 4) SpSin = Ok g /\ length (g_av g) = (2 * h)%nat /\
  m_fold 4 (PI / 2) /\ relabel_ok 5 4 g /\ good_direction (PI / 2) (PI / 6) (PhiNum 1) /\
  (forall a, In a [1; 2] -> 0 <= a * 1) /\ file_passive 2 h (half_mirror h) /\
  calculate_RAT 5 (PI / 2) (1 / 4) SpSin (PI / 6) (PhiNum 1) [1; 2] 1 (half_mirror h) (half_mirror h) (half_mirror h)
    (1 / 1000) true (Z.to_nat (Zceil (ln (1 / 1000) / (- 2 * 1)) + 1)) = Ok (Some (st, o)).
Proof.
  destruct C09_case as [g [h [[st o] [A [B [C [D [E [F [G [_ [H I]]]]]]]]]]]].
  exists g, h, st, o. repeat (split; auto). intros x [<-|[<-|[]]]; lra.
Qed.

(* ---------------- C11 ---------------- *)

Theorem C11_profile_independent : forall n phi_sym c sp g h m theta phi_in alphas thick f0 b0 f1 thresh fuel,
  valid_request n phi_sym c -> make_angle_vector n phi_sym c sp = Ok g -> length (g_av g) = (2 * h)%nat ->
  m_fold m phi_sym -> relabel_ok n m g -> good_direction phi_sym theta phi_in ->
  file_shaped (length alphas) h f0 -> file_shaped (length alphas) h b0 -> file_shaped (length alphas) h f1 ->
  exists r r', calculate_RAT n phi_sym c sp theta phi_in alphas thick f0 b0 f1 thresh true fuel = Ok r /\
    calculate_RAT n phi_sym c sp theta phi_in alphas thick f0 b0 f1 thresh false fuel = Ok r' /\
    match r, r' with
    | Some (_, o), Some (_, o') => o_R o = o_R o' /\ o_T o = o_T o' /\ o_A_bulk o = o_A_bulk o'
    | None, None => True
    | _, _ => False
    end.
Proof. exact C11_ex. Qed.
Print Assumptions C11_profile_independent.
(* C09_case also instantiates C11 *)

(* ---------------- C12 ---------------- *)

Theorem C12_terminates : forall nwl h S prof v0 eps,
  passive_structure nwl h S -> incident nwl h v0 -> nonneg_power v0 ->
  (forall v, In v v0 -> rsum v <= 1) -> 0 < eps < 1 -> 0 < m_thresh S ->
  (forall w v, (w < nwl)%nat -> length v = h -> (forall x, In x v -> 0 <= x) ->
     rsum (round_trip S w v) <= (1 - eps) * rsum v) ->
  exists st, mm_loop prof S (Z.to_nat (Zceil (ln (m_thresh S) / ln (1 - eps)) + 1)) (mm_init S v0) = Some st.
Proof. exact C12_general. Qed.
Print Assumptions C12_terminates.

(* an absorbing bulk is enough *)
Theorem C12_absorbing_bulk_terminates : forall n phi_sym c sp g h m theta phi_in alphas thick f0 b0 f1 thresh prof a,
  valid_request n phi_sym c -> make_angle_vector n phi_sym c sp = Ok g -> length (g_av g) = (2 * h)%nat ->
  m_fold m phi_sym -> relabel_ok n m g -> good_direction phi_sym theta phi_in ->
  0 < a -> (forall x, In x alphas -> a <= x * thick) -> 0 < thresh ->
  file_passive (length alphas) h f0 -> file_passive (length alphas) h b0 -> file_passive (length alphas) h f1 ->
  exists so, calculate_RAT n phi_sym c sp theta phi_in alphas thick f0 b0 f1 thresh prof
               (Z.to_nat (Zceil (ln thresh / (- 2 * a)) + 1)) = Ok (Some so).
Proof. exact C12_bulk. Qed.
Print Assumptions C12_absorbing_bulk_terminates.

(* without loss the loop never stops, whatever the number of passes allowed *)
Theorem C12_lossless_never_stops : forall nwl h S prof v0 w,
  shaped nwl h S -> incident nwl h v0 -> (w < nwl)%nat ->
  (forall v, length v = h -> rsum (round_trip S w v) = rsum v) ->
  m_thresh S < rsum (matvec (at_wl (m_Tf S) w) (nth w v0 [])) ->
  forall fuel, mm_loop prof S fuel (mm_init S v0) = None.
Proof. exact C12_never. Qed.
Print Assumptions C12_lossless_never_stops.

Definition leaky1 : mm_setup := mk_setup (M2 [[0]]) (M2 [[1]]) (M2 [[0]]) (M2 [[1 / 2]]) (M2 [[1 / 2]]) (M2 [[0]])
  (M2 [[1]]) (M2 [[0]]) (M2 [[0]]) [[1]] [[1]] [[1]] (1 / 100).
Definition trapped1 : mm_setup := mk_setup (M2 [[0]]) (M2 [[1]]) (M2 [[0]]) (M2 [[1]]) (M2 [[0]]) (M2 [[0]])
  (M2 [[1]]) (M2 [[0]]) (M2 [[0]]) [[1]] [[1]] [[1]] (1 / 100).

Example C12_case : passive_structure 1 1 leaky1 /\ incident 1 1 [[1]] /\ nonneg_power [[1]] /\
  (forall w v, (w < 1)%nat -> length v = 1%nat -> (forall x, In x v -> 0 <= x) ->
     rsum (round_trip leaky1 w v) <= (1 - 1 / 2) * rsum v).
Proof.
  assert (Sh : forall a, has_shape [[a]] 1 1) by (intros a; split; auto; intros r [<-|[]]; auto).
  assert (Nn : forall a, 0 <= a -> nonneg_matrix [[a]]) by (intros a Ha r x [<-|[]] [<-|[]]; auto).
  assert (P : forall r t, 0 <= r -> 0 <= t -> r + t <= 1 -> passive 1 1 (M2 [[r]]) (M2 [[t]]) (M2 [[0]])).
  { intros r t Hr Ht Hs. split; [repeat split; auto|]; cbn; try (apply Sh).
    split; [intros; repeat split; apply Nn; lra|]. intros w k _ Hk. replace k with 0%nat by lia. unfold col_total. simpl. lra. }
  assert (KP : keeps_power 1 [[1]]).
  { split; auto. split; [apply Nn; lra|]. intros k Hk. replace k with 0%nat by lia. unfold col_total. simpl. lra. }
  split; [|split; [|split]].
  - constructor; cbn; auto; try (apply P; lra).
    + split; auto. intros d [<-|[]]; auto.
    + intros d x [<-|[]] [<-|[]]. lra.
  - split; auto. intros v [<-|[]]; auto.
  - intros v x [<-|[]] [<-|[]]. lra.
  - intros w v Hw Hl _. replace w with 0%nat by lia. destruct v as [|x [|]]; try discriminate.
    cbn. lra.
Qed.

Example C12_lossless_case : shaped 1 1 trapped1 /\ incident 1 1 [[1]] /\
  (forall v, length v = 1%nat -> rsum (round_trip trapped1 0 v) = rsum v) /\
  m_thresh trapped1 < rsum (matvec (at_wl (m_Tf trapped1) 0) (nth 0 [[1]] [])).
Proof.
  assert (Sh : forall a, has_shape [[a]] 1 1) by (intros a; split; auto; intros r [<-|[]]; auto).
  split; [|split; [|split]].
  - constructor; cbn; auto; try (repeat split; cbn; auto; apply Sh).
  - split; auto. intros v [<-|[]]; auto.
  - intros v Hl. destruct v as [|x [|]]; try discriminate. cbn. lra.
  - cbn. lra.
Qed.

(* ---------------- C13 ---------------- *)

Theorem C13_wavelength_independent : forall n phi_sym c sp g h m theta phi_in alphas alphas' thick
    f0 b0 f1 f0' b0' f1' thresh prof fuel fuel' st o st' o' w w',
  valid_request n phi_sym c -> make_angle_vector n phi_sym c sp = Ok g -> length (g_av g) = (2 * h)%nat ->
  m_fold m phi_sym -> relabel_ok n m g -> good_direction phi_sym theta phi_in ->
  (forall a, In a (alphas ++ alphas') -> 0 <= a * thick) ->
  file_passive (length alphas) h f0 -> file_passive (length alphas) h b0 -> file_passive (length alphas) h f1 ->
  file_passive (length alphas') h f0' -> file_passive (length alphas') h b0' -> file_passive (length alphas') h f1' ->
  (w < length alphas)%nat -> (w' < length alphas')%nat -> nth w alphas 0 = nth w' alphas' 0 ->
  same_file_at w w' f0 f0' -> same_file_at w w' b0 b0' -> same_file_at w w' f1 f1' ->
  calculate_RAT n phi_sym c sp theta phi_in alphas thick f0 b0 f1 thresh prof fuel = Ok (Some (st, o)) ->
  calculate_RAT n phi_sym c sp theta phi_in alphas' thick f0' b0' f1' thresh prof fuel' = Ok (Some (st', o')) ->
  Rabs (R_at o w - R_at o' w') <= thresh /\ Rabs (T_at o w - T_at o' w') <= thresh /\
  Rabs (A_bulk_at o w - A_bulk_at o' w') <= thresh /\ Rabs (A_front_at st w - A_front_at st' w') <= thresh /\
  Rabs (A_back_at st w - A_back_at st' w') <= thresh.
Proof. exact C13_ex. Qed.
Print Assumptions C13_wavelength_independent.

(* wavelength 1 of [1; 2] and wavelength 0 of [2]; both runs terminate *)
Example C13_case : exists g h so so', valid_request 5 (PI / 2) (1 / 4) /\
  make_angle_vector 5 (PI / 2) (1 / 4) SpSin = Ok g /\ length (g_av g) = (2 * h)%nat /\
  m_fold 4 (PI / 2) /\ relabel_ok 5 4 g /\ good_direction (PI / 2) (PI / 6) (PhiNum 1) /\
  file_passive 2 h (half_mirror h) /\ file_passive 1 h (half_mirror h) /\
  same_file_at 1 0 (half_mirror h) (half_mirror h) /\ nth 1 [1; 2] 0 = nth 0 [2] 0 /\
  calculate_RAT 5 (PI / 2) (1 / 4) SpSin (PI / 6) (PhiNum 1) [1; 2] 1 (half_mirror h) (half_mirror h) (half_mirror h)
    (1 / 1000) true (Z.to_nat (Zceil (ln (1 / 1000) / (- 2 * 1)) + 1)) = Ok (Some so) /\
  calculate_RAT 5 (PI / 2) (1 / 4) SpSin (PI / 6) (PhiNum 1) [2] 1 (half_mirror h) (half_mirror h) (half_mirror h)
    (1 / 1000) true (Z.to_nat (Zceil (ln (1 / 1000) / (- 2 * 2)) + 1)) = Ok (Some so').
Proof.
  destruct sample_grid as [g [h [A [B [C [D [E [F G]]]]]]]].
  destruct (C12_bulk 5 (PI / 2) (1 / 4) SpSin g h 4 (PI / 6) (PhiNum 1) [1; 2] 1
     (half_mirror h) (half_mirror h) (half_mirror h) (1 / 1000) true 1 A B C E F G) as [so Hso];
    auto using half_mirror_passive; try lra.
  { intros x [<-|[<-|[]]]; lra. }
  destruct (C12_bulk 5 (PI / 2) (1 / 4) SpSin g h 4 (PI / 6) (PhiNum 1) [2] 1
     (half_mirror h) (half_mirror h) (half_mirror h) (1 / 1000) true 2 A B C E F G) as [so' Hso'];
    auto using half_mirror_passive; try lra.
  { intros x [<-|[]]; lra. }
  exists g, h, so, so'. assert (same_file_at 1 0 (half_mirror h) (half_mirror h)) by (split; reflexivity).
  auto 15 using half_mirror_passive.
Qed.

(* ---------------- C14 ---------------- *)

Theorem C14_beer_lambert : forall alphas thick thetas w k, (w < length alphas)%nat -> (k < length thetas)%nat ->
  let alpha := nth w alphas 0 in let theta := nth k thetas 0 in
  let att := fun t => nth k (nth w (make_D alphas t thetas) []) 0 in
  0 <= alpha -> 0 <= thick -> cos theta <> 0 ->
  att thick = exp (- (alpha * (thick / Rabs (cos theta)))) /\
  0 < att thick <= 1 /\ (alpha = 0 -> att thick = 1) /\
  (forall t1 t2, att (t1 + t2) = att t1 * att t2) /\
  (forall thick', thick <= thick' -> att thick' <= att thick) /\
  (forall alphas', (w < length alphas')%nat -> alpha <= nth w alphas' 0 ->
     nth k (nth w (make_D alphas' thick thetas) []) 0 <= att thick).
Proof. exact C14_ex. Qed.
Print Assumptions C14_beer_lambert.

Example C14_case : (1 < @length R [1%R; 3%R])%nat /\ (1 < @length R [(PI / 6)%R; (PI / 3)%R])%nat /\
  0 <= nth 1 [1; 3] 0 /\ 0 <= 5 /\ cos (nth 1 [PI / 6; PI / 3] 0) <> 0.
Proof. cbn. rewrite cos_PI3. repeat split; try lia; lra. Qed.

(* ---------------- C15 ---------------- *)

(* v: power entering the bulk per bin; v2: power leaving it after make_D; depths: the grid np.arange(0, thick, spacing).
   The profile (and, for light going up, its flipped copy) integrates to the absorbed power, for any
   contents of the uninitialised memory.  Missing: wavelengths without absorption or light (next theorem)
   and bulks thinner than the depth spacing (refuted below). *)
Theorem C15_bulk_profile_partial : forall alpha thick spacing thetas v gn gs,
  0 < alpha -> 0 < spacing < thick -> (forall t, In t thetas -> cos t <> 0) ->
  length v = length thetas -> length gn = length thetas -> (forall x, In x v -> 0 <= x) -> 0 < rsum v ->
  forall v2, dot_wl_D (make_D [alpha] thick thetas) [v] = [v2] ->
  let depths := arange0 thick spacing in
  exists prof, bulk_profile_calc v v2 alpha thetas thick depths (rsum v - rsum v2) gn gs = map Some prof /\
    length prof = length depths /\ (forall x, In x prof -> 0 <= x) /\
    trapz prof depths = rsum v - rsum v2 /\ trapz (rev prof) depths = rsum v - rsum v2.
Proof. exact C15_down. Qed.
Print Assumptions C15_bulk_profile_partial.

(* without absorption or light the profile is zero, provided the uninitialised memory holds numbers *)
Theorem C15_no_absorption_partial : forall alpha thick spacing thetas v (gn : list fl) gs,
  length v = length thetas -> length gn = length thetas -> (forall x, In x v -> 0 <= x) ->
  (forall t, In t thetas -> cos t <> 0) -> 0 < thick -> 0 <= alpha ->
  alpha = 0 \/ rsum v = 0 ->
  (forall y, In y gn -> y <> None) -> gs <> None ->
  forall v2, dot_wl_D (make_D [alpha] thick thetas) [v] = [v2] ->
  let depths := arange0 thick spacing in
  forall x, In x (bulk_profile_calc v v2 alpha thetas thick depths (rsum v - rsum v2) gn gs) -> x = Some 0.
Proof. exact C15_dark. Qed.
Print Assumptions C15_no_absorption_partial.

(* np.divide(..., where=...) without out= leaves uninitialised memory: for a non-absorbing wavelength it
   may be NaN, and then the profile is NaN although nothing is absorbed *)
Theorem C15_uninitialised_refuted : exists thetas v (gn : list fl) gs v2,
  0 < rsum v /\ (forall t, In t thetas -> cos t <> 0) /\
  dot_wl_D (make_D [0] 1 thetas) [v] = [v2] /\ rsum v - rsum v2 = 0 /\
  exists x, In x (bulk_profile_calc v v2 0 thetas 1 (arange0 1 (1 / 2)) (rsum v - rsum v2) gn gs) /\ x = None.
Proof. exact C15_nan. Qed.
Print Assumptions C15_uninitialised_refuted.

(* a bulk not thicker than the depth spacing has one depth point and its profile integrates to 0 *)
Theorem C15_thin_bulk_refuted : forall alpha thick spacing thetas v gn gs,
  0 < alpha -> 0 < thick <= spacing -> (forall t, In t thetas -> cos t <> 0) ->
  length v = length thetas -> (forall x, In x v -> 0 <= x) -> 0 < rsum v ->
  forall v2, dot_wl_D (make_D [alpha] thick thetas) [v] = [v2] ->
  ftrapz (bulk_profile_calc v v2 alpha thetas thick (arange0 thick spacing) (rsum v - rsum v2) gn gs)
    (arange0 thick spacing) = Some 0 /\ 0 < rsum v - rsum v2.
Proof. exact C15_one_depth. Qed.
Print Assumptions C15_thin_bulk_refuted.

Example C15_case : (forall t, In t [PI / 6; PI / 3] -> cos t <> 0) /\ 0 < 1 < 10 /\
  length [1 / 2; 1 / 4] = length [PI / 6; PI / 3] /\ (forall x, In x [1 / 2; 1 / 4] -> 0 <= x) /\ 0 < rsum [1 / 2; 1 / 4] /\
  exists v2, dot_wl_D (make_D [2] 10 [PI / 6; PI / 3]) [[1 / 2; 1 / 4]] = [v2].
Proof.
  split; [|split; [lra|split; [auto|split; [|split; [simpl; lra|eexists; reflexivity]]]]].
  - intros t [<-|[<-|[]]]; [rewrite cos_PI6|rewrite cos_PI3].
    + assert (0 < sqrt 3) by (apply sqrt_lt_R0; lra). lra.
    + lra.
  - intros x [<-|[<-|[]]]; lra.
Qed.

(* ---------------- C16 ---------------- *)

(* if light enters the bulk at some wavelength (the transmitted power exceeds I_thresh) everything is there *)
Theorem C16_all_variables_partial : forall n phi_sym c sp g h m theta phi_in alphas thick f0 b0 f1 thresh prof fuel st o w row,
  valid_request n phi_sym c -> make_angle_vector n phi_sym c sp = Ok g -> length (g_av g) = (2 * h)%nat ->
  m_fold m phi_sym -> relabel_ok n m g -> good_direction phi_sym theta phi_in ->
  file_shaped (length alphas) h f0 ->
  make_v0_row g theta (fold_phi_in phi_in phi_sym) = Ok row ->
  (w < length alphas)%nat ->
  thresh < rsum (map (fun r => dot r row) (skipn h (at_wl (f_RT f0) w))) ->
  calculate_RAT n phi_sym c sp theta phi_in alphas thick f0 b0 f1 thresh prof fuel = Ok (Some (st, o)) ->
  length (o_R o) = length alphas /\
  (exists T A, o_T o = Some T /\ o_A_bulk o = Some A /\ length T = length alphas /\ length A = length alphas) /\
  (prof = true -> o_has_profiles o = true /\
     exists a0 a1, o_A_interface o = Some (a0, a1) /\ length a0 = length alphas /\ length a1 = length alphas).
Proof. exact C16_all. Qed.
Print Assumptions C16_all_variables_partial.

(* with a Lambertian front interface no light enters the bulk and only R is returned, even when profiles
   were requested *)
Theorem C16_missing_variables_refuted : forall n phi_sym c sp g m theta phi_in alphas thick b0 f1 thresh prof fuel,
  valid_request n phi_sym c -> make_angle_vector n phi_sym c sp = Ok g ->
  m_fold m phi_sym -> relabel_ok n m g -> good_direction phi_sym theta phi_in -> 0 <= thresh ->
  let f0 := mk_stored (M2 (fst (lambertian_matrix g))) (M2 (snd (lambertian_matrix g))) in
  exists st o, calculate_RAT n phi_sym c sp theta phi_in alphas thick f0 b0 f1 thresh prof fuel = Ok (Some (st, o)) /\
    o_T o = None /\ o_A_bulk o = None /\ o_A_interface o = None /\ o_has_profiles o = false.
Proof. exact C16_lambertian. Qed.
Print Assumptions C16_missing_variables_refuted.

(* the half mirror transmits half of the incident power *)
Example C16_case : exists g h row, valid_request 5 (PI / 2) (1 / 4) /\
  make_angle_vector 5 (PI / 2) (1 / 4) SpSin = Ok g /\ length (g_av g) = (2 * h)%nat /\
  m_fold 4 (PI / 2) /\ relabel_ok 5 4 g /\ good_direction (PI / 2) (PI / 6) (PhiNum 1) /\
  file_shaped 2 h (half_mirror h) /\ make_v0_row g (PI / 6) (fold_phi_in (PhiNum 1) (PI / 2)) = Ok row /\
  1 / 1000 < rsum (map (fun r => dot r row) (skipn h (at_wl (f_RT (half_mirror h)) 1))).
Proof.
  destruct sample_grid as [g [h [A [B [C [D [E [F G]]]]]]]].
  destruct (v0_good 5 (PI / 2) (1 / 4) SpSin g h A B C (PI / 6) (PhiNum 1) G) as [row [H1 [H2 [H3 _]]]].
  exists g, h, row. do 6 (split; auto). split; [apply (half_mirror_conserves 2)|]. split; auto.
  change (at_wl (f_RT (half_mirror h)) 1) with (half_id h ++ half_id h).
  destruct (half_id_shape h) as [L _]. replace (skipn h (half_id h ++ half_id h)) with (half_id h) by (symmetry; apply skipn_half; auto).
  assert (HH : rsum (matvec (half_id h) row) = 1 / 2); [|apply (Rlt_le_trans _ (1 / 2)); [lra|right; symmetry; exact HH]].
  rewrite (Proof_MatMul.rsum_matvec (half_id h) row h h); auto using half_id_shape.
  rewrite (rsum_map_ext _ (fun k => 1 / 2 * nth k row 0)).
  - rewrite rsum_map_scal, <- (Proof_MatMul.rsum_nth_seq row h), H3; auto. ring.
  - intros k Hk. apply in_seq in Hk. rewrite half_id_col by lia. auto.
Qed.

(* ---------------- C17 ---------------- *)

Theorem C17_split : forall n phi_sym c sp g h s full,
  valid_request n phi_sym c -> make_angle_vector n phi_sym c sp = Ok g ->
  length (g_av g) = (2 * h)%nat -> has_shape full (2 * h) h ->
  let RT := split_rows s (length (g_av g) / 2) full in
  has_shape (fst RT) h h /\ has_shape (snd RT) h h /\
  (forall k, (k < h)%nat -> exists r r', (* direction of reflection row k and of transmission row k *)
     nth_error (g_av g) r = Some r' /\ (match s with Front => a_theta r' < PI / 2 | Rear => PI / 2 < a_theta r' end) /\
     forall q, entry (fst RT) k q = entry full r q) /\
  (forall k, (k < h)%nat -> exists r r',
     nth_error (g_av g) r = Some r' /\ (match s with Front => PI / 2 < a_theta r' | Rear => a_theta r' < PI / 2 end) /\
     forall q, entry (snd RT) k q = entry full r q) /\
  (forall q, col_total (fst RT) q + col_total (snd RT) q = col_total full q).
Proof. exact C17_ex. Qed.
Print Assumptions C17_split.

Example C17_case : exists g h, valid_request 5 (PI / 2) (1 / 4) /\
  make_angle_vector 5 (PI / 2) (1 / 4) SpSin = Ok g /\ length (g_av g) = (2 * h)%nat /\
  has_shape (half_id h ++ half_id h) (2 * h) h.
Proof.
  destruct sample_grid as [g [h [A [B [C [D [E [F G]]]]]]]]. exists g, h. repeat (split; auto).
  - destruct (half_id_shape h) as [L _]. rewrite app_length. lia.
  - intros row Hr. apply in_app_iff in Hr. destruct (half_id_shape h) as [_ L]. destruct Hr; auto.
Qed.

(* ---------------- C73 ---------------- *)

(* A: absorption per layer and bin; v: power per bin; I: integrals of the tabulated profiles P[z][bin] *)
Theorem C73_interface_profile : forall nb zs A v I P,
  length v = nb -> length I = nb -> length P = length zs ->
  (forall row, In row A -> length row = nb) -> (forall p, In p P -> length p = nb) ->
  (forall j, (j < nb)%nat -> col_total A j * nth j v 0 <> 0 -> nth j I 0 <> 0) ->
  (forall j, (j < nb)%nat -> trapz (map (fun p => nth j p 0) P) zs = nth j I 0) ->
  exists prof, interface_profile (layer_sum A nb) v I P = map Some prof /\
    trapz prof zs = rsum (matvec A v).
Proof. exact C73_ex. Qed.
Print Assumptions C73_interface_profile.

(* two bins, two layers, three depths; the second bin absorbs nothing *)
Example C73_case :
  (forall j, (j < 2)%nat -> col_total [[1 / 4; 0]; [1 / 8; 0]] j * nth j [1 / 2; 1 / 2] 0 <> 0 -> nth j [3; 0] 0 <> 0) /\
  (forall j, (j < 2)%nat -> trapz (map (fun p => nth j p 0) [[1; 0]; [2; 0]; [1; 0]]) [0; 1; 2] = nth j [3; 0] 0).
Proof.
  split; intros j Hj; destruct j as [|[|]]; try lia; unfold col_total; simpl; try lra.
Qed.
