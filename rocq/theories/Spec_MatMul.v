(* Vocabulary for calculate_RAT: what it means for interface data to be well formed and to conserve
   power.  Independent of the pass loop. *)
From Coq Require Import Reals List ZArith.
From Verif Require Import Base Model_Angles Model_Ideal Model_MatMul Spec_Matrix.
Import ListNotations.
Open Scope R_scope.

(* the matrix in force at wavelength number w *)
Definition at_wl (m : wmat) (w : nat) : matrix :=
  match m with M3 ms => nth w ms [] | M2 m => m end.

(* a matrix stored once per wavelength, or once for all *)
Definition stored_for (m : wmat) (nwl nr nc : nat) : Prop :=
  match m with
  | M3 ms => length ms = nwl /\ forall x, In x ms -> has_shape x nr nc
  | M2 x => has_shape x nr nc
  end.

(* absorption stored once for all wavelengths is the single zero row written by ideal_cases.py *)
Definition abs_stored (A : wmat) (nwl h : nat) : Prop :=
  match A with
  | M3 ms => exists nl, stored_for A nwl nl h
  | M2 x => x = [repeat 0 h]
  end.

(* reflection, transmission and absorption of one side of an interface with h channels *)
Definition interface_data (nwl h : nat) (R T A : wmat) : Prop :=
  stored_for R nwl h h /\ stored_for T nwl h h /\ abs_stored A nwl h.

(* R + T + A = 1 in every channel *)
Definition conserves (nwl h : nat) (R T A : wmat) : Prop :=
  interface_data nwl h R T A /\
  forall w k, (w < nwl)%nat -> (k < h)%nat ->
    col_total (at_wl R w) k + col_total (at_wl T w) k + col_total (at_wl A w) k = 1.

(* R + T + A <= 1 and nothing negative *)
Definition passive (nwl h : nat) (R T A : wmat) : Prop :=
  interface_data nwl h R T A /\
  (forall w, (w < nwl)%nat -> nonneg_matrix (at_wl R w) /\ nonneg_matrix (at_wl T w) /\ nonneg_matrix (at_wl A w)) /\
  forall w k, (w < nwl)%nat -> (k < h)%nat ->
    col_total (at_wl R w) k + col_total (at_wl T w) k + col_total (at_wl A w) k <= 1.

(* a relabelling that keeps the power of every channel *)
Definition keeps_power (h : nat) (m : matrix) : Prop :=
  has_shape m h h /\ nonneg_matrix m /\ forall k, (k < h)%nat -> col_total m k = 1.

(* attenuation factors of the bulk *)
Definition bulk_data (nwl h : nat) (D : list (list R)) : Prop :=
  length D = nwl /\ forall d, In d D -> length d = h.
Definition attenuates (D : list (list R)) : Prop :=
  forall d x, In d D -> In x d -> 0 <= x <= 1.

(* incident power vectors *)
Definition incident (nwl h : nat) (v0 : list (list R)) : Prop :=
  length v0 = nwl /\ forall v, In v v0 -> length v = h.

Record shaped (nwl h : nat) (S : mm_setup) : Prop := {
  sh_front : interface_data nwl h (m_Rf S) (m_Tf S) (m_Af S);
  sh_rear : interface_data nwl h (m_Rb S) (m_Tb S) (m_Ab S);
  sh_back : interface_data nwl h (m_Rf2 S) (m_Tf2 S) (m_Af2 S);
  sh_u2d : has_shape (m_up2down S) h h;
  sh_d2u : has_shape (m_down2up S) h h;
  sh_D : bulk_data nwl h (m_D S) }.

Record energy_conserving (nwl h : nat) (S : mm_setup) : Prop := {
  ec_front : conserves nwl h (m_Rf S) (m_Tf S) (m_Af S);
  ec_rear : conserves nwl h (m_Rb S) (m_Tb S) (m_Ab S);
  ec_back : conserves nwl h (m_Rf2 S) (m_Tf2 S) (m_Af2 S);
  ec_u2d : keeps_power h (m_up2down S);
  ec_d2u : keeps_power h (m_down2up S);
  ec_D : bulk_data nwl h (m_D S) }.

Record passive_structure (nwl h : nat) (S : mm_setup) : Prop := {
  pa_front : passive nwl h (m_Rf S) (m_Tf S) (m_Af S);
  pa_rear : passive nwl h (m_Rb S) (m_Tb S) (m_Ab S);
  pa_back : passive nwl h (m_Rf2 S) (m_Tf2 S) (m_Af2 S);
  pa_u2d : keeps_power h (m_up2down S);
  pa_d2u : keeps_power h (m_down2up S);
  pa_D : bulk_data nwl h (m_D S);
  pa_att : attenuates (m_D S) }.

Definition nonneg_power (v0 : list (list R)) : Prop := forall v x, In v v0 -> In x v -> 0 <= x.

(* power of wavelength w still in the bulk *)
Definition still_travelling (st : mm_state) (w : nat) : R := rsum (nth w (s_vf1 st) []).

(* ---- stored files ---- *)

(* the stored matrices of one side of an interface: 2h outgoing rows, h incoming columns *)
Definition file_shaped (nwl h : nat) (f : stored) : Prop :=
  stored_for (f_RT f) nwl (2 * h) h /\ abs_stored (f_A f) nwl h.
Definition file_conserves (nwl h : nat) (f : stored) : Prop :=
  file_shaped nwl h f /\
  forall w k, (w < nwl)%nat -> (k < h)%nat -> col_total (at_wl (f_RT f) w) k + col_total (at_wl (f_A f) w) k = 1.
Definition file_passive (nwl h : nat) (f : stored) : Prop :=
  file_shaped nwl h f /\
  (forall w, (w < nwl)%nat -> nonneg_matrix (at_wl (f_RT f) w) /\ nonneg_matrix (at_wl (f_A f) w)) /\
  forall w k, (w < nwl)%nat -> (k < h)%nat -> col_total (at_wl (f_RT f) w) k + col_total (at_wl (f_A f) w) k <= 1.

(* ---- reported values at wavelength number w (0 when the variable is missing) ---- *)
Definition R_at (o : rat) (w : nat) : R := nth w (o_R o) 0.
Definition T_at (o : rat) (w : nat) : R := match o_T o with Some l => nth w l 0 | None => 0 end.
Definition A_bulk_at (o : rat) (w : nat) : R := match o_A_bulk o with Some l => nth w l 0 | None => 0 end.
(* results_per_pass["a"][j], summed over passes and layers *)
Definition per_pass_total (l : list (list (list R))) (w : nat) : R :=
  rsum (map (fun pass => rsum (nth w pass [])) l).
Definition A_front_at (st : mm_state) (w : nat) : R := per_pass_total (s_a0 st) w.
Definition A_back_at (st : mm_state) (w : nat) : R := per_pass_total (s_a1 st) w.

(* the power in the bulk after one round trip, at wavelength w *)
Definition round_trip (S : mm_setup) (w : nat) (v : list R) : list R :=
  matvec (at_wl (m_Rb S) w) (matvec (m_up2down S) (diag_mul (nth w (m_D S) [])
    (matvec (at_wl (m_Rf2 S) w) (diag_mul (nth w (m_D S) []) (matvec (m_down2up S) v))))).

(* both setups have the same data at wavelength w of the first and w' of the second *)
Record same_at (w w' : nat) (S S' : mm_setup) : Prop := {
  sa_thresh : m_thresh S = m_thresh S';
  sa_u2d : m_up2down S = m_up2down S'; sa_d2u : m_down2up S = m_down2up S';
  sa_D : nth w (m_D S) [] = nth w' (m_D S') [];
  sa_R : at_wl (m_Rf S) w = at_wl (m_Rf S') w' /\ at_wl (m_Rb S) w = at_wl (m_Rb S') w' /\
         at_wl (m_Rf2 S) w = at_wl (m_Rf2 S') w';
  sa_T : at_wl (m_Tf S) w = at_wl (m_Tf S') w' /\ at_wl (m_Tb S) w = at_wl (m_Tb S') w' /\
         at_wl (m_Tf2 S) w = at_wl (m_Tf2 S') w';
  sa_A : at_wl (m_Af S) w = at_wl (m_Af S') w' /\ at_wl (m_Ab S) w = at_wl (m_Ab S') w' /\
         at_wl (m_Af2 S) w = at_wl (m_Af2 S') w' }.

(* an incidence direction calculate_RAT places correctly: azimuth not negative and not exactly phi_symmetry *)
Definition good_direction (phi_sym theta : R) (phi_in : phi_opt) : Prop :=
  0 <= theta < PI / 2 /\
  match phi_in with PhiAll => True | PhiNum p => 0 <= p /\ p <> phi_sym end.

Definition same_file_at (w w' : nat) (f f' : stored) : Prop :=
  at_wl (f_RT f) w = at_wl (f_RT f') w' /\ at_wl (f_A f) w = at_wl (f_A f') w'.
