(* A structure with ray-traced surfaces: what is asked of one surface lit from one side. *)
From Coq Require Import Reals List Bool ZArith.
From Verif Require Import Base Model_Angles Model_Ideal Model_MatMul Model_Optics Model_OpticsC Model_RayIface Model_RT Model_Surface Model_StackCalc
  Model_RTCalc Model_RTSlab Spec_Angles Spec_OpticsC Spec_RT Spec_RTCalc.
Import ListNotations.
Open Scope R_scope.

(* no layer gives back light *)
Definition absorbing_layers (table : option (Z -> R -> table_entry)) : Prop :=
  forall ent k psi x, table = Some ent -> (k = 1 \/ k = -1)%Z -> 0 <= psi < PI / 2 -> In x (te_A (ent k psi)) -> 0 <= x.

(* valid settings, media and tables at every wavelength, draws below 1 *)
Definition traceable (s : side) (o : rm_options) (n_abs : nat) (inc trn : material) (texture : rtsurf * rtsurf) (wls : list rt_wave) : Prop :=
  valid_request (m_ntheta o) (m_phisym o) (m_caz o) /\ (exists m, m_fold m (m_phisym o)) /\ (0 < m_nx o * m_ny o)%nat /\
  0 <= lmax (zs_of (su_pts (facing_surface s texture))) /\
  forall v, In v wls -> optical_medium (inc (v_wl v)) /\ optical_medium (trn (v_wl v)) /\
    (forall ent, v_table v = Some ent -> layer_table n_abs ent) /\ absorbing_layers (v_table v) /\ forall k j, v_rnd v k j < 1.

(* one direction for each channel, or more *)
Definition enough_rays (o : rm_options) (g : grid) : Prop :=
  m_random_angles o = false /\ (length (g_av g) / 2 * (m_nx o * m_ny o) <= m_nrays o)%nat.
