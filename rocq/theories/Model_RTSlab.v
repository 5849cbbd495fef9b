(* Model of how RT puts the wavelengths together (ray_tracing/rt.py:211-262): RT_wl for each of them, the results stacked and
   saved.  Directions and positions are drawn once (rt.py:147-148, 203-209), before the loop; the numbers drawn while tracing
   belong to the wavelength. *)
From Coq Require Import Reals List Bool ZArith.
From Verif Require Import Base Model_Angles Model_Ideal Model_MatMul Model_Optics Model_OpticsC Model_RayIface Model_RT Model_Surface Model_RTStruct
  Model_Trace Model_StackCalc Model_RTCalc.
Import ListNotations.
Open Scope R_scope.

(* one wavelength: the lookup table there, the numbers drawn while tracing, refreshes of the surface, uninitialised memory; rt.py:211-239 *)
Record rt_wave := {
  v_wl : R; v_table : option (Z -> R -> table_entry);
  v_rnd : nat -> nat -> R; v_xy : nat -> nat -> R * R; v_seen : nat -> nat; v_hs : nat -> R; v_garbage : garbage }.

(* rt.py:213-238 *)
Definition wave_options (o : rm_options) (v : rt_wave) : rm_options :=
  {| m_wl := v_wl v; m_pol := m_pol o; m_nx := m_nx o; m_ny := m_ny o; m_nrays := m_nrays o; m_ntheta := m_ntheta o; m_phisym := m_phisym o;
     m_caz := m_caz o; m_spacing := m_spacing o; m_theta := m_theta o; m_phi := m_phi o; m_xlim := m_xlim o; m_ylim := m_ylim o;
     m_random_pos := m_random_pos o; m_random_angles := m_random_angles o |}.
Definition wave_draws (z : rm_draws) (v : rt_wave) : rm_draws :=
  {| z_theta := z_theta z; z_phi := z_phi z; z_x := z_x z; z_y := z_y z; z_rnd := v_rnd v; z_xy := v_xy v; z_seen := v_seen v; z_hs := v_hs v |}.

(* rt.py:211-262; np.stack and sparse.stack refuse an empty list *)
Definition rt_stored (outer fuel : nat) (s : side) (only : bool) (o : rm_options) (n_abs : nat) (inc trn : material) (texture : rtsurf * rtsurf)
    (z : rm_draws) (wls : list rt_wave) : option (res stored) :=
  match all_done (map (fun v => RT_matrices outer fuel s only (wave_options o v) (v_table v) n_abs inc trn texture (wave_draws z v) (v_garbage v)) wls) with
  | None => None
  | Some (Err e) => Some (Err e)
  | Some (Ok []) => Some (Err ValueError)
  | Some (Ok l) => Some (Ok (mk_stored (M3 (map o_mat l)) (M3 (map o_Amat l))))
  end.
