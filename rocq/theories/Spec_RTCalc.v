(* What a user asks of RT: settings, directions of incidence, and the columns they belong to. *)
From Coq Require Import Reals List Bool ZArith.
From Verif Require Import Base Model_Angles Model_Ideal Model_MatMul Model_Optics Model_OpticsC Model_RayIface Model_RT Model_Surface Model_StackCalc Model_RTCalc
  Spec_Angles Spec_Matrix Spec_OpticsC Spec_RT.
Import ListNotations.
Open Scope R_scope.

(* the surface met by light from side s *)
Definition facing_surface (s : side) (texture : rtsurf * rtsurf) : rtsurf := match s with Front => fst texture | Rear => snd texture end.

(* n_abs layers, some of which absorb whatever is neither reflected nor transmitted *)
Definition layer_table (n_abs : nat) (ent : Z -> R -> table_entry) : Prop :=
  forall k psi, (k = 1 \/ k = -1)%Z -> 0 <= psi < PI / 2 ->
    length (te_A (ent k psi)) = n_abs /\ (0 < rsum (te_A (ent k psi)) \/ 1 <= te_R (ent k psi) + te_T (ent k psi)).

Record sound_request (s : side) (o : rm_options) (table : option (Z -> R -> table_entry)) (n_abs : nat) (inc trn : material)
    (texture : rtsurf * rtsurf) (z : rm_draws) : Prop := {
  sq_grid : valid_request (m_ntheta o) (m_phisym o) (m_caz o);
  sq_fold : exists m, m_fold m (m_phisym o);
  sq_rays : (0 < m_nx o * m_ny o)%nat;
  sq_media : optical_medium (inc (m_wl o)) /\ optical_medium (trn (m_wl o));
  sq_high : 0 <= lmax (zs_of (su_pts (facing_surface s texture)));
  sq_table : forall ent, table = Some ent -> layer_table n_abs ent;
  sq_rnd : forall k j, z_rnd z k j < 1 }.

(* the angular bins of the matrices; theta_spacing is "sin" unless given *)
Definition angular_grid (o : rm_options) (g : grid) : Prop :=
  make_angle_vector (m_ntheta o) (m_phisym o) (m_caz o) (match m_spacing o with Some sp => sp | None => SpSin end) = Ok g.

(* the angle used for an angle of incidence 0 *)
Definition nudged (x : R) : R := if Reqb x 0 then 1 / 10 ^ 4 else x.

(* directions from which rays are sent: rows of the upper half of the angular grid, random ones or the angle of incidence *)
Inductive comes_from (only : bool) (o : rm_options) (z : rm_draws) (g : grid) : R -> R -> Prop :=
| cf_row k r : only = false -> m_random_angles o = false -> (k < length (g_av g) / 2)%nat -> (k < n_angles_of (m_nrays o) (m_nx o) (m_ny o))%nat ->
    nth_error (g_av g) k = Some r -> comes_from only o z g (a_theta r) (a_phi r)
| cf_random i : only = false -> m_random_angles o = true -> (i < n_angles_of (m_nrays o) (m_nx o) (m_ny o))%nat ->
    comes_from only o z g (z_theta z i * PI / 2) (z_phi z i * 2 * PI)
| cf_incidence phi : only = true -> m_phi o = PhiNum phi -> (0 < n_angles_of (m_nrays o) (m_nx o) (m_ny o))%nat ->
    comes_from only o z g (nudged (m_theta o)) (nudged phi).

(* none exactly vertical, horizontal or at an azimuth edge; for the rows of the grid there is nothing to ask *)
Definition inclined (only : bool) (o : rm_options) (z : rm_draws) : Prop :=
  if only then exists phi, m_phi o = PhiNum phi /\ 0 < nudged (m_theta o) < PI / 2 /\ fold_phi (nudged phi) (m_phisym o) <> 0
  else m_random_angles o = true -> forall i, 0 < z_theta z i < 1 /\ fold_phi (z_phi z i * 2 * PI) (m_phisym o) <> 0.

(* the row of the grid that stands for column k of a matrix for light from side s *)
Definition column_row (s : side) (h k : nat) : nat := match s with Front => k | Rear => (h + k)%nat end.
(* light from (theta, phi) belongs to column k *)
Definition in_its_column (s : side) (phi_sym : R) (g : grid) (k : nat) (theta phi : R) : Prop :=
  (k < length (g_av g) / 2)%nat /\ bin_contains g (column_row s (length (g_av g) / 2) k) (as_seen s theta) (fold_phi phi phi_sym).

(* ---------- flat surfaces ---------- *)

(* the media above and below the surface as light from side s sees them *)
Definition above (s : side) (inc trn : material) : material := match s with Front => inc | Rear => trn end.
Definition beyond (s : side) (inc trn : material) : material := match s with Front => trn | Rear => inc end.
Definition own_side (s : side) : Z := match s with Front => 1%Z | Rear => (-1)%Z end.

(* what the surface sends back and lets through at the angle theta: Fresnel's equations or the table for that side *)
Definition back_share (s : side) (o : rm_options) (table : option (Z -> R -> table_entry)) (inc trn : material) (theta : R) : R :=
  match table with
  | None => fresnel_Rc (above s inc trn (m_wl o)) (beyond s inc trn (m_wl o)) theta (m_pol o)
  | Some ent => te_R (ent (own_side s) theta)
  end.
Definition through_share (s : side) (o : rm_options) (table : option (Z -> R -> table_entry)) (inc trn : material) (theta : R) : R :=
  match table with
  | None => 1 - back_share s o table inc trn theta
  | Some ent => te_T (ent (own_side s) theta)
  end.
(* beyond the critical angle nothing is let through; the angle of refraction is real *)
Definition smooth_crossing (s : side) (o : rm_options) (table : option (Z -> R -> table_entry)) (inc trn : material) : Prop :=
  forall theta, 0 < theta < PI / 2 ->
    let here := above s inc trn (m_wl o) in let there := beyond s inc trn (m_wl o) in
    match table with
    | None => re there = re here * sin theta -> 1 <= fresnel_Rc here there theta (m_pol o)
    | Some ent => in_phase here there /\ (re there <= re here * sin theta -> te_T (ent (own_side s) theta) <= 0)
    end.
(* Snell's angle *)
Definition bent (s : side) (o : rm_options) (inc trn : material) (theta : R) : R :=
  asin (re (above s inc trn (m_wl o)) * sin theta / re (beyond s inc trn (m_wl o))).

(* ---------- averages ---------- *)

(* the random numbers that decide between reflection, transmission and absorption are those of u, n for each ray; the others are kept *)
Definition rm_numbers (z : rm_draws) (n : nat) (u : nat -> R) : rm_draws :=
  {| z_theta := z_theta z; z_phi := z_phi z; z_x := z_x z; z_y := z_y z; z_rnd := fun k j => u (k * n + j)%nat; z_xy := z_xy z; z_seen := z_seen z; z_hs := z_hs z |}.

(* direction number i *)
Definition how_many_directions (only : bool) (o : rm_options) (g : grid) : nat :=
  let n_angles := n_angles_of (m_nrays o) (m_nx o) (m_ny o) in
  if only then Z.to_nat (Zceil (INR n_angles / INR (length (g_av g) / 2))) else n_angles.
Definition goes_out (only : bool) (o : rm_options) (z : rm_draws) (g : grid) (i : nat) (theta phi : R) : Prop :=
  (i < how_many_directions only o g)%nat /\
  if only then exists p, m_phi o = PhiNum p /\ theta = nudged (m_theta o) /\ phi = nudged p
  else if m_random_angles o then theta = z_theta z i * PI / 2 /\ phi = z_phi z i * 2 * PI
  else exists r, nth_error (g_av g) (i mod (length (g_av g) / 2)) = Some r /\ theta = a_theta r /\ phi = a_phi r.
(* the directions numbered in l are different ones and all belong to column k *)
Definition directions_in (only : bool) (s : side) (o : rm_options) (z : rm_draws) (g : grid) (k : nat) (l : list nat) : Prop :=
  NoDup l /\ l <> [] /\ forall i, In i l -> exists theta phi, goes_out only o z g i theta phi /\ in_its_column s (m_phisym o) g k theta phi.

(* column k of a matrix: what goes into bin r, or is absorbed in the layers of the surface *)
Inductive share_of := IntoBin (r : nat) | InLayers.
Definition share_in (k : nat) (w : share_of) (out : option (res rt_result)) : R :=
  match out with
  | Some (Ok x) => match w with IntoBin r => entry (o_mat x) r k | InLayers => col_total (o_Amat x) k end
  | _ => 0
  end.

(* lookup tables whose entries are probabilities *)
Definition probable_table (table : option (Z -> R -> table_entry)) : Prop :=
  forall ent k psi, table = Some ent -> 0 <= te_R (ent k psi) /\ 0 <= te_T (ent k psi) /\ te_R (ent k psi) + te_T (ent k psi) <= 1.

(* light from (theta, phi) on a flat surface: reflected into the bin of its own direction, transmitted into that of Snell's angle *)
Inductive flat_share (s : side) (o : rm_options) (table : option (Z -> R -> table_entry)) (inc trn : material) (g : grid) (k : nat) (theta phi : R) : share_of -> R -> Prop :=
| fs_back : flat_share s o table inc trn g k theta phi (IntoBin (column_row s (length (g_av g) / 2) k)) (back_share s o table inc trn theta)
| fs_through r : re (above s inc trn (m_wl o)) * sin theta < re (beyond s inc trn (m_wl o)) ->
    bin_contains g r (as_seen s (PI - bent s o inc trn theta)) (fold_phi phi (m_phisym o)) ->
    flat_share s o table inc trn g k theta phi (IntoBin r) (through_share s o table inc trn theta)
| fs_elsewhere r : (r < length (g_av g))%nat -> r <> column_row s (length (g_av g) / 2) k ->
    (re (above s inc trn (m_wl o)) * sin theta < re (beyond s inc trn (m_wl o)) -> ~ bin_contains g r (as_seen s (PI - bent s o inc trn theta)) (fold_phi phi (m_phisym o))) ->
    flat_share s o table inc trn g k theta phi (IntoBin r) 0
| fs_layers : flat_share s o table inc trn g k theta phi InLayers (1 - back_share s o table inc trn theta - through_share s o table inc trn theta).
