(* Model of RT and RT_wl (ray_tracing/rt.py:28-479) for one wavelength and one texture, from the options, the materials, the
   surface object and the lookup table to the redistribution matrices: the directions and positions of the rays, each
   followed by Model_RayIface, and the counting of Model_RT.

   group.materials is None.  Reading and writing matrices (Model_Cache), profiles (Model_Process) and the parallel loop over
   the wavelengths are not part of it. *)
From Coq Require Import Reals List Bool ZArith.
From Verif Require Import Base Model_Angles Model_Ideal Model_MatMul Model_Optics Model_OpticsC Model_RayIface Model_RT Model_Surface Model_RTStruct
  Model_Trace Model_StackCalc.
Import ListNotations.
Open Scope R_scope.

(* the options read by RT, at one wavelength; None: not in options; rt.py:100-208 *)
Record rm_options := {
  m_wl : R; m_pol : pol; m_nx : nat; m_ny : nat; m_nrays : nat;
  m_ntheta : nat; m_phisym : R; m_caz : R; m_spacing : option spacing;
  m_theta : R; m_phi : phi_opt; m_xlim : option (R * R); m_ylim : option (R * R);
  m_random_pos : bool; m_random_angles : bool }.

(* draws: of the directions and positions; for ray k those of random() and the restart positions; refreshes of the surface
   object before ray k, and the heights drawn; rt.py:147-148, 204-205, 312-324 *)
Record rm_draws := {
  z_theta : nat -> R; z_phi : nat -> R; z_x : nat -> R; z_y : nat -> R;
  z_rnd : nat -> nat -> R; z_xy : nat -> nat -> R * R; z_seen : nat -> nat; z_hs : nat -> R }.

(* rt.py:117-121 *)
Definition rm_grid (o : rm_options) : res grid :=
  make_angle_vector (m_ntheta o) (m_phisym o) (m_caz o) (match m_spacing o with Some sp => sp | None => SpSin end).

(* rt.py:86, 123-158: directions of incidence; only: only_incidence_angle *)
Definition rm_directions (only : bool) (o : rm_options) (z : rm_draws) (g : grid) : res (list (R * R)) :=
  let n_angles := n_angles_of (m_nrays o) (m_nx o) (m_ny o) in
  if only then incidence_directions g n_angles (m_theta o) (m_phi o)
  else Ok (if m_random_angles o then map (fun i => (z_theta z i * PI / 2, z_phi z i * 2 * PI)) (seq 0 n_angles)
           else regular_directions g n_angles).

(* rt.py:109-115: the table as single_interface_check reads it.  Sides are 1 and -1 *)
Definition seen_table (s : side) (ent : Z -> R -> table_entry) : Z -> R -> table_entry :=
  fun k psi => match table_side s k with Ok k' => ent k' psi | Err _ => {| te_R := 0; te_T := 0; te_A := [] |} end.

(* rt.py:159-171, 180-183 and 2075-2087 *)
Definition rm_decision (s : side) (o : rm_options) (table : option (Z -> R -> table_entry)) (inc trn : material) : decision :=
  let nks := map (fun m => m (m_wl o)) (rt_media s inc trn None) in
  chosen (m_pol o) (option_map (seen_table s) table) (nth 0 nks (creal 0)) (nth 1 nks (creal 0)).

(* rt.py:305-332: one ray, started from the height h; None: still running *)
Definition launch (outer fuel : nat) (h : R) (surf : rtsurf) (dec : decision) (theta phi : R) (sh : shot) : option (res ray) :=
  match single_ray_interface outer fuel [(env_of surf dec sh, su_zcov surf)] (start_vector h theta phi) (sh_x sh) (sh_y sh) with
  | None => None
  | Some (Err e) => Some (Err e)
  | Some (Ok out) => Some (Ok {| y_out := out; y_phi := out_phi out |})
  end.

(* what ray k works with; rt.py:311-324 *)
Definition rm_shot (z : rm_draws) (k : nat) (x y : R) : shot :=
  {| sh_x := x; sh_y := y; sh_rnd := z_rnd z k; sh_xy := z_xy z k; sh_h := fun i => z_hs z (z_seen z k + i)%nat |}.
Definition rm_ray (outer fuel : nat) (surf : rtsurf) (dec : decision) (theta phi : R) (z : rm_draws) (k : nat) (x y : R) : option (res ray) :=
  launch outer fuel (lmax (zs_of (su_pts surf))) (refreshed surf (z_hs z) (z_seen z k)) dec theta phi (rm_shot z k x y).

(* rt.py:186-209 *)
Definition rm_xs (surf : rtsurf) (o : rm_options) (z : rm_draws) : list R :=
  coords (m_random_pos o) (limits (m_xlim o) (su_xmin surf) (su_xmax surf) (su_Lx surf)) (m_nx o) (z_x z).
Definition rm_ys (surf : rtsurf) (o : rm_options) (z : rm_draws) : list R :=
  coords (m_random_pos o) (limits (m_ylim o) (su_ymin surf) (su_ymax surf) (su_Ly surf)) (m_ny o) (z_y z).

(* rt.py:301-332: direction i, all positions *)
Definition rm_beam (outer fuel : nat) (surf : rtsurf) (dec : decision) (o : rm_options) (z : rm_draws) (id : nat * (R * R)) : option (res beam) :=
  let '(i, (theta, phi)) := id in
  match all_done (map (fun cv => rm_ray outer fuel surf dec theta phi z (i * (m_nx o * m_ny o) + fst cv) (fst (snd cv)) (snd (snd cv)))
                      (enumerate (positions (rm_xs surf o z) (rm_ys surf o z)))) with
  | None => None
  | Some (Err e) => Some (Err e)
  | Some (Ok rays) => Some (Ok {| b_theta := theta; b_phi := phi; b_rays := rays |})
  end.

(* rt.py:28-479; n_abs: n_absorbing_layers; table: the lookup table at this wavelength and polarisation, or Fr_or_TMM = 0;
   texture: the pair of surfaces of group.textures *)
Definition RT_matrices (outer fuel : nat) (s : side) (only : bool) (o : rm_options) (table : option (Z -> R -> table_entry)) (n_abs : nat)
    (inc trn : material) (texture : rtsurf * rtsurf) (z : rm_draws) (G : garbage) : option (res rt_result) :=
  if Nat.eqb (m_nx o * m_ny o) 0 then Some (Err ZeroDivision) else
  match rm_grid o with
  | Err e => Some (Err e)
  | Ok g =>
      match rm_directions only o z g with
      | Err e => Some (Err e)
      | Ok dirs =>
          let surf := match s with Front => fst texture | Rear => snd texture end in
          match all_done (map (rm_beam outer fuel surf (rm_decision s o table inc trn) o z) (enumerate dirs)) with
          | None => None
          | Some (Err e) => Some (Err e)
          | Some (Ok beams) =>
              Some (RT_wl s (match table with Some _ => true | None => false end) (m_phisym o) g n_abs beams G)
          end
      end
  end.
