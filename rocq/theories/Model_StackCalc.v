(* Model of rt_structure.calculate (ray_tracing/rt.py:797-1032) for one wavelength, from the options, the materials and the
   surface objects of the structure to the totals: the set-up of nks, alphas, widths and z_pos, the rays of parallel_inner,
   each followed by Model_StackRay, and R, A, T of Model_RayStack.

   Interface profiles (Model_Process) and the parallel loop over the wavelengths are not part of it. *)
From Coq Require Import Reals List Bool ZArith.
From Verif Require Import Base Model_Angles Model_Optics Model_OpticsC Model_RayIface Model_RayStack Model_RT Model_Surface Model_RTStruct
  Model_Trace Model_StackRay.
Import ListNotations.
Open Scope R_scope.

(* mat.n(wl) + 1j * mat.k(wl), wl in m; rt.py:877-878 *)
Definition material := R -> cplx.

(* the options read by calculate; None: not in options; rt.py:824-845, 888-929 *)
Record rt_options := {
  c_wl : R; c_theta : R; c_phi : R; c_thresh : R; c_dz : R; c_pol : pol;
  c_nx : nat; c_ny : nat; c_nrays : nat; c_xlim : option (R * R); c_ylim : option (R * R);
  c_random_pos : bool; c_randomize : bool; c_periodic : option bool; c_mat : option Z; c_dir : option Z }.

(* draws: of the positions, and of each ray; refreshes seen by surface i before the checks of ray k, and the heights drawn; rt.py:909-910, 1148-1180 *)
Record rt_draws := {
  w_x : nat -> R; w_y : nat -> R; w_ray : nat -> draws; w_seen : nat -> nat -> nat -> nat; w_hs : nat -> nat -> R }.

(* self.surfaces; rt.py:849 *)
Fixpoint read_all (S : store) (qs : list nat) : option (list rtsurf) :=
  match qs with
  | [] => Some []
  | q :: r => match surface_at S q, read_all S r with Some s, Some l => Some (s :: l) | _, _ => None end
  end.

(* rt.py:848-866, 1039-1064: the lookup table of a surface, at this wavelength, or Fresnel *)
Definition chosen (p : pol) (t : option (Z -> R -> table_entry)) (ni nj : cplx) : decision :=
  match t with None => fresnel_decision_c ni nj p | Some ent => table_decision_c ni nj ent end.

(* rt.py:840-846, 868-878 *)
Definition calc_stack (mats : list material) (widths : list R) (n_surfaces : nat) (o : rt_options) : stack :=
  let ws := map (fun w => 10 ^ 6 * w) (0 :: widths ++ [0]) in
  {| k_widths := ws; k_alphas := map (fun m => im (m (c_wl o)) * 4 * PI / (c_wl o * 10 ^ 6)) mats; k_surfaces := n_surfaces;
     k_zpos := arange0 (rsum ws) (10 ^ 6 * c_dz o); k_thresh := c_thresh o |}.

(* what single_ray_stack works with for ray k; rt.py:1152-1180 *)
Definition calc_setup (surfs : list rtsurf) (mats : list material) (widths : list R) (tables : list (option (Z -> R -> table_entry)))
    (o : rt_options) (w : rt_draws) (k : nat) : setup :=
  {| u_K := calc_stack mats widths (length surfs) o;
     u_faces := map2 (fun i st => facing_of (fst st) (w_seen w k i) (w_hs w i) (chosen (c_pol o) (snd st))) (seq 0 (length surfs)) (combine surfs tables);
     u_nks := map (fun m => m (c_wl o)) mats; u_draws := w_ray w k;
     u_randomize := c_randomize o; u_periodic := match c_periodic o with Some b => b | None => true end |}.

(* the first exception raised, or all results; None: some ray is still being traced; the loops of rt.py:1148-1151 *)
Fixpoint all_done {A} (l : list (option (res A))) : option (res (list A)) :=
  match l with
  | [] => Some (Ok [])
  | None :: _ => None
  | Some (Err e) :: _ => Some (Err e)
  | Some (Ok x) :: r => match all_done r with None => None | Some (Err e) => Some (Err e) | Some (Ok l') => Some (Ok (x :: l')) end
  end.

(* rt.py:880-960; every element of the arrays is set (C128) *)
Definition calc_rays (outer fuel : nat) (surfs : list rtsurf) (mats : list material) (widths : list R)
    (tables : list (option (Z -> R -> table_entry))) (o : rt_options) (w : rt_draws) : option (res (list fstate)) :=
  match nth_error surfs 0 with
  | None => Some (Err IndexError)
  | Some s0 =>
      let r_a_0 := start_vector (lmax (zs_of (su_pts s0))) (c_theta o) (c_phi o) in
      let xs := coords (c_random_pos o) (limits (c_xlim o) (su_xmin s0) (su_xmax s0) (su_Lx s0)) (c_nx o) (w_x w) in
      let ys := coords (c_random_pos o) (limits (c_ylim o) (su_ymin s0) (su_ymax s0) (su_Ly s0)) (c_ny o) (w_y w) in
      let mat := match c_mat o with Some m => m | None => 0%Z end in
      let dir := match c_dir o with Some d => d | None => 1%Z end in
      all_done (fill_rays None (fun k x y => trace_stack outer fuel (calc_setup surfs mats widths tables o w k) r_a_0 x y mat dir)
                          (n_reps_of (c_nrays o) (c_nx o) (c_ny o)) (c_nx o) (c_ny o) xs ys)
  end.

(* rt.py:995-1032 *)
Definition calculate (outer fuel : nat) (surfs : list rtsurf) (mats : list material) (widths : list R)
    (tables : list (option (Z -> R -> table_entry))) (o : rt_options) (w : rt_draws) : option (res (totals * list fstate)) :=
  match calc_rays outer fuel surfs mats widths tables o w with
  | None => None
  | Some (Err e) => Some (Err e)
  | Some (Ok rays) => Some (Ok (calculate_totals (calc_stack mats widths (length surfs) o) (map x_st rays), rays))
  end.
