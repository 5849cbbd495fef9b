(* Model of RT and RT_wl (ray_tracing/rt.py:28-479): from traced rays to redistribution matrices.

   The rays themselves are arguments (records returned by single_ray_interface, Model_RayIface.v,
   with the azimuth added).  Memory left uninitialised by np.divide(..., where=...) without out= is an
   argument; its values are numbers or NaN (None), infinities are not modelled.  The conversion to
   sparse matrices and the profile dataset (make_profiles_wl) are not modelled. *)
From Coq Require Import Reals List ZArith Bool.
From Verif Require Import Base Model_Angles Model_Ideal Model_MatMul Model_Optics Model_RayIface.
Import ListNotations.
Open Scope R_scope.

(* ---------- incidence directions ---------- *)

(* rt.py:86: int(np.ceil(n_rays / (nx * ny))) *)
Definition n_angles_of (n_rays nx ny : nat) : nat := Z.to_nat (Zceil (INR n_rays / INR (nx * ny))).

(* np.tile(l, reps)[:n]; rt.py:156-157 *)
Definition tile {A} (l : list A) (reps n : nat) : list A := firstn n (concat (repeat l reps)).

(* rt.py:149-157, random_ray_angles False *)
Definition regular_directions (g : grid) (n_angles : nat) : list (R * R) :=
  let angles_in := firstn (length (g_av g) / 2) (g_av g) in
  let n_reps := Z.to_nat (Zceil (INR n_angles / INR (length angles_in))) in
  tile (map (fun r => (a_theta r, a_phi r)) angles_in) n_reps n_angles.

(* ---------- one wavelength ---------- *)

(* what single_ray_interface returned for one ray; rt.py:312-332 *)
Record ray := { y_out : ray_out; y_phi : R }.

(* one incidence direction with its nx * ny rays; rt.py:301-332 *)
Record beam := { b_theta : R; b_phi : R; b_rays : list ray }.

(* rt.py:326-328: a negative angle is made positive *)
Definition theta_out (y : ray) : R := if Rltb (ro_theta (y_out y)) 0 then - ro_theta (y_out y) else ro_theta (y_out y).
Definition phi_out (y : ray) : R := if Rltb (ro_theta (y_out y)) 0 then y_phi y + PI else y_phi y.

(* A_surface_layers[i2, c] = surface_A[0] (rt.py:331): 0 is broadcast, a list must fit *)
Definition layer_A (n_abs : nat) (y : ray) : res (list R) :=
  match ro_A (y_out y) with
  | None => Ok (repeat 0 n_abs)
  | Some A => if Nat.eqb (length A) n_abs then Ok A
              else match A with [x] => Ok (repeat x n_abs) | _ => Err ValueError end
  end.

(* rt.py:337-342 *)
Definition seen_in (s : side) (theta : R) : R := match s with Front => theta | Rear => PI - theta end.
Definition seen_out (s : side) (theta : R) : R :=
  match s with Front => theta | Rear => if Rltb theta (PI + 1 / 10) then PI - theta else theta end.

(* rt.py:348-350 *)
Definition theta_intv_of (tmm : bool) (g : grid) : list R := if tmm then g_theta_intv g ++ [11] else g_theta_intv g.
Definition phi_intv_of (tmm : bool) (g : grid) : list (list R) := if tmm then g_phi_intv g ++ [[0]] else g_phi_intv g.

(* rt.py:354-381: polar bin and overall bin of a direction *)
Definition polar_bin (tmm : bool) (g : grid) (theta : R) : Z := theta_bin (theta_intv_of tmm g) theta.
Definition full_bin (tmm : bool) (g : grid) (theta phi : R) : res Z :=
  overall_bin (phi_intv_of tmm g) (g_av g) (polar_bin tmm g theta) phi.

(* a ray after binning: bin_in - offset, bin_out, binned_theta_out, per-layer absorption, binned
   local angle; rt.py:354-390 *)
Record event := { v_in : Z; v_out : Z; v_ring : Z; v_A : list R; v_loc : Z }.

(* rt.py:396-399 *)
Definition offset (s : side) (g : grid) : nat := match s with Front => 0%nat | Rear => (length (g_av g) / 2)%nat end.

(* rt.py:334-390 *)
Definition bin_ray (s : side) (tmm : bool) (phi_sym : R) (g : grid) (n_abs : nat) (c : Z) (y : ray) : res event :=
  rbind (layer_A n_abs y) (fun A =>
  rbind (full_bin tmm g (seen_out s (theta_out y)) (fold_phi (phi_out y) phi_sym)) (fun o =>
  Ok {| v_in := c; v_out := o; v_ring := polar_bin tmm g (seen_out s (theta_out y));
        v_A := A; v_loc := theta_bin (theta_intv_of tmm g) (Rabs (ro_loc (y_out y))) |})).

(* rt.py:334-390 *)
Definition bin_beam (s : side) (tmm : bool) (phi_sym : R) (g : grid) (n_abs : nat) (b : beam) : res (list event) :=
  rbind (full_bin tmm g (seen_in s (b_theta b)) (fold_phi (b_phi b) phi_sym)) (fun k =>
  rmap (bin_ray s tmm phi_sym g n_abs (k - Z.of_nat (offset s g))%Z) (b_rays b)).

(* ---------- counting, rt.py:383-413 ---------- *)

Definition add_at (l : list R) (i : nat) (x : R) : list R := set_nth i (nth i l 0 + x) l.
Definition mat_add (m : matrix) (r c : nat) (x : R) : matrix := set_nth r (add_at (nth r m []) c x) m.

Record counts := { k_out : matrix; k_A : matrix; k_n : list R; k_abs : list R; k_loc : matrix }.

Definition zeros (nr nc : nat) : matrix := repeat (repeat 0 nc) nr.

Definition count_start (tmm : bool) (g : grid) (n_abs : nat) : counts :=
  let h := (length (g_av g) / 2)%nat in
  {| k_out := zeros (length (g_av g)) h; k_A := zeros n_abs h; k_n := repeat 0 h; k_abs := repeat 0 h;
     k_loc := zeros ((length (theta_intv_of tmm g) - 1) / 2) h |}.

(* A_mat[:, c] += per_layer; rt.py:412 *)
Definition add_col (m : matrix) (c : nat) (v : list R) : matrix := map2 (fun row x => add_at row c x) m v.

(* rt.py:403-413 *)
Definition count_ray (g : grid) (K : counts) (v : event) : res counts :=
  let n_thetas := Z.of_nat (length (g_theta_intv g) - 1) in
  rbind (py_pos (length (k_n K)) (v_in v)) (fun c =>
  let n' := add_at (k_n K) c 1 in
  if Z.leb (v_ring v) (n_thetas - 1) then
    rbind (py_pos (length (k_out K)) (v_out v)) (fun r =>
    Ok {| k_out := mat_add (k_out K) r c 1; k_A := k_A K; k_n := n'; k_abs := k_abs K; k_loc := k_loc K |})
  else
    rbind (py_pos (length (k_loc K)) (v_loc v)) (fun l =>
    Ok {| k_out := k_out K; k_A := add_col (k_A K) c (v_A v); k_n := n';
          k_abs := add_at (k_abs K) c 1; k_loc := mat_add (k_loc K) l c 1 |})).

(* rt.py:401-413 *)
Fixpoint count_all (g : grid) (K : counts) (l : list event) : res counts :=
  match l with
  | [] => Ok K
  | v :: r => rbind (count_ray g K v) (fun K' => count_all g K' r)
  end.

(* ---------- normalisation, rt.py:415-445 ---------- *)

Record garbage := { gb_out : nat -> nat -> fl; gb_frac : nat -> fl; gb_scale : nat -> fl }.

(* a[np.isnan(a)] = 0; rt.py:431-432, 444 *)
Definition unnan (x : fl) : R := match x with Some v => v | None => 0 end.

(* rt.py:473-479 *)
Record rt_result := { o_mat : matrix; o_Amat : matrix; o_intgr : list R; o_local : matrix }.

(* rt.py:421, 425, 440 *)
Definition col_sum (m : matrix) (c : nat) : R := rsum (map (fun row => nth c row 0) m).

(* rt.py:415-445 *)
Definition normalise_counts (K : counts) (G : garbage) : rt_result :=
  let h := length (k_n K) in
  let cols := seq 0 h in
  let frac c := fdiv_where (nth c (k_abs K) 0) (nth c (k_n K) 0) (gb_frac G c) in
  let scale c := if Reqb (col_sum (k_A K) c) 0 then gb_scale G c
                 else fmul (frac c) (Some (/ col_sum (k_A K) c)) in
  {| o_mat := map (fun r => map (fun c => unnan (fdiv_where (nth c (nth r (k_out K) []) 0) (nth c (k_n K) 0) (gb_out G r c))) cols)
                  (seq 0 (length (k_out K)));
     o_Amat := map (fun row => map (fun c => unnan (fmul (scale c) (Some (nth c row 0)))) cols) (k_A K);
     o_intgr := map (fun c => if Reqb (nth c (k_abs K) 0) 0 then 0 else col_sum (k_A K) c / nth c (k_abs K) 0) cols;
     o_local := map (fun row => map (fun c => if Reqb (col_sum (k_loc K) c) 0 then 0
                                              else nth c row 0 / col_sum (k_loc K) c) cols) (k_loc K) |}.

(* the loops of rt.py:301-311 *)
Fixpoint rconcat {A} (l : list (res (list A))) : res (list A) :=
  match l with
  | [] => Ok []
  | x :: r => rbind x (fun a => rbind (rconcat r) (fun b => Ok (a ++ b)))
  end.

(* rt.py:268-479; tmm: Fr_or_TMM > 0 *)
Definition RT_wl (s : side) (tmm : bool) (phi_sym : R) (g : grid) (n_abs : nat) (beams : list beam) (G : garbage)
  : res rt_result :=
  rbind (rconcat (map (bin_beam s tmm phi_sym g n_abs) beams)) (fun evs =>
  rbind (count_all g (count_start tmm g n_abs) evs) (fun K =>
  Ok (normalise_counts K G))).
