(* Model of single_ray_stack (ray_tracing/rt.py:1545-1776) with positions and directions: every surface check is a call
   of single_interface_check or single_cell_check (Model_RayIface), and what it returns drives the bookkeeping of
   Model_RayStack.

   The surface object of a check is an argument, indexed by the number of the check and the number of refresh() calls made
   during it: refresh() changes the object for good, so that the surface met at a later check may be any other one. *)
From Coq Require Import Reals List Bool ZArith.
From Verif Require Import Base Model_Angles Model_Optics Model_OpticsC Model_RayIface Model_RayStack Model_RT Model_Surface Model_RTStruct Model_Trace.
Import ListNotations.
Open Scope R_scope.

(* surfaces[i] and tmm_kwargs_list[i]; Lx, Ly and zcov are not changed by refresh (rt.py:1475-1492) *)
Record facing := {
  f_surf : nat -> nat -> surface;
  f_Lx : R; f_Ly : R; f_zcov : R;
  f_dec : cplx -> cplx -> decision }.      (* ni, nj *)

(* a surface object as it is after the refresh() calls of earlier checks: seen k of them before check k, the i-th call
   drawing the height hs i; rt.py:1475-1492, 1656, 1697-1710 *)
Definition facing_of (s : rtsurf) (seen : nat -> nat) (hs : nat -> R) (dec : cplx -> cplx -> decision) : facing :=
  {| f_surf := fun k j => as_surface (refreshed s hs (seen k + j)); f_Lx := su_Lx s; f_Ly := su_Ly s; f_zcov := su_zcov s; f_dec := dec |}.

(* everything random: the n-th draw of random() (counted by n_interactions), and for the k-th check the restart positions
   of single_interface_check and the two draws of randomize_surface; rt.py:1663-1664, 1697-1710 *)
Record draws := { dr_rnd : nat -> R; dr_xy : nat -> nat -> R * R; dr_uv : nat -> R * R }.

(* rt.py:1545-1600 *)
Record setup := {
  u_K : stack; u_faces : list facing; u_nks : list cplx; u_draws : draws;
  u_randomize : bool; u_periodic : bool }.

(* at the head of the loop: the bookkeeping, r_a, d, n_interactions, number of checks made, and phi and th_local of the
   last one; rt.py:1585-1652 *)
Record fstate := {
  x_st : sstate; x_pos : option vec; x_dir : vec; x_nint : nat; x_checks : nat; x_phi : R; x_loc : R }.

(* rt.py:1685-1703 with the values of this check *)
Definition face_env (U : setup) (f : facing) (k : nat) (ni nj : cplx) : env :=
  {| e_surf := f_surf f k; e_rnd := dr_rnd (u_draws U); e_xy := dr_xy (u_draws U) k;
     e_Lx := f_Lx f; e_Ly := f_Ly f; e_dec := f_dec f ni nj |}.

(* rt.py:1654-1683: position and direction handed to the check *)
Definition face_ray (U : setup) (f : facing) (k : nat) (passes : nat) (direction : Z) (r : option vec) (d : vec) : option vec * vec :=
  let '(r, d) := if u_randomize U && Nat.ltb 0 passes
                 then let '(p, d') := randomized (f_Lx f) (f_Ly f) (s_zmin (f_surf f k 0)) (s_zmax (f_surf f k 0)) (f_zcov f)
                                        (fst (dr_uv (u_draws U) k)) (snd (dr_uv (u_draws U) k)) direction d in (Some p, d')
                 else (r, d) in
  (if u_periodic U then place (f_Lx f) (f_Ly f) (f_zcov f) r d else r, d).

(* o_p as returned (rt.py:2003, 2032, 2102, 2156, 2216) *)
Definition check_phi (res : iresult) : R :=
  match r_out res with OAbsorbed _ => 0 | _ => atan2 (vy (r_dir res)) (vx (r_dir res)) end.

(* one iteration of the loop, rt.py:1650-1762; None: the check is still running *)
Definition fstep (fuel : nat) (U : setup) (st : fstate) : option (res (fstate + fstate)) :=
  let s := x_st st in
  match py_index (u_faces U) (s_surf s) with
  | Err e => Some (Err e)
  | Ok f =>
      let '(r, d) := face_ray U f (x_checks st) (s_passes s) (s_dir s) (x_pos st) (x_dir st) in
      match rbind (py_index (u_nks U) (if Z.eqb (s_dir s) 1 then s_mat s else s_mat s - 1)%Z) (fun ni =>
            rbind (py_index (u_nks U) (if Z.eqb (s_dir s) 1 then s_mat s + 1 else s_mat s)%Z) (fun nj => Ok (ni, nj))) with
      | Err e => Some (Err e)
      | Ok (ni, nj) =>
          let E := face_env U f (x_checks st) ni nj in
          match (if u_periodic U then single_interface_check fuel E r d (s_dir s) (x_nint st)
                 else option_map Ok (single_cell_check fuel E r d (s_dir s) (x_nint st))) with
          | None => None
          | Some (Err e) => Some (Err e)
          | Some (Ok res) =>
              let after (s' : sstate) := {| x_st := s'; x_pos := Model_RayIface.r_pos res; x_dir := r_dir res; x_nint := r_nint res;
                                            x_checks := S (x_checks st); x_phi := check_phi res; x_loc := r_loc res |} in
              match sstep (u_K U) s (r_out res) with
              | Err e => Some (Err e)
              | Ok (inl s') => Some (Ok (inl (after s')))
              | Ok (inr s') => Some (Ok (inr (after s')))
              end
          end
      end
  end.

Fixpoint frun (outer fuel : nat) (U : setup) (st : fstate) : option (res fstate) :=
  match outer with
  | O => None
  | S n =>
      match fstep fuel U st with
      | None => None
      | Some (Err e) => Some (Err e)
      | Some (Ok (inr st')) => Some (Ok st')
      | Some (Ok (inl st')) => frun n fuel U st'
      end
  end.

(* rt.py:1585-1652; phi and th_local are not assigned before the first check *)
Definition fstart (U : setup) (r_a_0 : vec) (x y : R) (mat_i direction_i : Z) : res fstate :=
  rbind (stack_start (k_widths (u_K U)) r_a_0 x y mat_i direction_i) (fun pds =>
  Ok {| x_st := sstart (u_K U) mat_i direction_i; x_pos := Some (fst (fst pds)); x_dir := snd (fst pds);
        x_nint := 0; x_checks := 0; x_phi := 0; x_loc := 0 |}).

Definition trace_stack (outer fuel : nat) (U : setup) (r_a_0 : vec) (x y : R) (mat_i direction_i : Z) : option (res fstate) :=
  match fstart U r_a_0 x y mat_i direction_i with
  | Err e => Some (Err e)
  | Ok st => frun outer fuel U st
  end.
