(* Model of single_interface_check, single_cell_check and single_ray_interface
   (ray_tracing/rt.py:1779-1853, 1935-2222).

   The while loops are step functions run with fuel; None means "still running".  Everything random
   is an argument: the k-th draw of random(), the k-th random restart position, the surface after k
   calls of refresh() (a constant sequence for surfaces that are not random).  A position whose
   coordinates became NaN (multiplying an infinite t by a zero component of d, or dividing by a zero
   d[2]) is None; numpy then finds no intersection. *)
From Coq Require Import Reals List Bool ZArith.
From Verif Require Import Base Model_Optics Model_OpticsC.
Import ListNotations.
Open Scope R_scope.

Record surface := { s_tris : list tri; s_zmin : R; s_zmax : R }.

(* decide[Fr_or_TMM](n0, n1, theta, d, N, side, ...) as a function of side, theta, d, N, rnd;
   rt.py:2075-2087 choose n0 and n1 by side *)
Definition decision := Z -> R -> vec -> vec -> R -> vec * Z * option (list R).

Definition fresnel_decision (ni nj : R) (p : pol) : decision :=
  fun side theta d N rnd =>
    if Z.eqb side 1 then decide_RT_Fresnel ni nj theta d N side p rnd
    else decide_RT_Fresnel nj ni theta d N side p rnd.

(* entry side angle: the table entry found for this side and angle; rt.py:2075-2087 *)
Definition table_decision (ni nj : R) (entry : Z -> R -> table_entry) : decision :=
  fun side theta d N rnd =>
    if Z.eqb side 1 then decide_RT_TMM (entry side (Rabs theta)) ni nj d N side rnd
    else decide_RT_TMM (entry side (Rabs theta)) nj ni d N side rnd.

(* the same with complex indices; rt.py:2075-2087 *)
Definition fresnel_decision_c (ni nj : cplx) (p : pol) : decision :=
  fun side theta d N rnd =>
    if Z.eqb side 1 then decide_RT_Fresnel_c ni nj theta d N side p rnd
    else decide_RT_Fresnel_c nj ni theta d N side p rnd.
Definition table_decision_c (ni nj : cplx) (entry : Z -> R -> table_entry) : decision :=
  fun side theta d N rnd =>
    if Z.eqb side 1 then decide_RT_TMM_c (entry side (Rabs theta)) ni nj d N side rnd
    else decide_RT_TMM_c (entry side (Rabs theta)) nj ni d N side rnd.

(* np.sign; rt.py:2034, 2155 *)
Definition sgn (x : R) : Z := if Rltb x 0 then (-1)%Z else if Rltb 0 x then 1%Z else 0%Z.

(* rt.py:1966-1994, 2025, 2083-2087 *)
Record env := {
  e_surf : nat -> surface;      (* after k refreshes *)
  e_rnd : nat -> R;             (* k-th draw *)
  e_xy : nat -> R * R;          (* k-th pair np.random.rand(), np.random.rand() *)
  e_Lx : R; e_Ly : R;
  e_dec : decision }.

(* rt.py:2004, 2034-2040, 2098-2099 *)
Inductive outcome :=
| OReflected (o_t : R)               (* 0, polar angle *)
| OTransmitted (o_t : R)             (* 1, polar angle *)
| OAbsorbed (A : list R).            (* 2, absorption per layer *)

(* what is returned: final_res and o_t, r_a, d, local theta, n_interactions, side; rt.py:2004, 2051-2060, 2102-2111 *)
Record iresult := {
  r_out : outcome; r_pos : option vec; r_dir : vec; r_loc : R; r_nint : nat; r_side : Z }.

(* rt.py:1953-1962 *)
Record istate := {
  i_r : option vec; i_d : vec; i_side : Z;
  i_checked : bool;             (* checked_translation *)
  i_misses : nat; i_i1 : nat;
  i_theta : option R;           (* the local variable theta; None: not assigned yet *)
  i_nint : nat;
  i_ref : nat }.                (* number of refreshes so far *)

(* rt.py:2013-2020, 2042-2049 *)
Definition set_x (r : vec) (x : R) := mkv x (vy r) (vz r).
Definition set_y (r : vec) (y : R) := mkv (vx r) y (vz r).

(* rt.py:2013-2020 and 2042-2049 *)
Definition wrap_cell (Lx Ly : R) (r : vec) : vec :=
  let r := if Rltb Lx (vx r) || Rltb (vx r) 0 then set_x r (pymod (vx r) Lx) else r in
  if Rltb Ly (vy r) || Rltb (vy r) 0 then set_y r (pymod (vy r) Ly) else r.

(* np.real(acos(d[2] / np.linalg.norm(d))); rt.py:2002, 2031, 2152 *)
Definition polar (d : vec) : R := acos (vz d / norm d).

(* rt.py:1966, 2146 *)
Definition check_pos (r : option vec) (d : vec) (S : surface) : option hit :=
  match r with None => None | Some r => check_intersect r d (s_tris S) end.

(* rt.py:2008-2010; for a NaN position r_a[2] is infinite on the far side or NaN: False *)
Definition still_inside (side : Z) (d : vec) (r : option vec) (S : surface) : bool :=
  match r with
  | None => false
  | Some r => (Z.eqb side 1 && Rltb (vz d) 0 && Rltb (s_zmin S) (vz r))
              || (Z.eqb side (-1) && Rltb 0 (vz d) && Rltb (vz r) (s_zmax S))
  end.

(* one iteration of the loop of single_interface_check, rt.py:1961-2111;
   d0z is the z component of the incoming direction *)
Definition istep (E : env) (d0z : R) (st : istate) : istate + res iresult :=
  let i1 := S (i_i1 st) in
  let S0 := e_surf E (i_ref st) in
  let d := i_d st in
  match check_pos (i_r st) d S0 with
  | None =>
      if negb (i_checked st) then
        if Nat.ltb 1 i1 then                                    (* rt.py:1968-1973 *)
          inl {| i_r := match i_r st with
                        | Some r => Some (vadd r (translation (e_Lx E) (e_Ly E)
                                                   (fst (exit_side r d (e_Lx E) (e_Ly E)))))
                        | None => None end;
                 i_d := d; i_side := i_side st; i_checked := true; i_misses := i_misses st;
                 i_i1 := i1; i_theta := i_theta st; i_nint := i_nint st; i_ref := S (i_ref st) |}
        else if Nat.ltb (i_misses st) 100 then                  (* rt.py:1976-1994 *)
          let '(x, y) := e_xy E (i_misses st) in
          inl {| i_r := Some (if Rltb (vz d) 0
                              then mkv (x * e_Lx E) (y * e_Ly E) (s_zmax S0 + 1 / 100)
                              else mkv (x * e_Lx E) (y * e_Ly E) (s_zmin S0 - 1 / 100));
                 i_d := d; i_side := i_side st; i_checked := false; i_misses := S (i_misses st);
                 i_i1 := 0; i_theta := i_theta st; i_nint := i_nint st; i_ref := i_ref st |}
        else                                                    (* rt.py:1997-2004 *)
          let d' := mkv (vx d) (vy d) (- vz d) in
          inr (Ok {| r_out := OReflected (polar d'); r_pos := i_r st; r_dir := d'; r_loc := 0;
                     r_nint := i_nint st; r_side := i_side st |})
      else if still_inside (i_side st) d (i_r st) S0 then       (* rt.py:2008-2027 *)
        inl {| i_r := match i_r st with
                      | Some r =>
                          let r1 := wrap_cell (e_Lx E) (e_Ly E) r in
                          match exit_side r1 d (e_Lx E) (e_Ly E) with
                          | (ex, Some t) => Some (vadd (vadd r1 (vscale t d))
                                                       (translation (e_Lx E) (e_Ly E) ex))
                          | (_, None) => None
                          end
                      | None => None end;
               i_d := d; i_side := i_side st; i_checked := true; i_misses := i_misses st;
               i_i1 := i1; i_theta := i_theta st; i_nint := i_nint st; i_ref := S (i_ref st) |}
      else                                                      (* rt.py:2029-2060 *)
        match i_theta st with
        | None => inr (Err UnboundLocalError)
        | Some theta =>
            let o_t := polar d in
            inr (Ok {| r_out := if Z.eqb (sgn d0z) (sgn (vz d)) then OTransmitted o_t
                                else OReflected o_t;
                       r_pos := option_map (wrap_cell (e_Lx E) (e_Ly E)) (i_r st);
                       r_dir := d; r_loc := theta; r_nint := i_nint st; r_side := i_side st |})
        end
  | Some h =>                                                   (* rt.py:2062-2111 *)
      let N := vscale (IZR (i_side st)) (h_N h) in
      let '(d', side', A) := e_dec E (i_side st) (h_theta h) d N (e_rnd E (i_nint st)) in
      let r' := Some (vadd (h_point h) (vscale (1 / 10 ^ 9) d')) in
      match A with
      | None =>
          inl {| i_r := r'; i_d := d'; i_side := side'; i_checked := false;
                 i_misses := i_misses st; i_i1 := i1; i_theta := Some (h_theta h);
                 i_nint := S (i_nint st); i_ref := i_ref st |}
      | Some A =>
          inr (Ok {| r_out := OAbsorbed A; r_pos := r'; r_dir := d'; r_loc := h_theta h;
                     r_nint := S (i_nint st); r_side := side' |})
      end
  end.

Fixpoint irun (fuel : nat) (E : env) (d0z : R) (st : istate) : option (res iresult) :=
  match fuel with
  | O => None
  | S n => match istep E d0z st with
           | inl st' => irun n E d0z st'
           | inr o => Some o
           end
  end.

(* rt.py:1953-1959 *)
Definition istart (r : option vec) (d : vec) (side : Z) (n_int : nat) : istate :=
  {| i_r := r; i_d := d; i_side := side; i_checked := false; i_misses := 0; i_i1 := 0;
     i_theta := None; i_nint := n_int; i_ref := 0 |}.

Definition single_interface_check (fuel : nat) (E : env) (r : option vec) (d : vec) (side : Z)
  (n_int : nat) : option (res iresult) :=
  irun fuel E (vz d) (istart r d side n_int).

(* single_cell_check (used when options["periodic"] is 0), rt.py:2114-2222: theta starts at 0 and
   the first miss ends the loop *)
Fixpoint cell_run (fuel : nat) (E : env) (d0z : R) (r : option vec) (d : vec) (side : Z)
  (theta : R) (n_int : nat) : option iresult :=
  match fuel with
  | O => None
  | S n =>
      match check_pos r d (e_surf E 0) with
      | None =>
          let o_t := polar d in
          Some {| r_out := if Z.eqb (sgn d0z) (sgn (vz d)) then OTransmitted o_t else OReflected o_t;
                  r_pos := r; r_dir := d; r_loc := theta; r_nint := n_int; r_side := side |}
      | Some h =>
          let N := vscale (IZR side) (h_N h) in
          let '(d', side', A) := e_dec E side (h_theta h) d N (e_rnd E n_int) in
          let r' := Some (vadd (h_point h) (vscale (1 / 10 ^ 9) d')) in
          match A with
          | None => cell_run n E d0z r' d' side' (h_theta h) (S n_int)
          | Some A => Some {| r_out := OAbsorbed A; r_pos := r'; r_dir := d'; r_loc := h_theta h;
                              r_nint := S n_int; r_side := side' |}
          end
      end
  end.

Definition single_cell_check (fuel : nat) (E : env) (r : option vec) (d : vec) (side : Z)
  (n_int : nat) : option iresult :=
  cell_run fuel E (vz d) r d side 0 n_int.

(* ---------- single_ray_interface ---------- *)

(* rt.py:1799-1804: the crossing point at height zcov is moved into the cell; None: d[2] = 0.
   E1 is the environment of the j-th surface check, surfs[0] its surface at the start. *)
Definition place (Lx Ly zcov : R) (r : option vec) (d : vec) : option vec :=
  match r with
  | None => None
  | Some r =>
      if Reqb (vz d) 0 then None else
      let x := vx r - Lx * pyfloordiv (vx r + vx d * (zcov - vz r) / vz d) Lx in
      let y := vy r - Ly * pyfloordiv (vy r + vy d * (zcov - vz r) / vz d) Ly in
      Some (mkv x y (vz r))
  end.

(* theta returned (10: absorbed), surface_A as (absorption per layer, local theta), and the
   number of single_interface_check calls made; phi is not modelled *)
Record ray_out := { ro_theta : R; ro_A : option (list R); ro_loc : R; ro_dir : vec; ro_checks : nat }.

(* one surface, two media: rt.py:1779-1853.  env and zcov for each surface; python indexing of the
   list of surfaces (surf_index may become -1). *)
Fixpoint ray_iface (outer fuel : nat) (surfs : list (env * R)) (r : option vec) (d : vec)
  (direction mat_index surf_index : Z) (n : nat) : option (res ray_out) :=
  match outer with
  | O => None
  | S o =>
      match py_index surfs surf_index with
      | Err e => Some (Err e)
      | Ok (E, zcov) =>
          let r := place (e_Lx E) (e_Ly E) zcov r d in
          match single_interface_check fuel E r d direction 0 with
          | None => None
          | Some (Err e) => Some (Err e)
          | Some (Ok res) =>
              let fin (theta : R) (A : option (list R)) (loc : R) :=
                Some (Ok {| ro_theta := theta; ro_A := A; ro_loc := loc; ro_dir := r_dir res;
                            ro_checks := S n |}) in
              let stop_now (dir mat : Z) :=
                (Z.eqb dir 1 && Z.eqb mat 1) || (Z.eqb dir (-1) && Z.eqb mat 0) in
              match r_out res with
              | OReflected th =>
                  let dir := (- direction)%Z in
                  if stop_now dir mat_index then fin th None 10
                  else ray_iface o fuel surfs (r_pos res) (r_dir res) dir mat_index
                         (surf_index + dir)%Z (S n)
              | OTransmitted th =>
                  let mat := (mat_index + direction)%Z in
                  if stop_now direction mat then fin th None 10
                  else ray_iface o fuel surfs (r_pos res) (r_dir res) direction mat
                         (surf_index + direction)%Z (S n)
              | OAbsorbed A => fin 10 (Some A) (r_loc res)
              end
          end
      end
  end.

(* rt.py:1782-1793: start at r_a_0 + (x, y, 0), heading for (x, y, 0) *)
Definition single_ray_interface (outer fuel : nat) (surfs : list (env * R)) (r_a_0 : vec) (x y : R)
  : option (res ray_out) :=
  let r_a := vadd r_a_0 (mkv x y 0) in
  let r_b := mkv x y 0 in
  let d := vscale (/ norm (vsub r_b r_a)) (vsub r_b r_a) in
  ray_iface outer fuel surfs (Some r_a) d 1 0 0 0.
