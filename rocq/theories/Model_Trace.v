(* Model of the loop that launches rays in RT_wl (ray_tracing/rt.py:296-332) and of the azimuth that
   single_interface_check returns (rt.py:2003, 2032, 2098-2105): from a surface, media and random draws to the
   rays counted by Model_RT.

   Signed zeros of atan2 are not modelled.  The surface each ray starts with is an argument: RT_wl hands the same
   object to every ray, which differs between rays only if it has a height distribution. *)
From Coq Require Import Reals List ZArith Bool.
From Verif Require Import Base Model_Angles Model_Ideal Model_Optics Model_RayIface Model_RT Model_Surface Model_RTStruct.
Import ListNotations.
Open Scope R_scope.

(* math.atan2; rt.py:1542, 2003, 2032, 2153 *)
Definition atan2 (y x : R) : R :=
  if Rltb 0 x then atan (y / x)
  else if Rltb x 0 then (if Rltb y 0 then atan (y / x) - PI else atan (y / x) + PI)
  else if Rltb 0 y then PI / 2 else if Rltb y 0 then - (PI / 2) else 0.

(* o_p: rt.py:2003, 2032; 0 for absorbed rays (rt.py:2102) *)
Definition out_phi (o : ray_out) : R :=
  match ro_A o with None => atan2 (vy (ro_dir o)) (vx (ro_dir o)) | Some _ => 0 end.

(* everything drawn or chosen for one ray: target position (xs, ys), draws of random(), random restart
   positions, heights drawn by refresh(); rt.py:311-324 *)
Record shot := { sh_x : R; sh_y : R; sh_rnd : nat -> R; sh_xy : nat -> R * R; sh_h : nat -> R }.

(* the surface after k calls of refresh(); rt.py:1475-1492 *)
Definition refreshed (s : rtsurf) (hs : nat -> R) (k : nat) : rtsurf :=
  fold_left (fun s i => refresh (hs i) s) (seq 0 k) s.

(* rt.py:1806-1821 *)
Definition env_of (s : rtsurf) (dec : decision) (sh : shot) : env :=
  {| e_surf := fun k => as_surface (refreshed s (sh_h sh) k); e_rnd := sh_rnd sh; e_xy := sh_xy sh;
     e_Lx := su_Lx s; e_Ly := su_Ly s; e_dec := dec |}.

(* rt.py:305-332 for one surface; max(Points[:, 2]) is h (rt.py:185); None: still running *)
Definition trace_shot (outer fuel : nat) (s : rtsurf) (dec : decision) (theta phi : R) (sh : shot) : option (res ray) :=
  match single_ray_interface outer fuel [(env_of s dec sh, su_zcov s)]
          (start_vector (lmax (zs_of (su_pts s))) theta phi) (sh_x sh) (sh_y sh) with
  | None => None
  | Some (Err e) => Some (Err e)
  | Some (Ok o) => Some (Ok {| y_out := o; y_phi := out_phi o |})
  end.
