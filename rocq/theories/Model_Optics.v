(* Model of the optics and geometry used while tracing a ray: calc_R, decide_RT_Fresnel,
   decide_RT_TMM, check_intersect, exit_side (ray_tracing/rt.py).

   Refractive indices are real and positive (the imaginary part only enters calc_R and, for
   decide_RT_TMM, the refraction direction; complex indices: Model_OpticsC).
   Vectors are exact reals; random draws are arguments. *)
From Coq Require Import Reals List Bool ZArith.
From Verif Require Import Base.
Import ListNotations.
Open Scope R_scope.

(* ---------- vectors (numpy arrays of length 3) ---------- *)

(* rt.py:1887-1895, 2228-2250 *)
Record vec := mkv { vx : R; vy : R; vz : R }.
Definition vadd (a b : vec) := mkv (vx a + vx b) (vy a + vy b) (vz a + vz b).
Definition vsub (a b : vec) := mkv (vx a - vx b) (vy a - vy b) (vz a - vz b).
Definition vscale (c : R) (a : vec) := mkv (c * vx a) (c * vy a) (c * vz a).
Definition vneg (a : vec) := mkv (- vx a) (- vy a) (- vz a).
Definition dot (a b : vec) := vx a * vx b + vy a * vy b + vz a * vz b.
Definition cross (a b : vec) :=
  mkv (vy a * vz b - vz a * vy b) (vz a * vx b - vx a * vz b) (vx a * vy b - vy a * vx b).
(* np.linalg.norm; rt.py:1893, 1897, 2250 *)
Definition norm (a : vec) := sqrt (dot a a).

(* ---------- Fresnel reflectance ---------- *)

(* rt.py:1511-1518 *)
Inductive pol := PolS | PolP | PolU.

(* rt.py:1495-1518; np.arcsin of a real argument in [-1, 1] *)
Definition calc_R (n1 n2 theta : R) (p : pol) : R :=
  let theta_t := asin (n1 / n2 * sin theta) in
  let Rs := Rabs ((n1 * cos theta - n2 * cos theta_t) /
                  (n1 * cos theta + n2 * cos theta_t)) ^ 2 in
  let Rp := Rabs ((n1 * cos theta_t - n2 * cos theta) /
                  (n1 * cos theta_t + n2 * cos theta)) ^ 2 in
  match p with
  | PolS => Rs
  | PolP => Rp
  | PolU => (Rs + Rp) / 2
  end.

(* np.clip; rt.py:1879 *)
Definition clip (x lo hi : R) : R := if Rltb x lo then lo else if Rltb hi x then hi else x.

(* cmath.sqrt followed by np.real: the square root of a negative number is imaginary; rt.py:1893-1895, 1921-1924 *)
Definition real_sqrt (x : R) : R := if Rltb x 0 then 0 else sqrt x.

(* rt.py:1897, 1914, 1925 *)
Definition normalise (d : vec) : vec := vscale (/ norm d) d.

(* d - 2 * np.dot(d, N) * N; rt.py:1887, 1913 *)
Definition reflect (d N : vec) : vec := vsub d (vscale (2 * dot d N) N).

(* rt.py:1892-1895 and 1920-1924: np.real(tr_par + tr_perp) *)
Definition refract (n0 n1 : R) (d N : vec) : vec :=
  let tr_par := vscale (n0 / n1) (vsub d (vscale (dot d N) N)) in
  let tr_perp := vscale (- real_sqrt (1 - norm tr_par ^ 2)) N in
  vadd tr_par tr_perp.

(* reflectance used by decide_RT_Fresnel, rt.py:1879-1884 *)
Definition fresnel_R (n0 n1 theta : R) (p : pol) : R :=
  let ratio := clip (n1 / n0) (-1) 1 in
  if Rltb (asin ratio) (Rabs theta) then 1 else calc_R n0 n1 (Rabs theta) p.

(* rt.py:1878-1899: direction, side, absorbed *)
Definition decide_RT_Fresnel (n0 n1 theta : R) (d N : vec) (side : Z) (p : pol) (rnd : R)
  : vec * Z * option (list R) :=
  if Rleb rnd (fresnel_R n0 n1 theta p)
  then (normalise (reflect d N), side, None)
  else (normalise (refract n0 n1 d N), (- side)%Z, None).

(* The entry of a lookup table selected for one side, polarisation, angle and wavelength.  rt.py:1903-1909 *)
Record table_entry := { te_R : R; te_T : R; te_A : list R }.

(* rt.py:1903-1905, .sel(angle=..., method="nearest"): the entry whose angle is nearest *)
Definition nearest (angles : list R) (x : R) : res nat :=
  argmin Rltb (map (fun a => Rabs (a - x)) angles).

(* rt.py:1902-1932, given the selected entry *)
Definition decide_RT_TMM (e : table_entry) (n0 n1 : R) (d N : vec) (side : Z) (rnd : R)
  : vec * Z * option (list R) :=
  if Rleb rnd (te_R e) then (normalise (reflect d N), side, None)
  else if Rltb (te_R e) rnd && Rleb rnd (te_R e + te_T e)
  then (normalise (refract n0 n1 d N), (- side)%Z, None)
  else (d, side, Some (te_A e)).

(* rt.py:1902-1932 with the selection, for one wavelength, side and polarisation *)
Definition decide_RT_lookup (angles : list R) (entries : list table_entry) (n0 n1 theta : R)
  (d N : vec) (side : Z) (rnd : R) : res (vec * Z * option (list R)) :=
  rbind (nearest angles (Rabs theta)) (fun i =>
  match nth_error entries i with
  | None => Err IndexError
  | Some e => Ok (decide_RT_TMM e n0 n1 d N side rnd)
  end).

(* ---------- ray - surface intersection ---------- *)

(* One triangle of an RTSurface: corners, crossP and unit normal N (rt.py:1387-1391) *)
Record tri := { t_P0 : vec; t_P1 : vec; t_P2 : vec }.
Definition t_cross (T : tri) : vec :=
  cross (vsub (t_P1 T) (t_P0 T)) (vsub (t_P2 T) (t_P0 T)).
Definition t_N (T : tri) : vec := vscale (/ norm (t_cross T)) (t_cross T).

Definition tol : R := 1 / 10 ^ 10.

(* rt.py:2228-2238 for one triangle: Some t if which_intersect is True.  A zero determinant gives
   an infinite or undefined pref; then u and v are infinite or NaN and the test is False. *)
Definition hit_t (r_a d : vec) (T : tri) : option R :=
  let D := vneg d in
  let den := dot D (t_cross T) in
  if Reqb den 0 then None else
  let pref := 1 / den in
  let corner := vsub r_a (t_P0 T) in
  let t := pref * dot (t_cross T) corner in
  let u := pref * dot (cross (vsub (t_P2 T) (t_P0 T)) D) corner in
  let v := pref * dot (cross D (vsub (t_P1 T) (t_P0 T))) corner in
  if Rleb (u + v) 1 && (Rleb (- tol) u && Rleb (- tol) v) && Rltb 0 t then Some t else None.

Record hit := { h_point : vec; h_theta : R; h_N : vec }.

(* rt.py:2225-2254; None: returns False *)
Definition check_intersect (r_a d : vec) (surf : list tri) : option hit :=
  let hits := flat_map (fun T => match hit_t r_a d T with Some t => [(t, T)] | None => [] end) surf in
  match argmin Rltb (map fst hits) with
  | Err _ => None
  | Ok ind =>
      match nth_error hits ind with
      | None => None
      | Some (t, T) =>
          let N := t_N T in
          Some {| h_point := vadd r_a (vscale t d);
                  h_theta := atan (norm (cross N (vneg d)) / dot N (vneg d));
                  h_N := N |}
      end
  end.

(* ---------- periodic boundaries ---------- *)

(* t along the ray to each of the four walls; None stands for float("inf").
   rt.py:1521-1534, walls in the order top (y = Ly), right (x = Lx), bottom, left *)
Definition wall_ts (r_a d : vec) (Lx Ly : R) : list (option R) :=
  let n := [mkv 0 (-1) 0; mkv (-1) 0 0; mkv 0 1 0; mkv 1 0 0] in
  let p_0 := [mkv 0 Ly 0; mkv Lx 0 0; mkv 0 0 0; mkv 0 0 0] in
  map2 (fun ni pi =>
    let den0 := dot d ni in
    let den := if Reqb den0 0 then 1 / 10 ^ 12 else den0 in
    let t := dot (vsub pi r_a) ni / den in
    if Rltb 0 t then Some t else None) n p_0.

Definition olt (a b : option R) : bool :=
  match a, b with
  | Some x, Some y => Rltb x y
  | Some _, None => true
  | None, _ => false
  end.

(* rt.py:1535-1537: index of the side and t (None: infinity) *)
Definition exit_side (r_a d : vec) (Lx Ly : R) : nat * option R :=
  let t := wall_ts r_a d Lx Ly in
  match argmin olt t with
  | Ok i => (i, nth i t None)
  | Err _ => (0%nat, None)   (* not reached: t has four entries *)
  end.

(* rt.py:1957: translations for [top, right, bottom, left] *)
Definition translation (Lx Ly : R) (which : nat) : vec :=
  nth which [mkv 0 (- Ly) 0; mkv (- Lx) 0 0; mkv 0 Ly 0; mkv Lx 0 0] (mkv 0 0 0).
