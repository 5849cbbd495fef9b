(* calc_R, decide_RT_Fresnel and decide_RT_TMM with complex refractive indices, as they are called:
   nks has dtype complex (rt.py:180-183, 868-877).  Model_Optics has the same functions for indices
   without imaginary part; Proof_OpticsC shows that they agree there.
   Real and imaginary parts are exact reals.  np.arcsin is its principal value; on its branch cut
   (imaginary part 0, real part outside [-1, 1]) numpy goes by the sign of the zero, here +. *)
From Coq Require Import Reals List Bool ZArith.
From Verif Require Import Base Model_Optics.
Import ListNotations.
Open Scope R_scope.

Record cplx := mkc { re : R; im : R }.
Definition creal (x : R) : cplx := mkc x 0.
Definition cadd (a b : cplx) := mkc (re a + re b) (im a + im b).
Definition csub (a b : cplx) := mkc (re a - re b) (im a - im b).
Definition cmul (a b : cplx) := mkc (re a * re b - im a * im b) (re a * im b + im a * re b).
Definition cdiv (a b : cplx) :=
  let den := re b ^ 2 + im b ^ 2 in
  mkc ((re a * re b + im a * im b) / den) ((im a * re b - re a * im b) / den).
(* np.abs; rt.py:1498, 1505 *)
Definition cabs (a : cplx) : R := sqrt (re a ^ 2 + im a ^ 2).

(* np.cos, np.sin of a complex number; rt.py:1496-1507 *)
Definition ccos (a : cplx) := mkc (cos (re a) * cosh (im a)) (- (sin (re a) * sinh (im a))).
Definition csin (a : cplx) := mkc (sin (re a) * cosh (im a)) (cos (re a) * sinh (im a)).

(* np.arcsin of a complex number; rt.py:1496 *)
Definition carcsin (z : cplx) : cplx :=
  let p := cabs (cadd z (creal 1)) in
  let q := cabs (csub z (creal 1)) in
  let b := arcsinh (sqrt (((p + q) / 2) ^ 2 - 1)) in
  mkc (asin ((p - q) / 2)) (if Rltb (im z) 0 then - b else b).

(* rt.py:1495-1518 *)
Definition calc_Rc (n1 n2 : cplx) (theta : R) (p : pol) : R :=
  let theta_t := carcsin (cmul (cdiv n1 n2) (creal (sin theta))) in
  let c := creal (cos theta) in
  let Rs := cabs (cdiv (csub (cmul n1 c) (cmul n2 (ccos theta_t)))
                       (cadd (cmul n1 c) (cmul n2 (ccos theta_t)))) ^ 2 in
  let Rp := cabs (cdiv (csub (cmul n1 (ccos theta_t)) (cmul n2 c))
                       (cadd (cmul n1 (ccos theta_t)) (cmul n2 c))) ^ 2 in
  match p with
  | PolS => Rs
  | PolP => Rp
  | PolU => (Rs + Rp) / 2
  end.

(* rt.py:1879-1884 *)
Definition fresnel_Rc (n0 n1 : cplx) (theta : R) (p : pol) : R :=
  let ratio := clip (re n1 / re n0) (-1) 1 in
  if Rltb (asin ratio) (Rabs theta) then 1 else calc_Rc n0 n1 (Rabs theta) p.

(* rt.py:1878-1899: the direction after transmission depends on the real parts only *)
Definition decide_RT_Fresnel_c (n0 n1 : cplx) (theta : R) (d N : vec) (side : Z) (p : pol) (rnd : R)
  : vec * Z * option (list R) :=
  if Rleb rnd (fresnel_Rc n0 n1 theta p)
  then (normalise (reflect d N), side, None)
  else (normalise (refract (re n0) (re n1) d N), (- side)%Z, None).

(* rt.py:1920-1924: tr_par is the complex number n0 / n1 times a real vector; np.linalg.norm takes the
   absolute values of its components; np.real at the end *)
Definition refract_c (n0 n1 : cplx) (d N : vec) : vec :=
  let m := cdiv n0 n1 in
  let v := vsub d (vscale (dot d N) N) in
  let norm2 := cabs (mkc (re m * vx v) (im m * vx v)) ^ 2 + cabs (mkc (re m * vy v) (im m * vy v)) ^ 2 +
               cabs (mkc (re m * vz v) (im m * vz v)) ^ 2 in
  let tr_perp := vscale (- real_sqrt (1 - sqrt norm2 ^ 2)) N in
  vadd (vscale (re m) v) tr_perp.

(* rt.py:1902-1932, given the selected entry *)
Definition decide_RT_TMM_c (e : table_entry) (n0 n1 : cplx) (d N : vec) (side : Z) (rnd : R)
  : vec * Z * option (list R) :=
  if Rleb rnd (te_R e) then (normalise (reflect d N), side, None)
  else if Rltb (te_R e) rnd && Rleb rnd (te_R e + te_T e)
  then (normalise (refract_c n0 n1 d N), (- side)%Z, None)
  else (d, side, Some (te_A e)).
