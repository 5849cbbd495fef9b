(* Model of rayflare/analytic/diffraction.py, for one wavelength where it treats wavelengths separately.
   Refractive indices are real (k = 0) and positive.  The reciprocal lattice returned by S4 is an argument. *)
From Coq Require Import Reals List ZArith Bool.
From Verif Require Import Base Model_Angles Model_Ideal.
Import ListNotations.
Open Scope R_scope.

(* diffraction.py:85-86, 146-154 *)
Definition v2 := (R * R)%type.
Definition dot2 (a b : v2) : R := fst a * fst b + snd a * snd b.
(* np.dot([[0, -1], [1, 0]], a), diffraction.py:151 *)
Definition rot (a : v2) : v2 := (- snd a, fst a).
Definition scale2 (c : R) (a : v2) : v2 := (c * fst a, c * snd a).
Definition norm2 (a : v2) : R := sqrt (fst a * fst a + snd a * snd a).

(* diffraction.py:153-154; size = (a1, a2) *)
Definition recip1 (a1 a2 : v2) : v2 := scale2 (2 * PI / dot2 a1 (rot a2)) (rot a2).
Definition recip2 (a1 a2 : v2) : v2 := scale2 (2 * PI / dot2 a2 (rot a1)) (rot a1).

(* diffraction.py:81-83, 132-133 *)
Definition order := (Z * Z)%type.
(* m1 b1 + m2 b2; diffraction.py:85-86, 106-107, 159-160 *)
Definition order_vec (b1 b2 : v2) (m : order) : v2 :=
  (IZR (fst m) * fst b1 + IZR (snd m) * fst b2, IZR (fst m) * snd b1 + IZR (snd m) * snd b2).

(* diffraction.py:156-165 *)
Definition group_kxy (a1 a2 : v2) (basis : list order) : list R :=
  map (fun m => norm2 (order_vec (recip1 a1 a2) (recip2 a1 a2) m)) basis.

(* np.round(x, 10): to the nearest multiple of 1e-10, ties to even; diffraction.py:168, 180 *)
Definition rint (x : R) : Z :=
  let f := Zfloor x in
  if Rltb (x - IZR f) (1 / 2) then f
  else if Rltb (1 / 2) (x - IZR f) then (f + 1)%Z
  else if Z.even f then f else (f + 1)%Z.
Definition round10 (x : R) : R := IZR (rint (x * 10 ^ 10)) / 10 ^ 10.

(* position of x in a list without duplicates (return_inverse of np.unique); diffraction.py:167-173 *)
Fixpoint find_pos (x : R) (l : list R) : nat :=
  match l with [] => O | y :: r => if Reqb x y then O else S (find_pos x r) end.
Definition count (x : R) (l : list R) : nat := length (filter (Reqb x) l).

(* diffraction.py:176-177 for one wavelength *)
Fixpoint add_powers (acc : list R) (inds : list nat) (row : list R) (j1 : nat) : res (list R) :=
  match inds with
  | [] => Ok acc
  | i :: r => rbind (py_index row (Z.of_nat j1)) (fun p => add_powers (set_nth i (nth i acc 0 + p) acc) r row (S j1))
  end.

(* diffraction.py:178 *)
Fixpoint collect (acc : list (list R)) (inds : list nat) (row : list R) (j1 : nat) : res (list (list R)) :=
  match inds with
  | [] => Ok acc
  | i :: r => rbind (py_index row (Z.of_nat j1)) (fun p => collect (set_nth i (nth i acc [] ++ [p]) acc) r row (S j1))
  end.

(* diffraction.py:182-190 *)
Record grouped := mk_grouped { gr_kxy : list R; gr_reps : list nat; gr_power : list (list R); gr_degen : list nat }.

(* diffraction.py:125-190 with per_order given (rows: wavelengths, columns: orders).  An empty basis_set
   raises IndexError in line 159. *)
Definition group_orders (a1 a2 : v2) (basis : list order) (per_order : list (list R)) : res grouped :=
  match basis with
  | [] => Err IndexError
  | _ =>
      let k := map round10 (group_kxy a1 a2 basis) in
      let u := np_unique k in
      let inds := map (fun x => find_pos x u) k in
      rbind (rmap (fun row => add_powers (repeat 0 (length u)) inds row 0) per_order) (fun power =>
      rbind (py_index per_order 0) (fun row0 =>
      rbind (collect (repeat [] (length u)) inds row0 0) (fun indiv =>
      Ok (mk_grouped u (map (fun x => count x k) u) power
            (map (fun x => length (np_unique (map round10 x))) indiv)))))
  end.

(* ---------------- directions of the orders ---------------- *)

(* np.arange(-m_max, m_max + 1); np.meshgrid(xy, xy) flattened, diffraction.py:81-83: xv varies fastest *)
Definition order_range (m_max : nat) : list Z := map (fun i => (Z.of_nat i - Z.of_nat m_max)%Z) (seq 0 (2 * m_max + 1)).
Definition all_orders (m_max : nat) : list order :=
  flat_map (fun y => map (fun x => (x, y)) (order_range m_max)) (order_range m_max).

(* diffraction.py:78-79 (rcwa.py:403-408, 590-595) *)
Definition f_inc (wl n theta phi : R) : v2 := (n / wl * sin theta * sin phi, n / wl * sin theta * cos phi).
(* diffraction.py:85-86 (rcwa.py:410-411, 597-598); rl = (g1, g2) *)
Definition f_order (fi : v2) (g1 g2 : v2) (m : order) : v2 :=
  (fst fi + (IZR (fst m) * fst g1 + IZR (snd m) * fst g2), snd fi + (IZR (fst m) * snd g1 + IZR (snd m) * snd g2)).

(* np.real(np.arccos(fz / np.sqrt(fx**2 + fy**2 + fz**2))) with fz = np.sqrt((n/wl)**2 - fx**2 - fy**2) in
   complex arithmetic, diffraction.py:92-101 (rcwa.py:413-420, 600-607).  When the argument of the square root
   is negative, fz is imaginary and the real part of arccos is exactly pi/2. *)
Definition polar (n wl : R) (f : v2) : R :=
  let q := (n / wl) ^ 2 - fst f ^ 2 - snd f ^ 2 in
  if Rleb 0 q then acos (sqrt q / sqrt (fst f ^ 2 + snd f ^ 2 + q)) else PI / 2.

(* np.nan_to_num(np.arctan(fx / fy)), diffraction.py:96 (rcwa.py:416, 603); a zero denominator counts as +0 *)
Definition arctan_div (x y : R) : R :=
  if Reqb y 0 then (if Reqb x 0 then 0 else if Rltb 0 x then PI / 2 else - (PI / 2)) else atan (x / y).

(* diffraction.py:114-122 *)
Record direction := mk_dir { d_phi : R; d_r : R; d_t : R; d_f : v2 }.

(* diffraction.py:78-101 for one order *)
Definition order_direction (wl n_in n_out theta phi phi_sym : R) (g1 g2 : v2) (m : order) : direction :=
  let f := f_order (f_inc wl n_in theta phi) g1 g2 m in
  mk_dir (fold_phi (arctan_div (fst f) (snd f)) phi_sym) (polar n_in wl f) (PI - polar n_out wl f) f.

(* diffraction.py:22-122 *)
Definition get_order_directions (wl : R) (g1 g2 : v2) (m_max : nat) (n_in n_out theta phi phi_sym : R) : list direction :=
  map (order_direction wl n_in n_out theta phi phi_sym g1 g2) (all_orders m_max).

(* diffraction.py:103-112 *)
Definition directions_kxy (g1 g2 : v2) (m_max : nat) : list R :=
  map (fun m => norm2 (order_vec (scale2 (2 * PI) g1) (scale2 (2 * PI) g2) m)) (all_orders m_max).
