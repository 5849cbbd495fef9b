(* Model of rayflare/matrix_formalism/ideal_cases.py (the calculations; the file handling of these
   functions is modelled in Model_Cache.v) *)
From Coq Require Import Reals List ZArith Bool.
From Verif Require Import Base Model_Angles.
Import ListNotations.
Open Scope R_scope.

(* a matrix is the list of its rows; ideal_cases.py:64-74, 149-153 *)
Definition matrix := list (list R).

(* np.unique of a float array: sorted, without duplicates; ideal_cases.py:45 *)
Fixpoint ins_unique (x : R) (l : list R) : list R :=
  match l with
  | [] => [x]
  | y :: r => if Rltb x y then x :: y :: r
              else if Reqb x y then y :: r
              else y :: ins_unique x r
  end.
Definition np_unique (l : list R) : list R := fold_right ins_unique [] l.

(* np.diff; ideal_cases.py:46 *)
Definition np_diff (l : list R) : list R := map2 (fun a b => b - a) (removelast l) (tl l).

(* ideal_cases.py:45-62: the column shared by all incidence angles, before normalisation *)
Definition lambert_column (g : grid) : list R :=
  let theta_values := np_unique (filter (fun t => Rltb t (PI / 2)) (map a_theta (g_av g))) in
  let dtheta := np_diff (filter (fun t => Rleb t (PI / 2)) (g_theta_intv g)) in
  let dP := map2 (fun t d => cos t * d) theta_values dtheta in
  let n_phis := map (fun theta => length (filter (fun r => Reqb (a_theta r) theta) (g_av g))) theta_values in
  flat_map (fun dn => repeat (fst dn / INR (snd dn)) (snd dn)) (combine dP n_phis).

(* ideal_cases.py:64-75: np.vstack([column]*h).T / np.sum(.., 0), stacked on zeros.  front_or_rear
   only selects the file name, the matrix is the same for both sides. *)
Definition lambertian_matrix (g : grid) : matrix * matrix :=
  let h := (length (g_av g) / 2)%nat in
  let column := lambert_column g in
  let R_part := map (fun x => repeat (x / rsum column) h) column in
  let T_part := map (fun _ => repeat 0 h) column in
  (R_part ++ T_part, [repeat 0 h]).

(* ideal_cases.py:121-132 *)
Inductive side := Front | Rear.

(* zeros((nrows, length pos)); m[pos, arange] = 1; ideal_cases.py:149-151 *)
Definition onehot (nrows : nat) (pos : list nat) : matrix :=
  map (fun r => map (fun p => if Nat.eqb r p then 1 else 0) pos) (seq 0 nrows).

(* ideal_cases.py:118-153 *)
Definition mirror_matrix (g : grid) (phi_symmetry : R) (s : side) : res (matrix * matrix) :=
  let h := (length (g_av g) / 2)%nat in
  let rows_in := match s with Front => firstn h (g_av g) | Rear => skipn h (g_av g) end in
  rbind (rmap (fun r => bin_of g (a_theta r) (fold_phi (a_phi r + PI) phi_symmetry)) rows_in) (fun bins =>
  rbind (rmap (py_pos (length rows_in * 2)) bins) (fun pos =>
  Ok (onehot (length rows_in * 2) pos, [repeat 0 (length rows_in)]))).
