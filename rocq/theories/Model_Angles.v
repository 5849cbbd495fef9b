(* Model of rayflare/angles.py *)
From Coq Require Import Reals List ZArith Bool.
From Verif Require Import Base.
Import ListNotations.
Open Scope R_scope.

(* angles.py:29,40 theta_spacing.  Any other string leaves theta_intv unassigned and line 45
   raises UnboundLocalError. *)
Inductive spacing := SpSin | SpLinear | SpOther.

(* angles.py:30-37 / 41-43: edges between 0 and 90 degrees *)
Definition half_edges (sp : spacing) (n : nat) : list R :=
  match sp with
  | SpSin => map asin (linspace 0 1 (n + 1))
  | _ => linspace 0 (PI / 2) (n + 1)
  end.

(* angles.py:36-38, 43: np.concatenate([h, np.pi - np.flip(h[:-1])]) *)
Definition theta_edges (sp : spacing) (n : nat) : list R :=
  let h := half_edges sp n in
  h ++ map (fun t => PI - t) (rev (removelast h)).

(* angles.py:50-53 *)
Definition ring_ind (len_intv i1 : nat) (theta : R) : nat :=
  if Rltb (PI / 2) theta then (len_intv - (i1 + 1))%nat else (i1 + 1)%nat.

(* angles.py:55  np.linspace(0, phi_sym, int(np.ceil(c_azimuth * ind) + 1)).
   Z.to_nat is exact for c_azimuth >= 0 (negative counts are a ValueError in numpy, excluded by
   the hypothesis 0 < c_azimuth of the theorems). *)
Definition phi_edges (phi_sym c : R) (ind : nat) : list R :=
  linspace 0 phi_sym (Z.to_nat (Zceil (c * INR ind) + 1)).

(* one row of angle_vector: r index (theta bin), mean theta, mean phi  (angles.py:58-68) *)
Record arow := mk_arow { a_ring : nat; a_theta : R; a_phi : R }.

Record grid := mk_grid {
  g_theta_intv : list R;
  g_phi_intv : list (list R);
  g_av : list arow }.

(* angles.py:45-70, the loop over theta_middle *)
Definition grid_of_edges (theta_intv : list R) (phi_sym c : R) : grid :=
  let tm := middles theta_intv in
  let ring_edges := map (fun it => phi_edges phi_sym c (ring_ind (length theta_intv) (fst it) (snd it)))
                        (enumerate tm) in
  let rows := flat_map (fun it =>
                map (mk_arow (fst it) (snd it))
                    (middles (phi_edges phi_sym c (ring_ind (length theta_intv) (fst it) (snd it)))))
              (enumerate tm) in
  mk_grid theta_intv ring_edges rows.

(* angles.py:15-70 *)
Definition make_angle_vector (n_angle_bins : nat) (phi_sym c_azimuth : R) (sp : spacing) : res grid :=
  match sp with
  | SpOther => Err UnboundLocalError
  | _ => Ok (grid_of_edges (theta_edges sp n_angle_bins) phi_sym c_azimuth)
  end.

(* angles.py:73-75  (abs(phis // np.pi) * 2 * np.pi + phis) % phi_sym *)
Definition fold_phi (phi phi_sym : R) : R :=
  pymod (Rabs (pyfloordiv phi PI) * 2 * PI + phi) phi_sym.

(* angles.py:197-200.  x has theta_bin [tb] (which may be -1) and azimuth [phi].
   phi_intv[tb] and the final use of the returned index follow Python indexing. *)
Definition overall_bin (phi_intv : list (list R)) (av : list arow) (tb : Z) (phi : R) : res Z :=
  rbind (py_index phi_intv tb) (fun edges =>
  rbind (argmin Z.ltb (map (fun r => Z.abs (Z.of_nat (a_ring r) - tb)) av)) (fun start =>
  Ok (Z.of_nat start + (Z.of_nat (digitize_right phi edges) - 1))%Z)).

(* np.digitize(theta, theta_intv, right=True) - 1, used before overall_bin in
   rt.py:354-356, tmm.py:99, rcwa.py:629-630, ideal_cases.py:136, multiply_matrices.py:121 *)
Definition theta_bin (theta_intv : list R) (theta : R) : Z :=
  (Z.of_nat (digitize_right theta theta_intv) - 1)%Z.

(* the complete binning of a direction (azimuth already folded); angles.py:197-200 after rt.py:356-381 *)
Definition bin_of (g : grid) (theta phi : R) : res Z :=
  overall_bin (g_phi_intv g) (g_av g) (theta_bin (g_theta_intv g) theta) phi.

(* ---- theta summaries ---- *)

(* columns/rows of a ring: xarray groupby on the theta coordinate; the theta value of a row
   determines its ring, so grouping by theta is grouping by ring; angles.py:113, 142 *)
Definition mean (l : list R) : R := rsum l / INR (length l).

(* angles.py:139-143  np.mean(x, axis) * len(x) *)
Definition weighted_mean (l : list R) : R := mean l * INR (length l).

Definition pick {A} (keep : nat -> bool) (rows : list arow) (l : list A) : list A :=
  map snd (filter (fun p => keep (a_ring (fst p))) (combine rows l)).

(* angles.py:78-136.  mat is a list of rows (index_out), each a list over index_in.
   av_in / av_out are the parts of angle_vector used as coordinates (lines 98-99, 108-109).
   Result: rows = theta rings out, columns = theta rings in. *)
Definition theta_summary (mat : list (list R)) (av_in av_out : list arow)
           (rings_in rings_out : list nat) : list (list R) :=
  let meaned := map (fun row => map (fun i => mean (pick (Nat.eqb i) av_in row)) rings_in) mat in
  map (fun o => map (fun ci =>
         weighted_mean (pick (Nat.eqb o) av_out (map (fun row => nth ci row 0) meaned)))
       (seq 0 (length rings_in))) rings_out.

(* angles.py:177-194: groupby("theta_in").map(np.sum) *)
Definition theta_summary_A (A_mat : list (list R)) (av_in : list arow) (rings_in : list nat)
  : list (list R) :=
  map (fun row => map (fun i => rsum (pick (Nat.eqb i) av_in row)) rings_in) A_mat.

(* np.unique of the theta coordinate, as ring numbers (the rows of angle_vector are in ring order); angles.py:89, 113-117 *)
Definition rings_of (l : list arow) : list nat := nodup Nat.eq_dec (map a_ring l).

(* angles.py:78-136 with the coordinates of lines 93-112: out rows are angle_vector[:nrows];
   in columns are angle_vector[:ncols] (front) or angle_vector[ncols:] (rear) *)
Definition theta_summary_grid (front : bool) (mat : list (list R)) (ncols : nat) (g : grid) : list (list R) :=
  let av_in := if front then firstn ncols (g_av g) else skipn ncols (g_av g) in
  let av_out := firstn (length mat) (g_av g) in
  theta_summary mat av_in av_out (rings_of av_in) (rings_of av_out).

(* angles.py:168-194 *)
Definition theta_summary_A_grid (A_mat : list (list R)) (ncols : nat) (g : grid) : list (list R) :=
  let av_in := firstn ncols (g_av g) in
  theta_summary_A A_mat av_in (rings_of av_in).
