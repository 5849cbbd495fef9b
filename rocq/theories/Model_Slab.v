(* The complete matrices stored by TMM: the columns of Model_TMM put together for all wavelengths. *)
From Coq Require Import Reals List ZArith Bool.
From Verif Require Import Base Model_Angles Model_Ideal Model_MatMul Model_TMM.
Import ListNotations.
Open Scope R_scope.

(* m[:, i] = cols[i] in an array with nrows rows; tmm.py:82, 105, 108 *)
Definition from_columns (nrows : nat) (cols : list (list R)) : matrix :=
  map (fun r => map (fun col => nth r col 0) cols) (seq 0 nrows).

(* tmm.py:60-112 make_matrix_wl.  The layer absorptions of every angle are len(layers) numbers (213-223); another
   number of them would be an error of numpy, not modelled. *)
Definition tmm_matrix_wl {M} (SV : solver M) (memory : list R) (n : M -> R) (a : tmm_args M) (s : side) (g : grid) (phi_sym : R)
  : res (matrix * matrix) :=
  let nin := length (half_rows s g) in
  rbind (rmap (tmm_matrix_column SV memory n a s g phi_sym) (seq 0 nin)) (fun cols =>
  Ok (from_columns (2 * nin) (map fst cols), from_columns (length (ar_layers a)) (map snd cols))).

(* tmm.py:339-346: one matrix per wavelength, stacked and saved.  A wavelength comes with the solver's answers and the
   refractive indices there. *)
Definition tmm_stored {M} (wls : list (solver M * (M -> R))) (memory : list R) (a : tmm_args M) (s : side) (g : grid) (phi_sym : R)
  : res stored :=
  rbind (rmap (fun w => tmm_matrix_wl (fst w) memory (snd w) a s g phi_sym) wls) (fun mats =>
  Ok (mk_stored (M3 (map fst mats)) (M3 (map snd mats)))).

(* ideal_cases.py:155-162 and 76-83: saved once for all wavelengths *)
Definition once (m : matrix * matrix) : stored := mk_stored (M2 (fst m)) (M2 (snd m)).
