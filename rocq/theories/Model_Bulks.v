(* Model of matrix_multiplication (matrix_formalism/multiply_matrices.py:294-647) for a structure with any number of bulk
   layers: the loops over bulk layers around the pass loop of Model_MatMul.  Interface and bulk profiles are left out: they
   do not influence the other results. *)
From Coq Require Import Reals List ZArith Bool.
From Verif Require Import Base Model_Angles Model_Ideal Model_MatMul.
Import ListNotations.
Open Scope list_scope.
Open Scope R_scope.

(* a BulkLayer: alpha(options["wavelength"]) of its material, and its width in m; multiply_matrices.py:62-64, 359-361 *)
Record bulk := mk_bulk { bk_alphas : list R; bk_thick : R }.

(* Tf[i1], Rb[i1], Rf[i1 + 1]; layer_names[i1] when loading; multiply_matrices.py:228-233, 400, 465, 510 *)
Definition list_item {A} (l : list A) (i : nat) : res A :=
  match nth_error l i with Some x => Ok x | None => Err IndexError end.

(* what the passes through bulk layer i use; multiply_matrices.py:358-376.  fronts: the stored matrices of all interfaces for
   light from the front; rears: those of all but the last for light from the rear *)
Definition bulk_setup (g : grid) (phi_symmetry I_thresh : R) (fronts rears : list stored) (i : nat) (b : bulk) : res mm_setup :=
  rbind (list_item fronts i) (fun f0 =>
  rbind (list_item rears i) (fun b0 =>
  rbind (list_item fronts (S i)) (fun f1 =>
  build_setup g phi_symmetry (bk_alphas b) (bk_thick b) f0 b0 f1 I_thresh))).

(* multiply_matrices.py:358-376 *)
Fixpoint bulk_setups (g : grid) (phi_symmetry I_thresh : R) (fronts rears : list stored) (i : nat) (bs : list bulk) :
  res (list mm_setup) :=
  match bs with
  | [] => Ok []
  | b :: r =>
      rbind (bulk_setup g phi_symmetry I_thresh fronts rears i b) (fun s =>
      rbind (bulk_setups g phi_symmetry I_thresh fronts rears (S i) r) (fun l => Ok (s :: l)))
  end.

(* for i1 in range(n_bulks), multiply_matrices.py:397-525, 529-560: every bulk layer starts with v0 (lines 400, 531), and i2
   starts at 1 again (427, 541).  None: some loop has not finished within [fuel] passes *)
Fixpoint run_bulks (prof : bool) (Ss : list mm_setup) (v0 : list (list R)) (fuel : nat) : option (list mm_state) :=
  match Ss with
  | [] => Some []
  | s :: r =>
      match mm_loop prof s fuel (mm_init s v0) with
      | None => None
      | Some st => match run_bulks prof r v0 fuel with None => None | Some l => Some (st :: l) end
      end
  end.

(* a[i1] for all interfaces: what the passes through bulk layer i1 - 1 appended, then those through bulk layer i1;
   multiply_matrices.py:288-289, 408, 535 *)
Fixpoint interface_passes (before : list (list (list R))) (sts : list mm_state) : list (list (list (list R))) :=
  match sts with
  | [] => [before]
  | st :: r => (before ++ s_a0 st) :: interface_passes (s_a1 st) r
  end.

(* the returned dataset: a row for every bulk_index, for every surf_index; multiply_matrices.py:567-647 *)
Record rat_rows := mk_rows {
  ro_R : list (list R);
  ro_T : option (list (list R));
  ro_A_bulk : option (list (list R));
  ro_A_interface : option (list (list R));
  ro_has_profiles : bool }.

(* multiply_matrices.py:562-647.  i2 (577) is that of the last bulk layer.  Without a bulk layer R has one axis instead of
   two, and a bulk layer without passes gives the number 0 in the list of line 580: both ValueError *)
Definition rows_result (prof : bool) (num_wl : nat) (sts : list mm_state) : res rat_rows :=
  match rev sts with
  | [] => Err ValueError
  | last :: _ =>
      if (1 <? s_i2 last)%nat then
        if forallb (fun st => (1 <? s_i2 st)%nat) sts then
          Ok (mk_rows (map (fun st => sum02 num_wl (s_vr st)) sts)
                (Some (map (fun st => sum02 num_wl (s_vt st)) sts))
                (Some (map (fun st => sum0 num_wl (s_A st)) sts))
                (if prof then Some (map (sum02 num_wl) (interface_passes [] sts)) else None) prof)
        else Err ValueError
      else Ok (mk_rows (map (fun st => sum02 num_wl (s_vr st)) sts) None None None false)
  end.

(* multiply_matrices.py:20-76, 294-647; num_wl = len(options["wavelength"]) *)
Definition calculate_RAT_bulks (n_theta_bins : nat) (phi_symmetry c_azimuth : R) (sp : spacing)
           (theta_in : R) (phi_in : phi_opt) (num_wl : nat) (bs : list bulk) (fronts rears : list stored)
           (I_thresh : R) (prof : bool) (fuel : nat) : res (option (list mm_state * rat_rows)) :=
  rbind (make_angle_vector n_theta_bins phi_symmetry c_azimuth sp) (fun g =>
  rbind (make_v0 g theta_in (fold_phi_in phi_in phi_symmetry) num_wl) (fun v0 =>
  rbind (bulk_setups g phi_symmetry I_thresh fronts rears 0 bs) (fun Ss =>
  match run_bulks prof Ss v0 fuel with
  | None => Ok None
  | Some sts => rbind (rows_result prof num_wl sts) (fun o => Ok (Some (sts, o)))
  end))).
