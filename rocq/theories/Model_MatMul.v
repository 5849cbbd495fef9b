(* Model of rayflare/matrix_formalism/multiply_matrices.py *)
From Coq Require Import Reals List ZArith Bool.
From Verif Require Import Base Model_Angles Model_Ideal.
Import ListNotations.
Open Scope R_scope.

(* ---------- incident power ---------- *)

(* options["phi_in"]: a number or the string "all"; multiply_matrices.py:105, 335-340 *)
Inductive phi_opt := PhiAll | PhiNum (phi : R).

(* multiply_matrices.py:335-340 *)
Definition fold_phi_in (phi_in : phi_opt) (phi_symmetry : R) : phi_opt :=
  match phi_in with
  | PhiAll => PhiAll
  | PhiNum p => if Rltb phi_symmetry p then PhiNum (fold_phi p phi_symmetry) else PhiNum p
  end.

(* multiply_matrices.py:97-112.  Rows are wavelengths (all equal). *)
Definition make_v0_row (g : grid) (th_in : R) (phi_in : phi_opt) : res (list R) :=
  let n_a_in := (length (g_av g) / 2)%nat in
  let th_bin := (Z.of_nat (digitize_left th_in (g_theta_intv g)) - 1)%Z in
  rbind (py_index (g_phi_intv g) th_bin) (fun edges =>
  rbind (argmin Z.ltb (map (fun r => Z.abs (Z.of_nat (a_ring r) - th_bin)) (g_av g))) (fun ov_bin =>
  match phi_in with
  | PhiAll =>
      let n_phis := (length edges - 1)%nat in
      (* v0[:, ov_bin:(ov_bin + n_phis)] = 1 / n_phis; a slice beyond the array is silently empty *)
      Ok (map (fun k => if (ov_bin <=? k)%nat && (k <? ov_bin + n_phis)%nat
                        then 1 / INR n_phis else 0) (seq 0 n_a_in))
  | PhiNum phi =>
      let phi_ind := (Z.of_nat (digitize_left phi edges) - 1)%Z in
      rbind (py_pos n_a_in (Z.of_nat ov_bin + phi_ind)%Z) (fun p =>
      Ok (map (fun k => if Nat.eqb k p then 1 else 0) (seq 0 n_a_in)))
  end)).

(* multiply_matrices.py:79-112 *)
Definition make_v0 (g : grid) (th_in : R) (phi_in : phi_opt) (num_wl : nat) : res (list (list R)) :=
  rbind (make_v0_row g th_in phi_in) (fun row => Ok (repeat row num_wl)).

(* ---------- outgoing -> incoming relabelling ---------- *)

(* multiply_matrices.py:140-141 *)
Definition submatrix (m : matrix) (r0 nr c0 nc : nat) : matrix :=
  map (fun row => firstn nc (skipn c0 row)) (firstn nr (skipn r0 m)).

(* multiply_matrices.py:117-118 *)
Definition nudge_sym (phi_sym : R) : R := if Reqb phi_sym (2 * PI) then phi_sym - 1 / 10000 else phi_sym.

(* multiply_matrices.py:120-138: row index written for every column *)
Definition out_to_in_pos (g : grid) (phi_sym : R) : res (list nat) :=
  rbind (rmap (fun r => overall_bin (g_phi_intv g) (g_av g)
                          (theta_bin (g_theta_intv g) (PI - a_theta r))
                          (fold_phi (a_phi r + PI) (nudge_sym phi_sym))) (g_av g)) (fun bins =>
  rmap (py_pos (length (g_av g))) bins).

(* multiply_matrices.py:115-143: (up_to_down, down_to_up) *)
Definition out_to_in_matrix (g : grid) (phi_sym : R) : res (matrix * matrix) :=
  rbind (out_to_in_pos g phi_sym) (fun pos =>
  let N := length (g_av g) in
  let h := (N / 2)%nat in
  let out_to_in := onehot N pos in
  Ok (submatrix out_to_in h (N - h) 0 h, submatrix out_to_in 0 h h (N - h))).

(* ---------- bulk ---------- *)

(* multiply_matrices.py:146-158, the diagonal of each matrix (the off-diagonal zeros are not stored) *)
Definition make_D (alphas : list R) (thick : R) (thetas : list R) : list (list R) :=
  map (fun a => map (fun t => exp (- a * thick / Rabs (cos t))) thetas) alphas.

(* dot(np.diag(d), v); multiply_matrices.py:157, 167 *)
Definition diag_mul (d v : list R) : list R := map2 Rmult d v.

(* multiply_matrices.py:167, 171, 179 *)
Definition dot (u v : list R) : R := rsum (map2 Rmult u v).
Definition matvec (m : matrix) (v : list R) : list R := map (fun row => dot row v) m.

(* redistribution matrices are stored per wavelength (3-D) or once for all wavelengths (2-D); multiply_matrices.py:165, 169 *)
Inductive wmat := M3 (ms : list matrix) | M2 (m : matrix).

(* assigning a vector to a row of an array with n columns: numpy broadcasts a length-1 vector.
   (Other length mismatches raise ValueError; they do not occur for well-shaped matrices.); multiply_matrices.py:167, 171 *)
Definition broadcast (n : nat) (l : list R) : list R :=
  match l with [x] => repeat x n | _ => l end.

(* multiply_matrices.py:163 *)
Definition ncols (m : matrix) : nat := match m with [] => 0 | row :: _ => length row end.

(* multiply_matrices.py:161-173: the rows of [vec] are wavelengths *)
Definition dot_wl (m : wmat) (vec : list (list R)) : list (list R) :=
  match m with
  | M3 ms => map2 matvec ms vec
  | M2 m => map (fun v => broadcast (ncols m) (matvec m v)) vec
  end.

(* multiply_matrices.py:176-180 *)
Definition dot_wl_u2d (m : matrix) (vec : list (list R)) : list (list R) := map (matvec m) vec.

(* dot_wl(D, vec) with the diagonal matrices of make_D; multiply_matrices.py:157, 161-173 *)
Definition dot_wl_D (D : list (list R)) (vec : list (list R)) : list (list R) := map2 diag_mul D vec.

(* ---------- loading ---------- *)

(* multiply_matrices.py:238-260: (R, T) parts of a stored matrix *)
Definition split_rows (s : side) (n_a_in : nat) (full : matrix) : matrix * matrix :=
  match s with
  | Front => (firstn n_a_in full, skipn n_a_in full)
  | Rear => (skipn n_a_in full, firstn n_a_in full)
  end.

(* multiply_matrices.py:238-260 *)
Definition split_wmat (s : side) (n_a_in : nat) (full : wmat) : wmat * wmat :=
  match full with
  | M3 ms => (M3 (map (fun m => fst (split_rows s n_a_in m)) ms),
              M3 (map (fun m => snd (split_rows s n_a_in m)) ms))
  | M2 m => (M2 (fst (split_rows s n_a_in m)), M2 (snd (split_rows s n_a_in m)))
  end.

(* ---------- the pass loop ---------- *)

(* one bulk between a front interface (used from both sides) and a back interface (front side); multiply_matrices.py:356-376 *)
Record mm_setup := mk_setup {
  m_Rf : wmat; m_Tf : wmat; m_Af : wmat;       (* front interface, front incidence *)
  m_Rb : wmat; m_Tb : wmat; m_Ab : wmat;       (* front interface, rear incidence *)
  m_Rf2 : wmat; m_Tf2 : wmat; m_Af2 : wmat;    (* back interface, front incidence *)
  m_up2down : matrix; m_down2up : matrix;
  m_D : list (list R);
  m_thresh : R }.

(* loop state: travelling power and the per-pass lists (latest pass last); multiply_matrices.py:380-388 *)
Record mm_state := mk_state {
  s_vf1 : list (list R);
  s_vr : list (list (list R)); s_vt : list (list (list R));
  s_a0 : list (list (list R)); s_a1 : list (list (list R));
  s_A : list (list R);
  s_i2 : nat }.

(* multiply_matrices.py:423, 447, 472-474, 513 *)
Definition sums (v : list (list R)) : list R := map rsum v.
Definition vminus (u v : list R) : list R := map2 Rminus u v.

(* multiply_matrices.py:400-427 / 531-541 *)
Definition mm_init (S : mm_setup) (v0 : list (list R)) : mm_state :=
  mk_state (dot_wl (m_Tf S) v0) [dot_wl (m_Rf S) v0] [] [dot_wl (m_Af S) v0] [] [] 1.

(* vf_1 after down2up, vb_1, vb_2, vf_2 after the bulk, vf_2 after up2down (both branches); multiply_matrices.py:430-433, 464-469, 495, 544-550 *)
Definition mm_vf1 S st := dot_wl_u2d (m_down2up S) (s_vf1 st).
Definition mm_vb1 S st := dot_wl_D (m_D S) (mm_vf1 S st).
Definition mm_vb2 S st := dot_wl (m_Rf2 S) (mm_vb1 S st).
Definition mm_vf2 S st := dot_wl_D (m_D S) (mm_vb2 S st).
Definition mm_vf2' S st := dot_wl_u2d (m_up2down S) (mm_vf2 S st).

(* multiply_matrices.py:279-291 append_per_pass_info, shared by both loops *)
Definition append_pass S st (vf2 vb1 vf1_new : list (list R)) (A1 A2 : list R) : mm_state :=
  mk_state vf1_new
    (s_vr st ++ [dot_wl (m_Tb S) vf2])
    (s_vt st ++ [dot_wl (m_Tf2 S) vb1])
    (s_a0 st ++ [dot_wl (m_Ab S) vf2])
    (s_a1 st ++ [dot_wl (m_Af2 S) vb1])
    (s_A st ++ [A1; A2])
    (Datatypes.S (s_i2 st)).

(* one pass of the profile loop, multiply_matrices.py:429-525: the upward absorption is taken
   before the up2down relabelling (line 472) *)
Definition pass_prof S st : mm_state :=
  append_pass S st (mm_vf2' S st) (mm_vb1 S st) (dot_wl (m_Rb S) (mm_vf2' S st))
    (vminus (sums (mm_vf1 S st)) (sums (mm_vb1 S st)))
    (vminus (sums (mm_vb2 S st)) (sums (mm_vf2 S st))).

(* one pass of the no-profile loop, multiply_matrices.py:543-560: the upward absorption is taken
   after the relabelling (line 552) *)
Definition pass_noprof S st : mm_state :=
  append_pass S st (mm_vf2' S st) (mm_vb1 S st) (dot_wl (m_Rb S) (mm_vf2' S st))
    (vminus (sums (mm_vf1 S st)) (sums (mm_vb1 S st)))
    (vminus (sums (mm_vb2 S st)) (sums (mm_vf2' S st))).

Definition pass (prof : bool) := if prof then pass_prof else pass_noprof.

(* np.any(power > I_thresh) with power = np.sum(vf_1, axis=1)  (multiply_matrices.py:429, 513, 543, 553) *)
Definition go_on S st : bool := existsb (fun p => Rltb (m_thresh S) p) (sums (s_vf1 st)).

(* the while loop; None = not finished within [fuel] passes; multiply_matrices.py:429-525, 543-560 *)
Fixpoint mm_loop (prof : bool) S (fuel : nat) st : option mm_state :=
  if go_on S st then
    match fuel with
    | O => None
    | Datatypes.S f => mm_loop prof S f (pass prof S st)
    end
  else Some st.

(* ---------- assembling the results ---------- *)

(* np.sum(item, (0, 2)): per wavelength, over passes and bins; multiply_matrices.py:571, 587, 609 *)
Definition sum02 (num_wl : nat) (l : list (list (list R))) : list R :=
  map (fun w => rsum (map (fun pass => rsum (nth w pass [])) l)) (seq 0 num_wl).
(* np.sum(item, 0); multiply_matrices.py:580 *)
Definition sum0 (num_wl : nat) (l : list (list R)) : list R :=
  map (fun w => rsum (map (fun pass => nth w pass 0) l)) (seq 0 num_wl).

(* the returned dataset: which variables it has depends on the run (multiply_matrices.py:577-647) *)
Record rat := mk_rat {
  o_R : list R;
  o_T : option (list R);
  o_A_bulk : option (list R);
  o_A_interface : option (list R * list R);
  o_has_profiles : bool }.

Definition mm_result (prof : bool) (num_wl : nat) (st : mm_state) : rat :=
  if (1 <? s_i2 st)%nat then
    mk_rat (sum02 num_wl (s_vr st)) (Some (sum02 num_wl (s_vt st))) (Some (sum0 num_wl (s_A st)))
      (if prof then Some (sum02 num_wl (s_a0 st), sum02 num_wl (s_a1 st)) else None) prof
  else
    mk_rat (sum02 num_wl (s_vr st)) None None None false.

(* multiply_matrices.py:390 selects the loop; [prof] = any profile layers or bulk_profile *)
Definition matrix_multiplication (prof : bool) S (v0 : list (list R)) (fuel : nat) : option (mm_state * rat) :=
  match mm_loop prof S fuel (mm_init S v0) with
  | Some st => Some (st, mm_result prof (length v0) st)
  | None => None
  end.

(* ---------- calculate_RAT ---------- *)

(* contents of <name><side>RT.npz and <name><side>A.npz; multiply_matrices.py:228-236 *)
Record stored := mk_stored { f_RT : wmat; f_A : wmat }.

(* multiply_matrices.py:318-377: grid, relabelling, bulk matrices and loaded redistribution matrices for
   one bulk between two interfaces.  f0, b0: first interface, front and rear; f1: second, front. *)
Definition build_setup (g : grid) (phi_symmetry : R) (alphas : list R) (thick : R)
           (f0 b0 f1 : stored) (I_thresh : R) : res mm_setup :=
  let n_a_in := (length (g_av g) / 2)%nat in
  rbind (out_to_in_matrix g phi_symmetry) (fun ud =>
  let f0RT := split_wmat Front n_a_in (f_RT f0) in
  let b0RT := split_wmat Rear n_a_in (f_RT b0) in
  let f1RT := split_wmat Front n_a_in (f_RT f1) in
  Ok (mk_setup (fst f0RT) (snd f0RT) (f_A f0) (fst b0RT) (snd b0RT) (f_A b0)
               (fst f1RT) (snd f1RT) (f_A f1)
               (fst ud) (snd ud)
               (make_D alphas thick (map a_theta (firstn n_a_in (g_av g)))) I_thresh)).

(* multiply_matrices.py:20-76, 294-647, one bulk; [fuel] bounds the number of passes (None: still running) *)
Definition calculate_RAT (n_theta_bins : nat) (phi_symmetry c_azimuth : R) (sp : spacing)
           (theta_in : R) (phi_in : phi_opt) (alphas : list R) (thick : R) (f0 b0 f1 : stored)
           (I_thresh : R) (prof : bool) (fuel : nat) : res (option (mm_state * rat)) :=
  rbind (make_angle_vector n_theta_bins phi_symmetry c_azimuth sp) (fun g =>
  rbind (make_v0 g theta_in (fold_phi_in phi_in phi_symmetry) (length alphas)) (fun v0 =>
  rbind (build_setup g phi_symmetry alphas thick f0 b0 f1 I_thresh) (fun S =>
  Ok (matrix_multiplication prof S v0 fuel)))).

(* ---------- bulk profile ---------- *)

(* floats that may be NaN (None): needed because np.divide(.., where=..) without out leaves
   uninitialised memory, whose content is the argument [garb]; multiply_matrices.py:188, 203 *)
Definition fl := option R.
(* multiply_matrices.py:193, 205 *)
Definition fmul (a b : fl) : fl := match a, b with Some x, Some y => Some (x * y) | _, _ => None end.
Definition fadd (a b : fl) : fl := match a, b with Some x, Some y => Some (x + y) | _, _ => None end.
Definition fsum (l : list fl) : fl := fold_right fadd (Some 0) l.
Definition fdiv_where (a b : R) (garb : fl) : fl := if Reqb b 0 then garb else Some (a / b).

(* multiply_matrices.py:198 *)
Fixpoint ftrapz (y : list fl) (x : list R) : fl :=
  match y, x with
  | y0 :: ((y1 :: _) as y'), x0 :: ((x1 :: _) as x') =>
      fadd (fmul (Some ((x1 - x0) / 2)) (fadd y0 y1)) (ftrapz y' x')
  | _, _ => Some 0
  end.

(* multiply_matrices.py:183-207 for one wavelength (the code loops over wavelengths with the same body).
   garb_norm: memory behind np.divide at line 188; garb_scale: at line 203.
   check != 0 is True for NaN, then A / NaN = NaN. *)
Definition bulk_profile_calc (v_1 v_2 : list R) (alpha : R) (thetas : list R) (d : R) (depths : list R)
           (A : R) (garb_norm : list fl) (garb_scale : fl) : list fl :=
  let per_bin := map2 Rminus v_1 v_2 in
  let abscos := map (fun t => Rabs (cos t)) thetas in
  let denom := map (fun c => 1 - exp (- alpha * d / c)) abscos in
  let norm := map2 (fun pd g => fdiv_where (fst pd) (snd pd) g) (combine per_bin denom) garb_norm in
  let result := map (fun z =>
      fsum (map2 (fun nm c => fmul (fmul (fmul (Some alpha) nm) (Some (/ c))) (Some (exp (- alpha * z / c))))
                 norm abscos)) depths in
  let check := ftrapz result depths in
  let scale := match check with
               | Some k => fdiv_where A k garb_scale
               | None => None
               end in
  map (fun x => fmul scale x) result.

(* ---------- interface depth profiles ---------- *)

(* multiply_matrices.py:413 / 438 / 500: scale = ((sum over layers of A_j) * v_j / I_j).fillna(0) for one
   wavelength; 0/0 is NaN and becomes 0, x/0 is infinite (None) *)
Definition prof_scale (Asum v I : list R) : list fl :=
  map2 (fun av i => if Reqb i 0 then (if Reqb av 0 then Some 0 else None) else Some (av / i))
       (map2 Rmult Asum v) I.

(* column sums of an absorption matrix: np.sum(Af.todense(), 1); multiply_matrices.py:413, 440, 500 *)
Definition layer_sum (A : matrix) (nbins : nat) : list R :=
  map (fun k => rsum (map (fun row => nth k row 0) A)) (seq 0 nbins).

(* multiply_matrices.py:418-419 / 442-444 / 503-505: sum over bins of scale * P; P is indexed [z][bin] *)
Definition interface_profile (Asum v I : list R) (P : list (list R)) : list fl :=
  map (fun Pz => fsum (map2 (fun s p => fmul s (Some p)) (prof_scale Asum v I) Pz)) P.

(* multiply_matrices.py:620-627: negative values are set to 0 and the passes are added *)
Definition clip0 (x : fl) : fl := match x with Some r => Some (if Rltb r 0 then 0 else r) | None => None end.
