(* Model of rayflare/transfer_matrix_method/tmm.py and lookup_table.py, for one wavelength.
   The solver (solcore's tmm_core_vec) and OptiStack are not part of the repository: the solver is an
   argument, an arbitrary function of the stack it is handed. *)
From Coq Require Import Reals List ZArith Bool String.
From Verif Require Import Base Model_Angles Model_Ideal.
Import ListNotations.
Local Notation length := List.length.
Open Scope R_scope.

(* no code: plumbing *)
Definition rlift {A B} (f : A -> B) (x : res A) : res B := rbind x (fun a => Ok (f a)).

(* ---------------- what the solver is handed and what it returns ---------------- *)

(* tmm.absorp_analytic_fn of one layer; row order of profile_coeff, tmm.py:592-594 *)
Record coefs := mk_coefs { c_A1 : R; c_A2 : R; c_A3r : R; c_A3i : R; c_a1 : R; c_a3 : R }.

(* out["R"], out["T"]; [inc_]absorp_in_each_layer(out) (incidence and transmission medium included);
   analytic function of layer l; [inc_]position_resolved at a depth below the top of the stack; tmm.py:456-492, 626-630, 641-656 *)
Record sol := mk_sol { s_R : R; s_T : R; s_abs : list R; s_coef : nat -> coefs; s_prof : R -> R }.

(* OptiStack(layers, substrate, incidence): a layer is a material and a width; tmm.py:389-394 *)
Record ostack (M : Type) := mk_stack { o_inc : M; o_layers : list (M * R); o_sub : M }.
Arguments mk_stack {M}. Arguments o_inc {M}. Arguments o_layers {M}. Arguments o_sub {M}.

(* coh_tmm(pol, stack, theta), inc_tmm(pol, stack, coherency_list, theta) and the absorption
   coefficient 4 pi Im(n) / wavelength of a material.  true = "c", false = "i".  tmm.py:619-639, 660-699 *)
Record solver (M : Type) := mk_solver {
  sv_coh : string -> ostack M -> R -> res sol;
  sv_inc : string -> ostack M -> list bool -> R -> res sol;
  sv_alpha : M -> R }.
Arguments sv_coh {M}. Arguments sv_inc {M}. Arguments sv_alpha {M}. Arguments mk_solver {M}.

(* the options read by calculate, tmm.py:597-601, 734-735 *)
Record topts := mk_topts { p_pol : string; p_theta : R; p_coherent : bool; p_coh : option (list bool) }.

(* ---------------- tmm_structure.calculate ---------------- *)

(* tmm.py:732-757.  (The bare Exception of line 753 is represented by ValueError.) *)
Definition build_coh_list (no_back_reflection : bool) (num_layers : nat) (coh : option (list bool)) : res (list bool) :=
  match coh with
  | None => Err ValueError
  | Some l =>
      if Nat.eqb (length l) num_layers
      then Ok ([false] ++ l ++ (if no_back_reflection then [false; false] else [false]))
      else Err AssertionError
  end.

(* a[1:-1]; tmm.py:630, 650-653, 679-681, 709 *)
Definition inner {A} (l : list A) : list A := removelast (tl l).
(* a[a < 0] = 0; tmm.py:283-288, 646-647, lookup_table.py:177-179 *)
Definition clip (x : R) : R := if Rltb x 0 then 0 else x.
Definition half_sum (a b : R) : R := 1 / 2 * (a + b).

(* output["R"], ["T"], ["A"], ["A_per_layer"]; tmm.py:609-615 *)
Record tout := mk_tout { t_R : R; t_T : R; t_A : R; t_Al : list R }.

(* tmm.py:626-630 *)
Definition calc_coh (s : sol) : tout := mk_tout (s_R s) (s_T s) (1 - s_R s - s_T s) (inner (s_abs s)).

(* tmm.py:641-657.  np.divide(x, S, where=S!=0, out=a[1:-1]) leaves a[1:-1] where S = 0. *)
Definition calc_inc (s : sol) : tout :=
  let a := inner (map clip (s_abs s)) in
  let A := clip (1 - s_R s - s_T s) in
  mk_tout (s_R s) (s_T s) A (if Reqb (rsum a) 0 then a else map (fun x => x * A / rsum a) a).

(* tmm.py:674-681 *)
Definition calc_u_coh (p s : sol) : tout :=
  let r := half_sum (s_R p) (s_R s) in
  let t := half_sum (s_T p) (s_T s) in
  mk_tout r t (1 - r - t) (map2 half_sum (inner (s_abs p)) (inner (s_abs s))).

(* tmm.py:701-714.  np.divide(.., where=S!=0) without out=: uninitialised memory where S = 0. *)
Definition calc_u_inc (memory : list R) (p s : sol) : tout :=
  let r := half_sum (s_R p) (s_R s) in
  let t := half_sum (s_T p) (s_T s) in
  let A := 1 - r - t in
  let a := map2 half_sum (inner (s_abs p)) (inner (s_abs s)) in
  mk_tout r t A (if Reqb (rsum a) 0 then memory else map (fun x => x * A / rsum a) a).

(* tmm.py:453, 617: Python's  pol in "sp"  is a substring test *)
Definition in_sp (pol : string) : bool :=
  (String.eqb pol "" || String.eqb pol "s" || String.eqb pol "p" || String.eqb pol "sp")%bool.

(* tmm.py:605-606 *)
Definition coh_for {M} (nobr : bool) (st : ostack M) (o : topts) : res (list bool) :=
  if p_coherent o then Ok [] else build_coh_list nobr (length (o_layers st)) (p_coh o).

(* one call of the solver, coherent or not; tmm.py:619-639, 660-699 *)
Definition solve {M} (SV : solver M) (st : ostack M) (o : topts) (cl : list bool) (pol : string) : res sol :=
  if p_coherent o then sv_coh SV pol st (p_theta o) else sv_inc SV pol st cl (p_theta o).

(* tmm.py:596-716 *)
Definition calculate {M} (SV : solver M) (memory : list R) (nobr : bool) (st : ostack M) (o : topts) : res tout :=
  rbind (coh_for nobr st o) (fun cl =>
  if in_sp (p_pol o) then
    rbind (solve SV st o cl (p_pol o)) (fun s => Ok (if p_coherent o then calc_coh s else calc_inc s))
  else
    rbind (solve SV st o cl "p") (fun p =>
    rbind (solve SV st o cl "s") (fun s =>
    Ok (if p_coherent o then calc_u_coh p s else calc_u_inc memory p s)))).

(* ---------------- profiles ---------------- *)

(* tmm.py:426-451 and 167-185: the depths of the requested layers.  layer_start = [0, 0, w1, w1 + w2, ..],
   layer_end = [0, w1, w1 + w2, ..] *)
Definition layer_start (widths : list R) : list R := 0 :: cumsum (0 :: widths).
Definition layer_end (widths : list R) : list R := cumsum (0 :: widths).

Fixpoint depth_points (widths full_dist : list R) (layers : list nat) : res (list R) :=
  match layers with
  | [] => Ok []
  | l :: r =>
      rbind (py_index (layer_start widths) (Z.of_nat l)) (fun a =>
      rbind (py_index (layer_end widths) (Z.of_nat l)) (fun b =>
      rbind (depth_points widths full_dist r) (fun d =>
      Ok (filter (fun x => (Rleb a x && Rltb x b)%bool) full_dist ++ d))))
  end.

Definition profile_depths (widths : list R) (spacing : R) (layers : list nat) : res (list R) :=
  depth_points widths (arange0 (rsum widths) spacing) layers.

(* tmm.py:423-424 *)
Definition all_layers (n : nat) : list nat := seq 1 n.

(* materials in the order of get_indices: incidence medium, layers, substrate; tmm.py:389-394, 621 *)
Definition media {M} (st : ostack M) : list M := o_inc st :: map fst (o_layers st) ++ [o_sub st].

(* tmm.py:500-510, 579-589 *)
Definition coef_beer (alpha reaching : R) : coefs := mk_coefs 0 (alpha * reaching) 0 0 alpha 0.

(* fn_s.add(fn_p).scale(0.5): the A coefficients are added and halved, a1 and a3 are kept; tmm.py:516, 571 *)
Definition coef_half_sum (a b : coefs) : coefs :=
  mk_coefs (half_sum (c_A1 a) (c_A1 b)) (half_sum (c_A2 a) (c_A2 b)) (half_sum (c_A3r a) (c_A3r b))
           (half_sum (c_A3i a) (c_A3i b)) (c_a1 a) (c_a3 a).

(* one layer of a partly coherent stack: tmm.py:489-510, 567-589 *)
Definition coef_inc {M} (SV : solver M) (st : ostack M) (cl : list bool) (reaching : list R)
    (coherent_fn : nat -> coefs) (l : nat) : res coefs :=
  rbind (py_index cl (Z.of_nat l)) (fun b =>
  if b : bool then Ok (coherent_fn l)
  else rbind (py_index (media st) (Z.of_nat l)) (fun m =>
       rbind (py_index reaching (Z.of_nat l - 1)) (fun f =>
       Ok (coef_beer (sv_alpha SV m) f)))).

Definition one_minus_cumsum (l : list R) : list R := map (fun x => 1 - x) (cumsum l).

(* tmm.py:453-594, output["profile_coeff"], one entry per requested layer.
   s/p (464): A_per_layer is by then the rescaled list without the outer media (649).
   u (527-528): both fractions come from A_per_layer_s, with the outer media;
   u (569-570): both analytic functions come from out_s. *)
Definition profile_coeff {M} (SV : solver M) (nobr : bool) (st : ostack M) (o : topts) (layers : list nat)
  : res (list coefs) :=
  rbind (coh_for nobr st o) (fun cl =>
  if in_sp (p_pol o) then
    rbind (solve SV st o cl (p_pol o)) (fun s =>
    if p_coherent o then Ok (map (s_coef s) layers)
    else rmap (coef_inc SV st cl (one_minus_cumsum (t_Al (calc_inc s))) (s_coef s)) layers)
  else
    rbind (solve SV st o cl "p") (fun p =>
    rbind (solve SV st o cl "s") (fun s =>
    if p_coherent o then Ok (map (fun l => coef_half_sum (s_coef s l) (s_coef p l)) layers)
    else
      let reaching_s := one_minus_cumsum (s_abs s) in
      let reaching_p := one_minus_cumsum (s_abs s) in
      rmap (coef_inc SV st cl (map2 half_sum reaching_s reaching_p)
               (fun l => coef_half_sum (s_coef s l) (s_coef s l))) layers))).

(* tmm.py:457-461, 474-487, 518-524, 541-565 and the clipping of 591: output["profile"] at given depths *)
Definition profile_at {M} (SV : solver M) (nobr : bool) (st : ostack M) (o : topts) (dist : list R) : res (list R) :=
  rbind (coh_for nobr st o) (fun cl =>
  if in_sp (p_pol o) then
    rbind (solve SV st o cl (p_pol o)) (fun s => Ok (map (fun z => clip (s_prof s z)) dist))
  else
    rbind (solve SV st o cl "p") (fun p =>
    rbind (solve SV st o cl "s") (fun s =>
    Ok (map (fun z => clip (half_sum (s_prof s z) (s_prof p z))) dist)))).

(* the object: tmm.py:382-398 (width in m), set_widths 728-730 (OptiStack.set_widths replaces the
   widths of the layers) *)
Record tobj (M : Type) := mk_tobj { ob_stack : ostack M; ob_width : R }.
Arguments mk_tobj {M}. Arguments ob_stack {M}. Arguments ob_width {M}.
Definition widths_of {M} (st : ostack M) : list R := map snd (o_layers st).
Definition stack_set_widths {M} (st : ostack M) (ws : list R) : ostack M :=
  mk_stack (o_inc st) (map2 (fun l w => (fst l, w)) (o_layers st) ws) (o_sub st).
Definition new_tobj {M} (st : ostack M) : tobj M := mk_tobj st (rsum (widths_of st) / 10 ^ 9).
Definition set_widths {M} (ob : tobj M) (ws : list R) : tobj M :=
  mk_tobj (stack_set_widths (ob_stack ob) ws) (ob_width ob).

(* ---------------- TMM: redistribution matrices ---------------- *)

(* the arguments of TMM(layers, incidence, transmission, .., coherent, coherency_list); tmm.py:19-32 *)
Record tmm_args (M : Type) := mk_args {
  ar_inc : M; ar_layers : list (M * R); ar_trn : M; ar_coherent : bool; ar_coh : option (list bool); ar_pol : string }.
Arguments mk_args {M}. Arguments ar_inc {M}. Arguments ar_layers {M}. Arguments ar_trn {M}.
Arguments ar_coherent {M}. Arguments ar_coh {M}. Arguments ar_pol {M}.

(* tmm.py:161, 195-198 *)
Definition tmm_stack {M} (a : tmm_args M) (s : side) : ostack M :=
  match s with
  | Front => mk_stack (ar_inc a) (ar_layers a) (ar_trn a)
  | Rear => mk_stack (ar_trn a) (rev (ar_layers a)) (ar_inc a)
  end.

(* tmm.py:162-163, 199-200: the media whose index enters Snell's law, (inc, trns) *)
Definition snell_media {M} (a : tmm_args M) (s : side) : M * M :=
  match s with Front => (ar_inc a, ar_trn a) | Rear => (ar_trn a, ar_inc a) end.

(* tmm.py:258-262, 268-269: coherency_list is passed on as given for both sides *)
Definition tmm_opts {M} (a : tmm_args M) (pol : string) (theta : R) : topts :=
  mk_topts pol theta (ar_coherent a) (ar_coh a).

Definition flip_rear {A} (s : side) (l : list A) : list A := match s with Front => l | Rear => rev l end.

(* R, T and absorption per layer of one polarisation and angle: tmm.py:271-298.
   Every iteration of the loop over polarisations overwrites all of R_loop, T_loop, Alayer_loop before
   the clipping and the flip, so re-binding Alayer_loop to a flipped view (291) has no effect on the next. *)
Definition tmm_one {M} (SV : solver M) (memory : list R) (a : tmm_args M) (s : side) (pol : string) (theta : R)
  : res (R * R * list R) :=
  rlift (fun o => (clip (t_R o), clip (t_T o), flip_rear s (map clip (t_Al o))))
       (calculate SV memory false (tmm_stack a s) (tmm_opts a pol theta)).

(* tmm.py:202-206, 312-315: 'u' is the mean over s and p *)
Definition tmm_entry {M} (SV : solver M) (memory : list R) (a : tmm_args M) (s : side) (theta : R)
  : res (R * R * list R) :=
  if String.eqb (ar_pol a) "u" then
    rbind (tmm_one SV memory a s "s" theta) (fun es =>
    rbind (tmm_one SV memory a s "p" theta) (fun ep =>
    Ok (half_sum (fst (fst es)) (fst (fst ep)), half_sum (snd (fst es)) (snd (fst ep)),
        map2 half_sum (snd es) (snd ep))))
  else tmm_one SV memory a s (ar_pol a) theta.

(* np.arcsin: NaN outside [-1, 1]; tmm.py:87 *)
Definition arcsin_nan (x : R) : option R := if Rleb (Rabs x) 1 then Some (asin x) else None.

(* tmm.py:85-94 with quadrant of 325, 333 *)
Definition quadrant (s : side) : R := match s with Front => PI | Rear => 0 end.
Definition theta_trans (s : side) (n_inc n_trn theta T : R) : option R :=
  match arcsin_nan (n_inc / n_trn * sin theta) with
  | Some a => Some (Rabs (- a + quadrant s))
  | None => if Rltb (1 / 10 ^ 8) T then Some (Rabs (PI / 2 - 1 / 10 ^ 5 - quadrant s)) else None
  end.

(* tmm.py:323, 331, 335 *)
Definition phi_back (phi phi_sym : R) : R :=
  let f := fold_phi (phi + PI) phi_sym in if Reqb f 0 then 1 / 10 ^ 10 else f.

(* RT_mat[bin, i1] = x  for one column; tmm.py:82, 105 *)
Definition put (col : list R) (bin : Z) (x : R) : res (list R) :=
  rlift (fun k => set_nth k x col) (py_pos (length col) bin).

(* the incidence rows of the angle vector, tmm.py:320-321, 328-329, and theta_lookup, 324, 332 *)
Definition half_rows (s : side) (g : grid) : list arow :=
  let h := (length (g_av g) / 2)%nat in match s with Front => firstn h (g_av g) | Rear => skipn h (g_av g) end.
Definition theta_lookup (s : side) (g : grid) : list R :=
  let l := map a_theta (firstn (length (g_av g) / 2) (g_av g)) in
  match s with Front => l | Rear => rev l end.

(* tmm.py:65-105 for one incidence bin: row r of the angle vector, looked-up angle theta.
   cur_theta (337) is the polar bin of r. *)
Definition tmm_column (s : side) (g : grid) (phi_sym n_inc n_trn : R) (r : arow) (theta R_prob T_prob : R)
  : res (list R) :=
  let cur := theta_bin (g_theta_intv g) (a_theta r) in
  let phi_out := phi_back (a_phi r) phi_sym in
  let zero := repeat 0 (2 * length (half_rows s g)) in
  rbind (overall_bin (g_phi_intv g) (g_av g) cur phi_out) (fun bin_r =>
  rbind (put zero bin_r R_prob) (fun col =>
  match theta_trans s n_inc n_trn theta T_prob with
  | None => Ok col
  | Some th =>
      rbind (overall_bin (g_phi_intv g) (g_av g) (theta_bin (g_theta_intv g) th) phi_out) (fun bin_t =>
      put col bin_t T_prob)
  end)).

(* tmm.py:60-112, one column of RT_mat and of A_mat.  allres.loc[angle = theta] finds the entry computed
   for this very theta.  n is the real refractive index at the wavelength. *)
Definition tmm_matrix_column {M} (SV : solver M) (memory : list R) (n : M -> R) (a : tmm_args M) (s : side)
    (g : grid) (phi_sym : R) (i : nat) : res (list R * list R) :=
  rbind (py_index (half_rows s g) (Z.of_nat i)) (fun r =>
  rbind (py_index (theta_lookup s g) (Z.of_nat i)) (fun theta =>
  rbind (tmm_entry SV memory a s theta) (fun e =>
  rlift (fun col => (col, snd e))
    (tmm_column s g phi_sym (n (fst (snell_media a s))) (n (snd (snell_media a s))) r theta
       (fst (fst e)) (snd (fst e)))))).

(* tmm.py:165-189: the depths at which the profile is computed; they are also the z coordinate of the
   stored profile (116-120, 241-246) *)
Definition tmm_dist (s : side) (widths : list R) (spacing : R) (layers : list nat) : res (list R) :=
  rlift (fun d => match s with Front => d | Rear => rev (map (fun z => rsum widths - z) d) end)
       (profile_depths widths spacing layers).

(* tmm.py:279-302 and 122-130: stored profile of one polarisation and angle, with its z coordinate *)
Definition tmm_profile {M} (SV : solver M) (a : tmm_args M) (s : side) (spacing : R) (layers : list nat)
    (pol : string) (theta : R) : res (list R * list R) :=
  rbind (tmm_dist s (map snd (ar_layers a)) spacing layers) (fun dist =>
  rlift (fun p => (dist, flip_rear s (map clip p)))
       (profile_at SV false (tmm_stack a s) (tmm_opts a pol theta) dist)).

(* ---------------- make_TMM_lookuptable ---------------- *)

(* lookup_table.py:75-79 *)
Definition table_stack {M} (a : tmm_args M) (i : nat) : ostack M :=
  match i with
  | O => mk_stack (ar_inc a) (ar_layers a) (ar_trn a)
  | _ => mk_stack (ar_trn a) (rev (ar_layers a)) (ar_inc a)
  end.

(* lookup_table.py:81-84 *)
Definition table_coh {M} (a : tmm_args M) (i : nat) : list bool :=
  match ar_coh a with
  | Some l => match i with O => l | _ => rev l end
  | None => repeat true (length (ar_layers a))
  end.

(* lookup_table.py:66-72.  len(layers) - p + 1 for the reversed list; layers beyond the stack are not modelled *)
Definition table_layers (n : nat) (layers : list nat) (i : nat) : list nat :=
  match i with O => layers | _ => map (fun p => (n + 1 - p)%nat) (rev layers) end.

(* R, T, Alayer, Aprof stored under one (side, pol, angle); lookup_table.py:188-193 *)
Record tentry := mk_tentry { e_R : R; e_T : R; e_Al : list R; e_coef : list coefs }.

(* lookup_table.py:181-186 *)
Definition flip_side {A} (side : Z) (l : list A) : list A := if Z.eqb side (-1) then rev l else l.

(* lookup_table.py:146-194 for the i-th element of sides *)
Definition table_one {M} (SV : solver M) (memory : list R) (a : tmm_args M) (layers : list nat) (i : nat) (side : Z)
    (pol : string) (theta : R) : res tentry :=
  let o := mk_topts pol theta (ar_coherent a) (Some (table_coh a i)) in
  rbind (calculate SV memory false (table_stack a i) o) (fun t =>
  rbind (profile_coeff SV false (table_stack a i) o (table_layers (length (ar_layers a)) layers i)) (fun c =>
  Ok (mk_tentry (clip (t_R t)) (clip (t_T t)) (flip_side side (map clip (t_Al t))) (flip_side side c)))).

(* mean over pol, lookup_table.py:203-204 *)
Definition coef_mean (a b : coefs) : coefs :=
  mk_coefs (half_sum (c_A1 a) (c_A1 b)) (half_sum (c_A2 a) (c_A2 b)) (half_sum (c_A3r a) (c_A3r b))
           (half_sum (c_A3i a) (c_A3i b)) (half_sum (c_a1 a) (c_a1 b)) (half_sum (c_a3 a) (c_a3 b)).

Definition entry_mean (a b : tentry) : tentry :=
  mk_tentry (half_sum (e_R a) (e_R b)) (half_sum (e_T a) (e_T b)) (map2 half_sum (e_Al a) (e_Al b))
            (map2 coef_mean (e_coef a) (e_coef b)).

(* position of a side in the list given by the caller; lookup_table.py:146, 188 *)
Fixpoint find_side (side : Z) (sides : list Z) : option nat :=
  match sides with
  | [] => None
  | x :: r => if Z.eqb x side then Some O else option_map S (find_side side r)
  end.

(* reading the entry (side, pol, theta) of the table.  The arrays have two sides (lookup_table.py:88-136), so that any
   other number of coordinates is rejected by xarray; a side that is not a coordinate is a KeyError. *)
Definition table_entry {M} (SV : solver M) (memory : list R) (a : tmm_args M) (layers : list nat) (sides : list Z)
    (side : Z) (pol : string) (theta : R) : res tentry :=
  if negb (Nat.eqb (length sides) 2) then Err ValueError
  else match find_side side sides with
       | None => Err KeyError
       | Some i =>
           let one := fun q => table_one SV memory a layers i side q theta in
           if String.eqb pol "u"
           then rbind (one "s"%string) (fun s => rbind (one "p"%string) (fun p => Ok (entry_mean s p)))
           else if (String.eqb pol "s" || String.eqb pol "p")%bool then one pol else Err KeyError
       end.
