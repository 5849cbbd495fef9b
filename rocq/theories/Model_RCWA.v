(* Model of rayflare/rigorous_coupled_wave_analysis/rcwa.py, part 1: the redistribution matrices.
   The solver (S4 or Inkstone) is an argument.  Refractive indices of the outer media are real; l_oc is their
   square, so np.sqrt(l_oc[0]) is the index itself.  Angles are in radians throughout: the conversion to degrees
   (228-229) and back (591-595) is exact in real arithmetic. *)
From Coq Require Import Reals List ZArith Bool String.
From Verif Require Import Base Model_Angles Model_Ideal Model_MatMul Model_TMM Model_Diff.
Import ListNotations.
Local Notation length := List.length.
Open Scope R_scope.

(* ---------------- polarisation ---------------- *)

(* options["pol"]: a string, or a tuple of s and p components; rcwa.py:42-58 *)
Inductive pol_in := PolStr (s : string) | PolTup (l : list R).
Inductive pol_out := PolPair (s p : R) | PolChars (s : string).

(* rcwa.py:42-58.  "input_pol in 'sp'" on a tuple raises TypeError. *)
Definition process_pol (pol : pol_in) : res pol_out :=
  match pol with
  | PolTup [s; p] => Ok (PolPair s p)
  | PolTup _ => Err TypeError
  | PolStr x =>
      if Nat.eqb (String.length x) 2 then Ok (PolChars x)
      else if in_sp x then Ok (PolPair (if String.eqb x "s" then 1 else 0) (if String.eqb x "p" then 1 else 0))
      else if String.eqb x "u" then Ok (PolPair (sqrt 2 / 2) (sqrt 2 / 2))
      else Err ValueError
  end.

(* ---------------- power fluxes ---------------- *)

(* Real parts of S.GetPowerFlux("layer_i") and S.GetPowerFluxByOrder("layer_i"): forward and backward; rcwa.py:688-689, 706-717, 892-893, 906-907 *)
Record fluxes := mk_fluxes { fx : nat -> R * R; fbo : nat -> list (R * R) }.
Definition both (x : R * R) : R := fst x + snd x.

(* rcwa.py:685-694: R, T, incident power *)
Definition rcwa_rt (S : fluxes) (n_layers : nat) : R * R * R :=
  (- snd (fx S 1) / fst (fx S 1), fst (fx S n_layers) / fst (fx S 1), fst (fx S 1)).

(* rcwa.py:697-719 without det_l; 722-730 is the same for Inkstone *)
Definition rcwa_rt_pfbo (S : fluxes) (n_layers : nat) (incpf : R) : list R * list R :=
  (map (fun x => - snd x) (fbo S 1), map (fun x => both x / incpf) (fbo S n_layers)).

(* rcwa.py:887-898 *)
Definition rcwa_absorption_per_layer (S : fluxes) (n_layers : nat) (incpf : R) : list R :=
  map (fun i => let x := both (fx S (i + 2)) - both (fx S (i + 3)) in (if Rltb 0 x then x else 0) / incpf)
      (seq 0 (n_layers - 2)).

(* rcwa.py:901-911 *)
Definition rcwa_absorption_per_layer_order (S : fluxes) (n_layers : nat) (incpf : R) : list (list R) :=
  map (fun i => map2 (fun a b => (both a - both b) / incpf) (fbo S (i + 2)) (fbo S (i + 3))) (seq 0 (n_layers - 2)).

(* what RCWA_wl uses from the solver for one incidence direction, rcwa.py:564-567 *)
Record rcwa_out := mk_rout { q_T : R; q_A : list R; q_Rp : list R; q_Tp : list R }.
Definition rcwa_outputs (S : fluxes) (n_layers : nat) : rcwa_out :=
  let '(_, T, incpf) := rcwa_rt S n_layers in
  let (Rp, Tp) := rcwa_rt_pfbo S n_layers incpf in
  mk_rout T (rcwa_absorption_per_layer S n_layers incpf) Rp Tp.

(* ---------------- the redistribution matrix ---------------- *)

(* rcwa.py:609-620 (422-433): the power of non-propagating orders and anything below 1e-16 is set to zero.
   np.abs(x < 1e-16) is the absolute value of a Boolean, hence x < 1e-16 itself. *)
Definition rcwa_kept (theta x : R) : R :=
  if Reqb theta (PI / 2) then 0 else if Rltb x (1 / 10 ^ 16) then 0 else x.

(* rcwa.py:622-623 (435-436): (R / Rsum) * R_pfbo.  After 616-620 all entries are non-negative, so Rsum = 0 means all
   are zero, and (R / 0) * 0 is NaN for every R. *)
Definition rescale (Rt Rsum x : R) : fl := if Reqb Rsum 0 then None else Some (Rt / Rsum * x).

(* rcwa.py:625-627 (438-440) *)
Definition nudge (x : R) : R := if Reqb x 0 then 1 / 10 ^ 10 else x.

(* rcwa.py:612-614 (425-427) *)
Definition turn_theta (s : side) (theta : R) : R := match s with Front => theta | Rear => PI - theta end.

(* np.nonzero: NaN counts as non-zero; rcwa.py:632, 637 *)
Definition fnonzero (x : fl) : bool := match x with Some v => negb (Reqb v 0) | None => true end.

(* rcwa.py:629-640 (442-453): the writes of one incidence direction, bin and value *)
Definition order_writes (g : grid) (l : list (R * R * fl)) : res (list (Z * fl)) :=
  rmap (fun w => let '(theta, phi, v) := w in
                 rbind (bin_of g (nudge theta) (nudge phi)) (fun b => Ok (b, v)))
       (filter (fun w => fnonzero (snd w)) l).

(* rcwa.py:586-640 (399-453) *)
Definition rcwa_writes (s : side) (g : grid) (wl n_in n_out phi_sym : R) (basis : list order) (g1 g2 : v2)
    (theta phi : R) (o : rcwa_out) : res (list (Z * fl)) :=
  let dirs := map (order_direction wl n_in n_out theta phi phi_sym g1 g2) basis in
  let Rt := 1 - q_T o - rsum (q_A o) in
  let Rp := map2 (fun d x => rcwa_kept (d_r d) x) dirs (q_Rp o) in
  let Tp := map2 (fun d x => rcwa_kept (d_t d) x) dirs (q_Tp o) in
  rbind (order_writes g (map2 (fun d x => (turn_theta s (d_r d), d_phi d, rescale Rt (rsum Rp) x)) dirs Rp)) (fun wr =>
  rbind (order_writes g (map2 (fun d x => (turn_theta s (d_t d), d_phi d, Some x)) dirs Tp)) (fun wt =>
  Ok (wr ++ wt))).

(* mat_RT[bini, in_bin[i1]] = mat_RT[bini, i1] + x  (rcwa.py:635, 640; 448, 453).  The matrix is a list of columns. *)
Definition rcwa_write (i1 : nat) (ib : Z) (mat : list (list fl)) (w : Z * fl) : res (list (list fl)) :=
  rbind (py_index mat (Z.of_nat i1)) (fun src =>
  rbind (py_index src (fst w)) (fun old =>
  rbind (py_pos (length mat) ib) (fun c =>
  rbind (py_pos (length (nth c mat [])) (fst w)) (fun b =>
  Ok (set_nth c (set_nth b (fadd old (snd w)) (nth c mat [])) mat))))).

Fixpoint rcwa_write_all (i1 : nat) (ib : Z) (mat : list (list fl)) (ws : list (Z * fl)) : res (list (list fl)) :=
  match ws with
  | [] => Ok mat
  | w :: r => rbind (rcwa_write i1 ib mat w) (fun mat => rcwa_write_all i1 ib mat r)
  end.

(* rcwa.py:544-557 (360-373) *)
Definition rcwa_in_bins (s : side) (g : grid) (rows : list arow) : res (list Z) :=
  match s with
  | Front => Ok (map Z.of_nat (seq 0 (length rows)))
  | Rear => rmap (fun r => rbind (bin_of g (PI - a_theta r) (a_phi r)) (fun b =>
                           Ok (b - Z.of_nat (length (g_av g) / 2))%Z)) rows
  end.

(* rcwa.py:561-640 (377-453): the loop over incidence directions; T and A_layer are stored at in_bin (566-567) *)
Fixpoint rcwa_loop (s : side) (g : grid) (wl n_in n_out phi_sym : R) (basis : list order) (g1 g2 : v2)
    (solve : R -> R -> rcwa_out) (i1 : nat) (todo : list (Z * arow)) (mat : list (list fl)) (A : list (list R))
  : res (list (list fl) * list (list R)) :=
  match todo with
  | [] => Ok (mat, A)
  | (ib, r) :: rest =>
      let o := solve (a_theta r) (a_phi r) in
      rbind (rcwa_writes s g wl n_in n_out phi_sym basis g1 g2 (a_theta r) (a_phi r) o) (fun ws =>
      rbind (rcwa_write_all i1 ib mat ws) (fun mat =>
      rbind (py_pos (length A) ib) (fun c =>
      rcwa_loop s g wl n_in n_out phi_sym basis g1 g2 solve (S i1) rest mat (set_nth c (q_A o) A))))
  end.

(* rcwa.py:501-678 (317-498) without profiles and layer_details, for the incidence directions 223-225: columns of
   mat_RT, and of A_layer.T with the flip of 668-669 (488-489) *)
Definition rcwa_matrix (s : side) (g : grid) (wl n_in n_out phi_sym : R) (basis : list order) (g1 g2 : v2)
    (n_layers : nat) (solve : R -> R -> rcwa_out) : res (list (list fl) * list (list R)) :=
  let h := (length (g_av g) / 2)%nat in
  let rows := firstn h (g_av g) in
  rbind (rcwa_in_bins s g rows) (fun ib =>
  rbind (rcwa_loop s g wl n_in n_out phi_sym basis g1 g2 solve 0 (combine ib rows)
           (repeat (repeat (Some 0) (length (g_av g))) h) (repeat (repeat 0 n_layers) h)) (fun out =>
  Ok (fst out, map (flip_rear s) (snd out)))).

(* ---------------- structure seen by the solver ---------------- *)

(* RCWA, rcwa.py:128-143, 153-182: material, width and geometry of each layer in the order of the solver.  The layers
   are turned for rear incidence (134); the geometries are collected from structure (141). *)
Record glayer (M G : Type) := mk_glayer { gl_mat : M; gl_width : R; gl_geom : G }.
Arguments mk_glayer {M G}. Arguments gl_mat {M G}. Arguments gl_width {M G}. Arguments gl_geom {M G}.

Definition rcwa_stack {M G} (s : side) (structure : list (glayer M G)) : list (glayer M G) :=
  let layers := match s with Front => structure | Rear => rev structure end in
  map2 (fun l geo => mk_glayer (gl_mat l) (gl_width l) geo) layers (map gl_geom structure).

(* np.sort; rcwa.py:138 *)
Fixpoint ins_nat (x : nat) (l : list nat) : list nat :=
  match l with [] => [x] | y :: r => if Nat.leb x y then x :: l else y :: ins_nat x r end.
Definition np_sort (l : list nat) : list nat := fold_right ins_nat [] l.

(* rcwa.py:137-138 and 157-173: depths of the profile.  Layers are numbered 1 .. number of layers. *)
Definition rcwa_dist (s : side) (widths : list R) (spacing : R) (layers : list nat) : res (list R) :=
  match s with
  | Front => profile_depths widths spacing layers
  | Rear => profile_depths (rev widths) spacing (np_sort (map (fun l => (length widths + 1 - l)%nat) layers))
  end.

(* rcwa.py:569-582, 668-672 and 280-291: stored profile of one wavelength and incidence direction, with its z coordinate.
   The solver's absorption per depth, measured from the side of incidence, is an argument; the profile is
   computed when the total absorption is positive. *)
Definition rcwa_profile (s : side) (widths : list R) (spacing : R) (layers : list nat) (prof : R -> R) (A : list R)
  : res (list R * list R) :=
  rbind (rcwa_dist s widths spacing layers) (fun dist =>
  let data := if Rltb 0 (rsum A) then map prof dist else repeat 0 (length dist) in
  Ok (dist, map clip (flip_rear s data))).
