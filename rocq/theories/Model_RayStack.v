(* Model of traverse, single_ray_stack and the sums made by rt_structure.calculate
   (ray_tracing/rt.py:1545-1776, 1856-1875, 1134-1209, 994-1032).

   What happens at the k-th surface check is an argument (an outcome of single_interface_check or
   single_cell_check, see Model_RayIface.v), so that positions and directions need not be carried:
   the statements hold for every sequence of outcomes.  phi, th_local, n_interactions and the
   randomised position are not modelled. *)
From Coq Require Import Reals List Bool ZArith.
From Verif Require Import Base Model_Optics Model_RayIface.
Import ListNotations.
Open Scope R_scope.

(* rt.py:1856-1875: DA, stop, I_back, theta (None: absorbed).  np.divide(..., where=intgr > 0,
   out=zeros) *)
Record trav := { tr_DA : list R; tr_stop : bool; tr_I : R; tr_theta : option R }.

Definition traverse (width theta alpha I_i : R) (positions : list R) (I_thresh : R) (direction : Z)
  : trav :=
  let ratio := alpha / Rabs (cos theta) in
  let DA_u := map (fun z => I_i * ratio * exp (- ratio * z)) positions in
  let I_back := I_i * exp (- ratio * width) in
  let stop := Rltb I_back I_thresh in
  let DA_u := if Z.eqb direction (-1) then rev DA_u else DA_u in
  let intgr := trapz DA_u positions in
  {| tr_DA := map (fun v => if Rltb 0 intgr then (I_i - I_back) * v / intgr else 0) DA_u;
     tr_stop := stop; tr_I := I_back; tr_theta := if stop then None else Some theta |}.

(* rt.py:1644-1650; np.cumsum(widths)[i1 - 1] with i1 = 0 is the last element *)
Definition cum_at (widths : list R) (i : Z) : R :=
  match py_index (cumsum widths) i with Ok w => w | Err _ => 0 end.

Definition depth_mask (widths z_pos : list R) (i : nat) : list bool :=
  map (fun z => Rltb z (cum_at widths (Z.of_nat i)) && Rleb (cum_at widths (Z.of_nat i - 1)) z) z_pos.

(* a[mask]; rt.py:1650 *)
Fixpoint select (mask : list bool) (l : list R) : list R :=
  match mask, l with
  | true :: m, x :: r => x :: select m r
  | false :: m, _ :: r => select m r
  | _, _ => []
  end.

(* a[mask] = a[mask] + v; rt.py:1758-1760 *)
Fixpoint add_masked (mask : list bool) (l v : list R) : list R :=
  match mask, l with
  | true :: m, x :: r =>
      match v with
      | y :: v' => (x + y) :: add_masked m r v'
      | [] => x :: r
      end
  | false :: m, x :: r => x :: add_masked m r v
  | _, _ => l
  end.

(* rt.py:1644-1650 *)
Definition depths_of (widths z_pos : list R) (i : nat) : list R :=
  map (fun z => z - cum_at widths (Z.of_nat i - 1)) (select (depth_mask widths z_pos i) z_pos).

(* rt.py:1585-1619, 1642, 1652 *)
Record sstate := {
  s_dir : Z; s_mat : Z; s_surf : Z;
  s_I : R; s_theta : option R; s_profile : list R; s_A : list R; s_passes : nat;
  s_Aint : list R; s_Aidx : Z }.     (* A_interface_array ([] for the initial 0), A_interface_index *)

(* rt.py:1545-1600 *)
Record stack := {
  k_widths : list R;                 (* with the zeros for both outer media, um *)
  k_alphas : list R;                 (* one per medium *)
  k_surfaces : nat;                  (* len(surfaces) *)
  k_zpos : list R; k_thresh : R }.

(* rt.py:1757 *)
Definition set_A (l : list R) (i : nat) (x : R) : list R := set_nth i x l.

(* one iteration of the while loop, rt.py:1654-1762, for the outcome of its surface check:
   inl: goes on, inr: stop is True at the end of the iteration *)
Definition sstep (K : stack) (st : sstate) (o : outcome) : res (sstate + sstate) :=
  (* surfaces[surf_index], nks[mat_index], nks[mat_index + 1] or nks[mat_index - 1] *)
  rbind (py_pos (k_surfaces K) (s_surf st)) (fun _ =>
  rbind (py_pos (length (k_alphas K)) (s_mat st)) (fun _ =>
  rbind (py_pos (length (k_alphas K)) (if Z.eqb (s_dir st) 1 then s_mat st + 1 else s_mat st - 1)%Z) (fun _ =>
  let last := (Z.of_nat (length (k_widths K)) - 1)%Z in
  let ends (dir mat : Z) := (Z.eqb dir 1 && Z.eqb mat last) || (Z.eqb dir (-1) && Z.eqb mat 0) in
  let go (dir mat surf : Z) (th : R) : res (sstate + sstate) :=
    let moved := {| s_dir := dir; s_mat := mat; s_surf := surf; s_I := s_I st; s_theta := Some th;
                    s_profile := s_profile st; s_A := s_A st; s_passes := s_passes st;
                    s_Aint := s_Aint st; s_Aidx := s_Aidx st |} in
    if ends dir mat then Ok (inr moved)
    else
      rbind (py_pos (length (k_widths K)) mat) (fun m =>
      rbind (py_index (k_alphas K) mat) (fun alpha =>
      let t := traverse (nth m (k_widths K) 0) th alpha (s_I st)
                 (depths_of (k_widths K) (k_zpos K) m) (k_thresh K) dir in
      let st' := {| s_dir := dir; s_mat := mat; s_surf := surf; s_I := tr_I t;
                    s_theta := tr_theta t;
                    s_profile := add_masked (depth_mask (k_widths K) (k_zpos K) m)
                                            (s_profile st) (tr_DA t);
                    s_A := set_A (s_A st) m (nth m (s_A st) 0 + s_I st - tr_I t);
                    s_passes := S (s_passes st);
                    s_Aint := s_Aint st; s_Aidx := s_Aidx st |} in
      if tr_stop t then Ok (inr st') else Ok (inl st'))) in
  match o with
  | OReflected th => let dir := (- s_dir st)%Z in go dir (s_mat st) (s_surf st + dir)%Z th
  | OTransmitted th => go (s_dir st) (s_mat st + s_dir st)%Z (s_surf st + s_dir st)%Z th
  | OAbsorbed A =>
      Ok (inr {| s_dir := s_dir st; s_mat := s_mat st; s_surf := s_surf st; s_I := 0; s_theta := None;
                 s_profile := s_profile st; s_A := s_A st; s_passes := s_passes st;
                 s_Aint := map (fun a => s_I st * a / rsum A) A;
                 s_Aidx := (s_surf st + 1)%Z |})
  end))).

(* rt.py:1654-1762 *)
Fixpoint srun (fuel : nat) (K : stack) (st : sstate) (outs : nat -> outcome) (k : nat)
  : option (res sstate) :=
  match fuel with
  | O => None
  | S n =>
      match sstep K st (outs k) with
      | Err e => Some (Err e)
      | Ok (inr st') => Some (Ok st')
      | Ok (inl st') => srun n K st' outs (S k)
      end
  end.

(* rt.py:1585-1619 *)
Definition sstart (K : stack) (mat_i direction_i : Z) : sstate :=
  {| s_dir := direction_i; s_mat := mat_i;
     s_surf := if Z.eqb direction_i 1 then mat_i else (mat_i - 1)%Z;
     s_I := 1; s_theta := None;
     s_profile := repeat 0 (length (k_zpos K)); s_A := repeat 0 (length (k_widths K));
     s_passes := 0; s_Aint := []; s_Aidx := 0 |}.

Definition single_ray_stack (fuel : nat) (K : stack) (mat_i direction_i : Z) (outs : nat -> outcome)
  : option (res sstate) :=
  srun fuel K (sstart K mat_i direction_i) outs 0.

(* ---------- sums over rays: parallel_inner (rt.py:1134-1209) and calculate (rt.py:994-1032) ------ *)

Definition refl (r : sstate) : bool :=
  match s_theta r with None => false | Some th => Rleb th (PI / 2) end.
Definition trns (r : sstate) : bool :=
  match s_theta r with None => false | Some th => Rltb (PI / 2) th end.
Definition pick (b : bool) (x : R) : R := if b then x else 0.

Record totals := { t_R : R; t_T : R; t_R0 : R; t_A : list R; t_Aint : list R; t_profile : list R }.

(* N = n_reps * nx * ny rays.  A_per_layer drops the entries of the outer media; t_Aint gives, for
   each surface, the total over its layers.  The profile is per nm (rt.py:1017, 1023). *)
Definition calculate_totals (K : stack) (rays : list sstate) : totals :=
  let N := INR (length rays) in
  {| t_R := rsum (map (fun r => pick (refl r) (s_I r) / N) rays);
     t_T := rsum (map (fun r => pick (trns r) (s_I r) / N) rays);
     t_R0 := rsum (map (fun r => pick (refl r && Nat.eqb (s_passes r) 0) (s_I r) / N) rays);
     t_A := removelast (tl (map (fun i => rsum (map (fun r => nth i (s_A r) 0 / N) rays))
                                (seq 0 (length (k_widths K)))));
     t_Aint := map (fun i => rsum (map (fun r => pick (Z.eqb (s_Aidx r) (Z.of_nat i + 1))
                                                     (rsum (s_Aint r) / N)) rays))
                   (seq 0 (k_surfaces K));
     t_profile := map (fun j => (let p := rsum (map (fun r => nth j (s_profile r) 0 / N) rays) in
                                 if Rltb p 0 then 0 else p) / 1000)
                      (seq 0 (length (k_zpos K))) |}.

(* widths and z_pos as built by calculate, rt.py:840-846, from the layer widths in um *)
Definition padded (ws : list R) : list R := 0 :: ws ++ [0].
Definition depth_grid (ws : list R) (z_space : R) : list R := arange0 (rsum (padded ws)) z_space.
