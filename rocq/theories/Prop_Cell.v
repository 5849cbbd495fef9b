(* C197: rays and cells without periodic boundaries. *)
From Coq Require Import Reals List Bool ZArith Lia Lra.
From Verif Require Import Base Lib Model_Optics Model_OpticsC Model_RayIface Model_RayStack Model_Surface Model_RTStruct Model_Trace Model_StackRay
  Spec_Optics Spec_OpticsC Spec_RayIface Spec_RayStack Spec_Surface Spec_RTStruct Spec_Trace Spec_StackRay Spec_Cell
  Proof_Optics Proof_OpticsC Proof_Trace Proof_StackFlat Proof_Cell.
Import ListNotations.
Open Scope R_scope.

(* Over the cell the laws hold: a ray at the angle psi with the normal, coming from above (dir = 1) or below (dir = -1), that
   crosses the height z0 of a flat cell inside it, interacts once; it is sent back at the same angle, goes on at the angle of
   Snell's law or is absorbed, as the random number tells. *)
Theorem C197_met_partial : forall z0 a b E dir psi f n c ni nj here there r fuel,
  (forall T, In T (s_tris (e_surf E 0)) -> vz (t_P0 T) = z0 /\ vz (t_P1 T) = z0 /\ vz (t_P2 T) = z0 /\ 0 < plan_area T) ->
  (forall x y, 0 <= x < a -> 0 <= y < b -> exists T u v, In T (s_tris (e_surf E 0)) /\
    0 <= u /\ 0 <= v /\ u + v <= 1 /\ x = vx (t_P0 T) + u * (vx (t_P1 T) - vx (t_P0 T)) + v * (vx (t_P2 T) - vx (t_P0 T)) /\
    y = vy (t_P0 T) + u * (vy (t_P1 T) - vy (t_P0 T)) + v * (vy (t_P2 T) - vy (t_P0 T))) ->
  pm1 dir -> 0 <= psi < PI / 2 ->
  0 < (vz r - z0) * IZR dir -> crosses_cell 0 0 a b z0 r (pointing (polar_of dir psi) f) ->
  e_dec E = film_dec c ni nj ->
  (dir = 1%Z -> ni = here /\ nj = there) -> (dir = (-1)%Z -> ni = there /\ nj = here) ->
  optical_medium here -> optical_medium there -> e_rnd E n < 1 ->
  (forall ent, c = Coated ent -> re there <= re here * sin psi -> te_T (ent dir psi) <= 0) ->
  (forall ent, c = Coated ent -> in_phase here there \/ psi = 0) ->
  (forall p, c = Bare p -> re there = re here * sin psi -> 1 <= fresnel_Rc here there psi p) ->
  exists res, single_cell_check (2 + fuel) E (Some r) (pointing (polar_of dir psi) f) dir n = Some res /\ r_nint res = S n /\
  match meets_film c dir here there psi (e_rnd E n) with
  | Back => r_out res = OReflected (polar_of (- dir) psi) /\ r_dir res = pointing (polar_of (- dir) psi) f
  | Onward => exists psi', 0 <= psi' < PI / 2 /\ re here * sin psi = re there * sin psi' /\
      r_out res = OTransmitted (polar_of dir psi') /\ r_dir res = pointing (polar_of dir psi') f
  | Stays A => r_out res = OAbsorbed A
  end.
Proof.
  intros z0 a b E dir psi f n c ni nj here there r fuel Hf Hc Hd Ht Hr Hx HD H1 H2 Mh Mt Hu HT HF HC.
  assert (OD : pm1 (- dir)) by (destruct Hd as [-> | ->]; [right|left]; reflexivity).
  rewrite <- (travel_pointing dir psi f Hd) in *. rewrite <- (travel_pointing (- dir) psi f OD) in *.
  destruct (cell_film z0 a b E dir psi f n Hf Hc Hd Ht c ni nj here there r fuel Hr Hx HD H1 H2 Mh Mt Hu HT HF HC) as (res & K1 & K2 & K3).
  exists res. split; auto. split; auto. destruct (meets_film _ _ _ _ _ _); auto.
  destruct K3 as (psi' & P1 & P2 & P3 & P4). exists psi'. rewrite <- travel_pointing by auto. auto.
Qed.
Print Assumptions C197_met_partial.

(* Beside the cell nothing happens: the ray is reported as transmitted, in the same direction, without an interaction and
   whatever the surface is.  For every shape of the surface. *)
Theorem C197_beside_refuted : forall E a b lo hi r d side n fuel, fits a b lo hi (e_surf E 0) -> beside a b lo hi r d ->
  single_cell_check (S fuel) E (Some r) d side n =
  Some {| r_out := OTransmitted (polar d); Model_RayIface.r_pos := Some r; r_dir := d; r_loc := 0; r_nint := n; r_side := side |}.
Proof. exact cell_beside. Qed.
Print Assumptions C197_beside_refuted.

(* A ray that has no surface before it goes straight through all the media that are left, for every structure and every
   refractive index, and comes out in the last medium or is absorbed on its way. *)
Theorem C197_straight_refuted : forall U fuel n m outer st p, u_periodic U = false -> u_randomize U = false -> layered U n ->
  x_pos st = Some p -> clear_of U p (x_dir st) -> heads_for n m (x_st st) -> (m <= outer)%nat ->
  exists fin, frun outer (S fuel) U st = Some (Ok fin) /\
  x_dir fin = x_dir st /\ x_nint fin = x_nint st /\ s_dir (x_st fin) = s_dir (x_st st) /\
  (s_theta (x_st fin) = None \/
   s_theta (x_st fin) = Some (polar (x_dir st)) /\ s_mat (x_st fin) = if Z.eqb (s_dir (x_st st)) 1 then Z.of_nat n else 0%Z).
Proof.
  intros U fuel n m outer st p HP HR HL Hp HC HH Ho. replace outer with (m + (outer - m))%nat by lia. now apply (run_ends U fuel n HP HR HL m _ st p).
Qed.
Print Assumptions C197_straight_refuted.

(* "a ray that has gone through a flat structure obeys Snell's law" is false without periodic boundaries: a layer of index 2
   on air, 10 um thick, with cells of 1 um; light at 45 degrees in it cannot get out (2 sin 45 > 1), but is transmitted with
   all its power, at 45 degrees *)
Theorem C197_snell_refuted : exists U fin, u_periodic U = false /\ stack_of (u_K U) [10] /\
  u_nks U = [creal 2; creal 2; creal 1] /\
  (exists f0 f1, u_faces U = [f0; f1] /\ level_face 0 f0 /\ level_face (-10) f1 /\
     f_dec f0 = film_dec (Bare PolU) /\ f_dec f1 = film_dec (Bare PolU)) /\
  trace_stack 2 2 U (start_vector 0 (PI / 4) PI) (1 / 2) (1 / 2) 0 1 = Some (Ok fin) /\
  s_theta (x_st fin) = Some (PI - PI / 4) /\ s_mat (x_st fin) = 2%Z /\ s_I (x_st fin) = 1 /\ 1 < 2 * sin (PI / 4).
Proof.
  destruct pane_trace as (fin & T & A1 & A2 & A3 & A4 & A5). exists pane, fin.
  split; [reflexivity|]. split; [exact pane_stack|]. split; [reflexivity|].
  split; [exists (pane_face 0), (pane_face (-10)); split; [reflexivity|]; split; [apply pane_level|]; split; [apply pane_level|]; auto|].
  split; auto. split; auto. split; auto. split; auto.
  rewrite sin_PI4. assert (Q : 0 < sqrt 2) by (apply sqrt_lt_R0; lra). assert (QQ : sqrt 2 * sqrt 2 = 2) by (apply sqrt_sqrt; lra).
  replace (2 * (1 / sqrt 2)) with (sqrt 2) by (rewrite <- QQ at 2; field; lra). nra.
Qed.
Print Assumptions C197_snell_refuted.

(* a ray beside a square, and one over it *)
Example C197_case : fits 1 1 0 0 (square 0) /\ beside 1 1 0 0 (mkv 3 (1 / 2) 1) (mkv 0 0 (-1)) /\
  crosses_cell 0 0 1 1 0 (mkv (1 / 2) (1 / 2) 1) (mkv 0 0 (-1)).
Proof.
  split; [apply square_fits|]. split.
  - intros t Ht Hz. left. left. cbn [vx]. lra.
  - exists 1. cbn [vx vy vz]. lra.
Qed.

(* a ray in the second medium of the pane, beside its cell *)
Definition stray : fstate :=
  {| x_st := {| s_dir := 1; s_mat := 1; s_surf := 1; s_I := 1; s_theta := None; s_profile := []; s_A := [0; 0; 0]; s_passes := 1; s_Aint := []; s_Aidx := 0 |};
     x_pos := Some (mkv 3 (1 / 2) (-1)); x_dir := mkv (3 / 5) 0 (- (4 / 5)); x_nint := 1; x_checks := 1; x_phi := 0; x_loc := 0 |}.

Example C197_straight_case : u_periodic pane = false /\ u_randomize pane = false /\ layered pane 2 /\
  x_pos stray = Some (mkv 3 (1 / 2) (-1)) /\ clear_of pane (mkv 3 (1 / 2) (-1)) (x_dir stray) /\ heads_for 2 1 (x_st stray).
Proof.
  split; [reflexivity|]. split; [reflexivity|]. split; [repeat split|]. split; [reflexivity|]. split.
  - intros f k Hf. cbn [pane u_faces In] in Hf. destruct Hf as [<-|[<-|[]]]; [exists 1, 1, 0, 0|exists 1, 1, (-10), (-10)];
      (split; [apply square_fits|]); intros t Ht Hz; left; left; cbn [stray x_dir vx]; lra.
  - split; [lia|]. left. cbn [stray x_st s_dir s_surf s_mat]. lia.
Qed.

(* a ray at 45 degrees that meets the front of the pane *)
Example C197_met_case : exists res, single_cell_check 2 (face_env pane (pane_face 0) 0 (creal 2) (creal 1)) (Some (mkv (1 / 2) (1 / 2) (1 / 4)))
    (pointing (polar_of 1 (PI / 4)) 0) 1 0 = Some res /\ r_nint res = 1%nat.
Proof.
  pose proof PI_RGT_0 as PP. assert (C : 0 < cos (PI / 4)) by (apply cos_gt_0; lra). assert (CS : sin (PI / 4) = cos (PI / 4)) by apply sin_cos_PI4.
  destruct (C197_met_partial 0 1 1 (face_env pane (pane_face 0) 0 (creal 2) (creal 1)) 1%Z (PI / 4) 0 0%nat (Bare PolU) (creal 2) (creal 1) (creal 2) (creal 1)
    (mkv (1 / 2) (1 / 2) (1 / 4)) 0%nat) as (res & R1 & R2 & _); try (intros; discriminate); try lra; auto.
  - exact (square_level 0).
  - intros x y Hx Hy. apply (square_covers 0); lra.
  - left; reflexivity.
  - cbn [vz]. lra.
  - exists (1 / 4 / cos (PI / 4)). rewrite <- (travel_pointing 1 (PI / 4) 0) by (left; reflexivity). unfold travel. cbn [vx vy vz]. rewrite cos_0, sin_0, CS.
    replace (1 / 4 / cos (PI / 4) * (cos (PI / 4) * 1)) with (1 / 4) by (field; lra).
    replace (1 / 4 / cos (PI / 4) * (cos (PI / 4) * 0)) with 0 by (field; lra).
    split; [field; lra|]. split; lra.
  - split; cbn [re im creal]; lra.
  - split; cbn [re im creal]; lra.
  - cbn [face_env e_rnd pane u_draws dr_rnd]. lra.
  - intros q _ Eq. exfalso. cbn [re creal] in Eq. pose proof (cos_sin_sq (PI / 4)). rewrite CS in *. nra.
  - eauto.
Qed.

(* ---------------- C198 ---------------- *)

(* where the ray for the point (x, y) comes down to height 0: it starts over the point, h + 1e-8 above 0, and moves sideways
   on its way *)
Theorem C198_landing_partial : forall h theta phi x y widths, 0 <= theta < PI / 2 -> 0 <= h ->
  exists p d t, stack_start widths (start_vector h theta phi) x y 0 1 = Ok (p, d, 0%Z) /\ 0 < t /\
    vadd p (vscale t d) = mkv (x - (h + 1 / 10 ^ 8) * tan theta * cos phi) (y - (h + 1 / 10 ^ 8) * tan theta * sin phi) 0.
Proof.
  intros h theta phi x y widths Ht Hh. assert (C : 0 < cos theta) by (apply cos_gt_0; lra).
  exists (mkv x y (h + 1 / 10 ^ 8)), (travel 1 theta (phi + PI)), ((h + 1 / 10 ^ 8) / cos theta).
  split; [now apply start_exact|]. split.
  - apply Rmult_lt_0_compat; [lra|]. now apply Rinv_0_lt_compat.
  - rewrite neg_phi. unfold vadd, vscale, tan. apply vec_ext; cbn [vx vy vz]; field; lra.
Qed.
Print Assumptions C198_landing_partial.

(* "the ray for the point (x, y) comes down at (x, y)" is false for every oblique direction *)
Theorem C198_aim_refuted : forall h theta phi x y widths, 0 < theta < PI / 2 -> 0 <= h ->
  exists p d, stack_start widths (start_vector h theta phi) x y 0 1 = Ok (p, d, 0%Z) /\
    forall t, vadd p (vscale t d) <> mkv x y 0.
Proof.
  intros h theta phi x y widths Ht Hh. assert (C : 0 < cos theta) by (apply cos_gt_0; lra).
  assert (S : 0 < sin theta) by (apply sin_gt_0; lra).
  exists (mkv x y (h + 1 / 10 ^ 8)), (travel 1 theta (phi + PI)). split; [apply start_exact; lra|].
  intros t E. rewrite neg_phi in E.
  assert (X : x + t * - (sin theta * cos phi) = x) by exact (f_equal vx E).
  assert (Y : y + t * - (sin theta * sin phi) = y) by exact (f_equal vy E).
  assert (Z : h + 1 / 10 ^ 8 + t * (- (1) * cos theta) = 0) by exact (f_equal vz E).
  assert (T : t <> 0) by (intros ->; lra).
  assert (X' : sin theta * cos phi = 0). { apply Rmult_eq_reg_l with t; auto. lra. }
  assert (Y' : sin theta * sin phi = 0). { apply Rmult_eq_reg_l with t; auto. lra. }
  assert (cos phi = 0) by (apply Rmult_eq_reg_l with (sin theta); lra).
  assert (sin phi = 0) by (apply Rmult_eq_reg_l with (sin theta); lra).
  pose proof (cos_sin_sq phi). nra.
Qed.
Print Assumptions C198_aim_refuted.

(* a peak of height 10 on a cell of size 1: at 45 degrees no ray of the grid is over the cell when it is down to height 1, so
   that none is aimed at the part of the surface below *)
Theorem C198_lower_part_refuted : forall x y widths, 0 < x < 1 -> 0 < y < 1 ->
  exists p d, stack_start widths (start_vector 10 (PI / 4) PI) x y 0 1 = Ok (p, d, 0%Z) /\ beside 1 1 0 1 p d.
Proof.
  intros x y widths Hx Hy. pose proof PI_RGT_0 as PP.
  assert (F1 : cos (PI + PI) = 1) by (rewrite neg_cos, cos_PI; ring).
  assert (CS : sin (PI / 4) = cos (PI / 4)) by apply sin_cos_PI4.
  exists (mkv x y (10 + 1 / 10 ^ 8)), (travel 1 (PI / 4) (PI + PI)). split; [apply start_exact; lra|].
  intros t Ht Hz. left. left. unfold travel in *. cbn [vx vy vz] in *. rewrite F1, CS. lra.
Qed.
Print Assumptions C198_lower_part_refuted.

Example C198_case : (0 <= PI / 4 < PI / 2) /\ 0 < (10 + 1 / 10 ^ 8) * tan (PI / 4).
Proof. pose proof PI_RGT_0. rewrite tan_PI4. lra. Qed.
