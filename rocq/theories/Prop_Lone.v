(* C199: light reflected by a pyramid that is not repeated. *)
From Coq Require Import Reals List Bool ZArith Lra Lia.
From Verif Require Import Base Lib Model_Optics Spec_Optics Proof_Optics Proof_OpticsProps Model_OpticsC Model_RayIface Spec_RayIface Model_Surface Spec_Shallow
  Proof_Shallow Proof_Surface2 Proof_Surface4 Proof_Pyramid Prop_Surface Prop_Shallow Proof_Steep Prop_Steep Proof_Lone
  Model_RayStack Model_StackRay Spec_Cell Proof_Cell.
Import ListNotations.
Open Scope R_scope.

(* the random number is one for which a facet that is met at the angle a reflects *)
Definition reflects (dec : decision) (u a : R) : Prop :=
  (exists ni nj p, dec = fresnel_decision ni nj p /\ u <= fresnel_R ni nj a p) \/
  (exists ni nj p, dec = fresnel_decision_c ni nj p /\ u <= fresnel_Rc ni nj a p) \/
  (exists ni nj ent, dec = table_decision ni nj ent /\ u <= te_R (ent 1%Z a)) \/
  (exists ni nj ent, dec = table_decision_c ni nj ent /\ u <= te_R (ent 1%Z a)).

Lemma reflects_dec dec u a th N d' : reflects dec u a -> Rabs th = a -> normalise (reflect (mkv 0 0 (-1)) N) = d' ->
  dec 1%Z th (mkv 0 0 (-1)) (vscale (IZR 1) N) u = (d', 1%Z, None).
Proof.
  intros Hd T1 R1. assert (EN : vscale (IZR 1) N = N) by (apply vec_ext; unfold vscale; cbn; ring). rewrite EN.
  destruct Hd as [(ni & nj & p & Ed & Hr)|[(ni & nj & p & Ed & Hr)|[(ni & nj & ent & Ed & Hr)|(ni & nj & ent & Ed & Hr)]]]; rewrite Ed.
  - unfold fresnel_decision. cbn [Z.eqb Pos.eqb]. rewrite decide_abs, T1. unfold decide_RT_Fresnel.
    rewrite (proj2 (Rleb_true _ _) Hr), R1. reflexivity.
  - unfold fresnel_decision_c. cbn [Z.eqb Pos.eqb]. rewrite decide_abs_c, T1. unfold decide_RT_Fresnel_c.
    rewrite (proj2 (Rleb_true _ _) Hr), R1. reflexivity.
  - unfold table_decision, decide_RT_TMM. cbn [Z.eqb Pos.eqb]. rewrite T1. rewrite (proj2 (Rleb_true _ _) Hr), R1. reflexivity.
  - unfold table_decision_c, decide_RT_TMM_c. cbn [Z.eqb Pos.eqb]. rewrite T1. rewrite (proj2 (Rleb_true _ _) Hr), R1. reflexivity.
Qed.

(* Pyramids of up to 45 degrees: reflected once, at twice the angle, and reported as reflected. *)
Theorem C199_gentle_partial : forall del angle size cov fr re E q n fuel,
  0 < angle <= 45 -> 0 < size -> regular_pyramids del angle size true cov None 0 = Ok (fr, re) -> pyramid_triangulation (su_simp fr) ->
  e_surf E 0 = as_surface fr -> straight_at 1 (su_pts fr) size q (mkv 0 0 (-1)) -> clear_of_edges size q ->
  let a := angle * PI / 180 in reflects (e_dec E) (e_rnd E n) a ->
  exists res, single_cell_check (2 + fuel) E (Some q) (mkv 0 0 (-1)) 1 n = Some res /\
    r_out res = OReflected (2 * a) /\ r_side res = 1%Z /\ r_nint res = S n /\ vz (r_dir res) = cos (2 * a).
Proof.
  intros del angle size cov fr re E q n fuel HA HS H3 H4 H5 H6 H7 a Hd. assert (HA' : 0 < angle < 90) by lra.
  destruct (lone_once del angle size cov fr re E q n HA' HS H3 H4 H5 H6 H7) as (N & d' & th & _ & _ & _ & T & R & V & _ & _ & K). fold a in T, V, K.
  destruct (K fuel (reflects_dec _ _ a th N d' Hd T R)) as [p Kp]. eexists. split; [exact Kp|]. cbn [r_out r_side r_nint r_dir].
  destruct (Rltb (cos (2 * a)) 0) eqn:L; [|auto]. exfalso. apply Rltb_true in L.
  assert (0 <= cos (2 * a)); [|lra]. pose proof PI_RGT_0. assert (0 <= (45 - angle) * PI) by (apply Rmult_le_pos; lra).
  assert (0 < angle * PI) by (apply Rmult_lt_0_compat; lra). apply cos_ge_0; unfold a; lra.
Qed.
Print Assumptions C199_gentle_partial.

(* Steeper pyramids: the ray is reflected, by the law of reflection, and stays in the medium it came from; there is nothing else
   in its way, and it is reported as transmitted.  For every size, point of entry off the edges, medium, table and polarisation. *)
Theorem C199_steep_refuted : forall del angle size cov fr re E q n fuel,
  45 < angle < 90 -> 0 < size -> regular_pyramids del angle size true cov None 0 = Ok (fr, re) -> pyramid_triangulation (su_simp fr) ->
  e_surf E 0 = as_surface fr -> straight_at 1 (su_pts fr) size q (mkv 0 0 (-1)) -> clear_of_edges size q ->
  let a := angle * PI / 180 in reflects (e_dec E) (e_rnd E n) a ->
  exists res N, single_cell_check (2 + fuel) E (Some q) (mkv 0 0 (-1)) 1 n = Some res /\
    unit N /\ vz N = cos a /\ mirror_law (mkv 0 0 (-1)) (r_dir res) N /\
    r_out res = OTransmitted (2 * a) /\ r_side res = 1%Z /\ r_nint res = S n.
Proof.
  intros del angle size cov fr re E q n fuel HA HS H3 H4 H5 H6 H7 a Hd. assert (HA' : 0 < angle < 90) by lra.
  destruct (lone_once del angle size cov fr re E q n HA' HS H3 H4 H5 H6 H7) as (N & d' & th & U & _ & VN & T & R & V & _ & M & K). fold a in VN, T, V, K.
  destruct (K fuel (reflects_dec _ _ a th N d' Hd T R)) as [p Kp]. eexists _, N. split; [exact Kp|]. cbn [r_out r_side r_nint r_dir].
  split; [exact U|]. split; [exact VN|]. split; [exact M|].
  destruct (Rltb (cos (2 * a)) 0) eqn:L; [auto|]. exfalso. apply Rltb_false in L.
  assert (cos (2 * a) < 0); [|lra]. pose proof PI_RGT_0. assert (0 < (angle - 45) * PI) by (apply Rmult_lt_0_compat; lra).
  assert (0 < (90 - angle) * PI) by (apply Rmult_lt_0_compat; lra). apply cos_lt_0; unfold a; lra.
Qed.
Print Assumptions C199_steep_refuted.

(* In a structure the reflected ray is then taken to be in the medium below. *)
Theorem C199_structure_refuted : forall del angle size cov fr re U l m st f q ni nj fuel,
  45 < angle < 90 -> 0 < size -> regular_pyramids del angle size true cov None 0 = Ok (fr, re) -> pyramid_triangulation (su_simp fr) ->
  u_periodic U = false -> u_randomize U = false -> layered U l -> heads_for l m (x_st st) ->
  py_index (u_faces U) (s_surf (x_st st)) = Ok f -> f_surf f (x_checks st) 0 = as_surface fr ->
  s_dir (x_st st) = 1%Z -> x_pos st = Some q -> x_dir st = mkv 0 0 (-1) -> straight_at 1 (su_pts fr) size q (mkv 0 0 (-1)) -> clear_of_edges size q ->
  py_index (u_nks U) (s_mat (x_st st)) = Ok ni -> py_index (u_nks U) (s_mat (x_st st) + 1)%Z = Ok nj ->
  let a := angle * PI / 180 in reflects (f_dec f ni nj) (dr_rnd (u_draws U) (x_nint st)) a ->
  exists o, fstep (2 + fuel) U st = Some (Ok o) /\ let s := x_st (match o with inl s => s | inr s => s end) in
  s_dir s = 1%Z /\ s_mat s = (s_mat (x_st st) + 1)%Z /\ (s_theta s = None \/ s_theta s = Some (2 * a)).
Proof.
  intros del angle size cov fr re U l m st f q ni nj fuel HA HS H3 H4 HP HR (_ & _ & L3 & L4 & L5) HH Hf Hs Hd Hq Hdir H6 H7 Hni Hnj a Hrf.
  destruct (C199_steep_refuted del angle size cov fr re (face_env U f (x_checks st) ni nj) q (x_nint st) fuel HA HS H3 H4 Hs H6 H7 Hrf)
    as (res & N & K & _ & _ & _ & K2 & _). fold a in K2.
  destruct (sstep_out (u_K U) l m (x_st st) (2 * a) L3 L4 L5 HH) as (o & Es & _).
  assert (FS : fstep (2 + fuel) U st = Some (Ok (let after s' := {| x_st := s'; x_pos := Model_RayIface.r_pos res; x_dir := r_dir res; x_nint := r_nint res;
      x_checks := S (x_checks st); x_phi := check_phi res; x_loc := r_loc res |} in match o with inl s => inl (after s) | inr s => inr (after s) end))).
  { unfold fstep. cbv zeta. rewrite Hf. unfold face_ray. rewrite HP, HR. cbn [andb]. rewrite Hq, Hdir, Hd. cbn [Z.eqb Pos.eqb]. rewrite Hni. cbn [rbind]. rewrite Hnj. cbn [rbind].
    rewrite K. cbn [option_map]. rewrite K2, Es. destruct o; reflexivity. }
  eexists. split; [exact FS|]. apply sstep_onward in Es. rewrite Hd in Es. destruct o; cbn [x_st]; intuition.
Qed.
Print Assumptions C199_structure_refuted.

(* a point half-way down a facet *)
Lemma halfway angle f r : 0 < angle <= 54 -> regular_pyramids del4 angle 1 true None None 0 = Ok (f, r) ->
  pyramid_triangulation (su_simp f) /\ straight_at 1 (su_pts f) 1 (mkv (1 / 2) (1 / 4) 1) (mkv 0 0 (-1)) /\ clear_of_edges 1 (mkv (1 / 2) (1 / 4) 1).
Proof.
  intros HA E. pose proof PI_RGT_0. destruct (made_simp _ _ _ _ _ _ _ Rlt_0_1 E) as [[l Hl] _].
  split; [rewrite Hl; exact del4_faces|]. split.
  - assert (HA' : 0 < angle < 90) by lra.
    destruct (made_pyramid _ _ _ _ _ _ _ _ HA' Rlt_0_1 E (or_introl eq_refl)) as (t & Ht & Hp & _).
    cbn [vx vy vz]. split; [cbn; lra|]. split; [cbn; lra|]. split; [|reflexivity].
    assert (T1 : tan (angle * PI / 180) < 2).
    { assert (0 < angle * PI) by (apply Rmult_lt_0_compat; lra). assert (0 <= (54 - angle) * PI) by (apply Rmult_le_pos; lra).
      assert (T3 : tan (angle * PI / 180) < tan (PI / 3)) by (apply tan_increasing; lra). rewrite tan_PI3 in T3.
      assert (sqrt 3 < 2). { replace 2 with (sqrt 4) by (replace 4 with (2 * 2) by ring; apply sqrt_square; lra). apply sqrt_lt_1; lra. } lra. }
    rewrite <- Ht in T1. destruct (Rabs_def2 _ _ T1) as [T2 T3].
    rewrite Hp, pyr_points. intros v Hv. cbn in Hv. cbn [vz].
    destruct Hv as [<-|[<-|[<-|[<-|[<-|[]]]]]]; cbn; lra.
  - unfold clear_of_edges. cbn [vx vy]. split; [lra|]. split; [lra|]. split; [rewrite Rabs_right; lra|rewrite Rabs_left; lra].
Qed.

(* 54 degrees: reported as transmitted at 108 degrees; 30 degrees: as reflected at 60 *)
Example C199_case : exists f r res, regular_pyramids del4 54 1 true None None 0 = Ok (f, r) /\
  single_cell_check 2 (half_env f) (Some (mkv (1 / 2) (1 / 4) 1)) (mkv 0 0 (-1)) 1 0 = Some res /\
  r_out res = OTransmitted (3 * PI / 5) /\ r_side res = 1%Z.
Proof.
  destruct (regular_ok del4 54 1 true None None 0 Rlt_0_1) as (f & r & E). exists f, r.
  destruct (halfway 54 f r ltac:(lra) E) as (HT & HR & HC). assert (HA : 45 < 54 < 90) by lra.
  destruct (C199_steep_refuted del4 54 1 None f r (half_env f) (mkv (1 / 2) (1 / 4) 1) 0 0 HA Rlt_0_1 E HT eq_refl HR HC) as (res & N & K1 & _ & _ & _ & K2 & K3 & _).
  { right. right. left. eexists _, _, _. split; [reflexivity|]. cbn. lra. }
  exists res. split; [exact E|]. split; [exact K1|]. split; [|exact K3]. rewrite K2. f_equal. field.
Qed.

Example C199_gentle_case : exists f r res, regular_pyramids del4 30 1 true None None 0 = Ok (f, r) /\
  single_cell_check 2 (half_env f) (Some (mkv (1 / 2) (1 / 4) 1)) (mkv 0 0 (-1)) 1 0 = Some res /\
  r_out res = OReflected (PI / 3) /\ r_side res = 1%Z.
Proof.
  destruct (regular_ok del4 30 1 true None None 0 Rlt_0_1) as (f & r & E). exists f, r.
  destruct (halfway 30 f r ltac:(lra) E) as (HT & HR & HC). assert (HA : 0 < 30 <= 45) by lra.
  destruct (C199_gentle_partial del4 30 1 None f r (half_env f) (mkv (1 / 2) (1 / 4) 1) 0 0 HA Rlt_0_1 E HT eq_refl HR HC) as (res & K1 & K2 & K3 & _).
  { right. right. left. eexists _, _, _. split; [reflexivity|]. cbn. lra. }
  exists res. split; [exact E|]. split; [exact K1|]. split; [|exact K3]. rewrite K2. f_equal. field.
Qed.

(* a structure with the pyramid on top and a flat rear *)
Definition pyr_front (f : rtsurf) : Model_StackRay.facing :=
  {| f_surf := fun _ _ => as_surface f; f_Lx := 1; f_Ly := 1; f_zcov := 0; f_dec := fun _ _ => e_dec (half_env f) |}.
Definition pyr_pane (f : rtsurf) : setup :=
  {| u_K := u_K pane; u_faces := [pyr_front f; pane_face (-10)]; u_nks := u_nks pane;
     u_draws := {| dr_rnd := fun _ => 1 / 4; dr_xy := fun _ _ => (0, 0); dr_uv := fun _ => (0, 0) |}; u_randomize := false; u_periodic := false |}.
Definition above_pyr : fstate :=
  {| x_st := {| s_dir := 1; s_mat := 0; s_surf := 0; s_I := 1; s_theta := None; s_profile := []; s_A := [0; 0; 0]; s_passes := 0; s_Aint := []; s_Aidx := 0 |};
     x_pos := Some (mkv (1 / 2) (1 / 4) 1); x_dir := mkv 0 0 (-1); x_nint := 0; x_checks := 0; x_phi := 0; x_loc := 0 |}.

Example C199_structure_case : exists f r o, regular_pyramids del4 54 1 true None None 0 = Ok (f, r) /\
  fstep 2 (pyr_pane f) above_pyr = Some (Ok o) /\ s_mat (x_st (match o with inl s => s | inr s => s end)) = 1%Z.
Proof.
  destruct (regular_ok del4 54 1 true None None 0 Rlt_0_1) as (f & r & E). exists f, r.
  destruct (halfway 54 f r ltac:(lra) E) as (HT & HR & HC). assert (HA : 45 < 54 < 90) by lra.
  destruct (C199_structure_refuted del4 54 1 None f r (pyr_pane f) 2 2 above_pyr (pyr_front f) (mkv (1 / 2) (1 / 4) 1) (creal 2) (creal 2) 0) as (o & K1 & _ & K2 & _); try assumption; try reflexivity; try lra.
  - repeat split.
  - split; [lia|]. left. cbn [above_pyr x_st s_dir s_surf s_mat]. lia.
  - right. right. left. eexists _, _, _. split; [reflexivity|]. cbn. lra.
  - exists o. split; [exact E|]. split; [exact K1|]. exact K2.
Qed.
