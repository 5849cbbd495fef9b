(* Properties of ray-tracing surfaces and textures: C40-C45, C84-C89. *)
From Coq Require Import Reals List Bool ZArith Lra Lia Psatz.
From Verif Require Import Base Lib Model_Optics Spec_Optics Proof_Optics Model_RayIface Model_Surface Spec_Surface
  Proof_Surface Proof_Surface2 Proof_Surface3 Proof_Surface4.
Import ListNotations.
Open Scope R_scope.

(* the triangulation of a pyramid: corners 0, 2, 4, 3 counter-clockwise, apex 1 *)
Definition del4 (_ : list (R * R)) : triples := [(0, 2, 1); (2, 4, 1); (4, 3, 1); (3, 0, 1)]%nat.

Lemma del4_ccw L w : 0 < L -> Forall (ccw (pyr L w)) (del4 []).
Proof.
  intros H. rewrite pyr_points. unfold del4, apex.
  repeat constructor; cbn; try lia; nra.
Qed.

(* ---------- C84 ---------- *)

(* After any history of shift and refresh: triangles, upward unit normals, z range and cell sizes belong to
   the current points; the normals are those used by the ray tracer; positions in the plane never change. *)
Theorem C84_surface_consistent : forall del p cov dist s ops,
  mk_surface del p cov dist = Ok s -> Forall (ccw p) (su_simp s) ->
  consistent (do_ops s ops) /\ su_N (do_ops s ops) = map t_N (s_tris (as_surface (do_ops s ops))) /\
  map (fun v => (vx v, vy v)) (su_pts (do_ops s ops)) = map (fun v => (vx v, vy v)) p /\
  su_simp (do_ops s ops) = su_simp s.
Proof. exact C84_all. Qed.
Print Assumptions C84_surface_consistent.

Example C84_example : exists s, mk_surface del4 (pyr 2 1) None (Some [1; 2]) = Ok s /\ Forall (ccw (pyr 2 1)) (su_simp s) /\
  length (su_tris (do_ops s [OShift 3; ORefresh 2])) = 4%nat.
Proof.
  destruct (mk_ok_cell del4 (pyr 2 1) (Some [1; 2]) None 2 2 (pyr_fills 2 1 ltac:(lra))) as [s E]; [exists (mkv 0 0 0); split; [now left | reflexivity]|].
  exists s. destruct (mk_fields _ _ _ _ _ E) as (_ & _ & _ & D & _ & S). split; [exact E|]. rewrite S. split; [apply del4_ccw; lra|].
  unfold do_ops. cbn [fold_left do_op]. unfold refresh, shift. cbn [su_dist]. rewrite D. cbn [su_tris su_simp]. rewrite S. reflexivity.
Qed.

(* ---------- C40 ---------- *)

(* True part: any number of shifts moves everything together, any number of refreshes of a surface that was
   never shifted keeps the level zcov and gives the highest point the drawn height.
   Missing: a refresh after a shift. *)
Theorem C40_shift_or_refresh_partial :
  (forall del p cov dist s l, mk_surface del p cov dist = Ok s -> Forall (ccw p) (su_simp s) ->
     let s' := do_ops s (map OShift l) in
     su_pts s' = map (fun v => mkv (vx v) (vy v) (vz v - rsum l)) p /\
     su_zmin s' = su_zmin s - rsum l /\ su_zmax s' = su_zmax s - rsum l /\ su_zcov s' = su_zcov s - rsum l /\
     su_N s' = su_N s) /\
  (forall del p cov d s hs h, mk_surface del p cov (Some d) = Ok s -> Forall (ccw p) (su_simp s) ->
     let s' := do_ops s (map ORefresh (hs ++ [h])) in
     su_zcov s' = su_zcov s /\
     exists c k, 0 <= c /\ (k < length p)%nat /\
       (forall v, In v p -> Rabs (vz v) <= Rabs (vz (nth k p v0))) /\
       (vz (nth k p v0) <> su_zcov s -> c * Rabs (vz (nth k p v0) - su_zcov s) = Rabs h) /\
       length (su_pts s') = length p /\
       forall i, (i < length p)%nat ->
         nth i (su_pts s') v0 = mkv (vx (nth i p v0)) (vy (nth i p v0)) (su_zcov s + c * (vz (nth i p v0) - su_zcov s))).
Proof.
  split; [|exact refreshes_all]. intros del p cov dist s l E F.
  assert (H := shifts_all p l s (inv_mk _ _ _ _ _ E F)). cbn zeta in *.
  destruct (mk_fields _ _ _ _ _ E) as (_ & _ & Q & _). rewrite Q in H. exact H.
Qed.
Print Assumptions C40_shift_or_refresh_partial.

(* Whenever a surface is shifted by dz and then given a nonzero height, the points of its base end up away
   from its coverage height. *)
Theorem C40_refresh_after_shift_refuted :
  (forall del p cov d s dz h i, mk_surface del p cov (Some d) = Ok s -> Forall (ccw p) (su_simp s) ->
     (i < length p)%nat -> vz (nth i p v0) = su_zcov s -> dz <> 0 -> h <> 0 ->
     (forall k, vz (nth k p v0) <> su_zcov s - dz) ->
     vz (nth i (su_pts (do_ops s [OShift dz; ORefresh h])) v0) <> su_zcov (do_ops s [OShift dz; ORefresh h])) /\
  (exists s, mk_surface del4 (pyr 2 1) None (Some [1]) = Ok s /\ Forall (ccw (pyr 2 1)) (su_simp s) /\
     vz (nth 0 (pyr 2 1) v0) = su_zcov s /\
     vz (nth 0 (su_pts (do_ops s [OShift 3; ORefresh 1])) v0) <> su_zcov (do_ops s [OShift 3; ORefresh 1])).
Proof.
  assert (G : forall del p cov d s dz h i, mk_surface del p cov (Some d) = Ok s -> Forall (ccw p) (su_simp s) ->
     (i < length p)%nat -> vz (nth i p v0) = su_zcov s -> dz <> 0 -> h <> 0 ->
     (forall k, vz (nth k p v0) <> su_zcov s - dz) ->
     vz (nth i (su_pts (do_ops s [OShift dz; ORefresh h])) v0) <> su_zcov (do_ops s [OShift dz; ORefresh h])).
  { intros del p cov d s dz h i E F Hi B Hd Hh Hk. cbn [do_ops fold_left do_op].
    destruct (shift_refresh _ _ _ _ _ dz h i E F Hi B) as [Z P]. rewrite Z. intros Q. rewrite Q in P.
    assert (X : Rabs (h / (vz (nth (su_hind s) p v0) - (su_zcov s - dz))) * dz = 0) by lra.
    apply Rmult_integral in X. destruct X as [X|X]; [|contradiction].
    revert X. apply Rabs_no_R0. apply Rmult_integral_contrapositive_currified; [exact Hh|].
    apply Rinv_neq_0_compat. specialize (Hk (su_hind s)). lra. }
  split; [exact G|].
  destruct (mk_ok_cell del4 (pyr 2 1) (Some [1]) None 2 2 (pyr_fills 2 1 ltac:(lra))) as [s E]; [exists (mkv 0 0 0); split; [now left | reflexivity]|].
  exists s. destruct (mk_fields _ _ _ _ _ E) as (_ & _ & _ & D & C & S).
  assert (F : Forall (ccw (pyr 2 1)) (su_simp s)) by (rewrite S; apply del4_ccw; lra).
  assert (Z : su_zcov s = 0).
  { unfold find_zcov in C. destruct (pyr_fills 2 1 ltac:(lra)) as (X & _ & Y & _). unfold xs_of, ys_of in C.
    rewrite (is_min_eq _ _ X), (is_min_eq _ _ Y) in C. rewrite pyr_points in C. cbn [filter vx vy] in C.
    rewrite (proj2 (reqb_iff 0 0) eq_refl) in C. cbn [andb vz] in C. injection C as C. congruence. }
  split; [exact E|]. split; [exact F|]. split; [rewrite Z; reflexivity|].
  apply (G _ _ _ _ _ 3 1 0%nat E F); [cbn; lia | rewrite Z; reflexivity | lra | lra|].
  intros k. rewrite Z, pyr_points. unfold apex. do 5 (destruct k as [|k]; [cbn; lra|]). destruct k; cbn; lra.
Qed.
Print Assumptions C40_refresh_after_shift_refuted.

(* ---------- C41 ---------- *)

(* A triangle's contribution is its area exactly if its edges at the second vertex are perpendicular or the
   product of their lengths is 1; if all are, the stored value is total area over cell area. *)
Theorem C41_area_partial :
  (forall T, area_term T = Some (tri_area T) <->
     dot (vsub (t_P0 T) (t_P1 T)) (vsub (t_P2 T) (t_P1 T)) = 0 \/
     norm (vsub (t_P0 T) (t_P1 T)) * norm (vsub (t_P2 T) (t_P1 T)) = 1) /\
  (forall s, (forall T, In T (su_tris s) ->
       dot (vsub (t_P0 T) (t_P1 T)) (vsub (t_P2 T) (t_P1 T)) = 0 \/
       norm (vsub (t_P0 T) (t_P1 T)) * norm (vsub (t_P2 T) (t_P1 T)) = 1) ->
     find_area s = Some (rsum (map tri_area (su_tris s)) / (su_Lx s * su_Ly s))).
Proof. exact (conj area_iff area_ok). Qed.
Print Assumptions C41_area_partial.

Example C41_example : area_term {| t_P0 := mkv 3 0 0; t_P1 := mkv 0 0 0; t_P2 := mkv 0 4 0 |} =
  Some (tri_area {| t_P0 := mkv 3 0 0; t_P1 := mkv 0 0 0; t_P2 := mkv 0 4 0 |}).
Proof. apply C41_area_partial. left. vexp. cbn. ring. Qed.

(* Pyramids with a base longer than sqrt 2 and higher than 1: NaN, for every triangulation into facets. *)
Theorem C41_area_refuted :
  (forall del size w cov dist s, 2 < size * size -> 1 < w * w ->
     mk_surface del (pyr size w) cov dist = Ok s -> Forall (ccw (pyr size w)) (su_simp s) -> su_tris s <> [] ->
     (forall T, In T (su_tris s) -> vertex_of T (mkv (size / 2) (size / 2) w)) -> find_area s = None) /\
  exists s, mk_surface del4 (pyr 2 2) None None = Ok s /\ Forall (ccw (pyr 2 2)) (su_simp s) /\ find_area s = None /\
    0 < rsum (map tri_area (su_tris s)).
Proof.
  assert (G : forall del size w cov dist s, 2 < size * size -> 1 < w * w ->
     mk_surface del (pyr size w) cov dist = Ok s -> Forall (ccw (pyr size w)) (su_simp s) -> su_tris s <> [] ->
     (forall T, In T (su_tris s) -> vertex_of T (mkv (size / 2) (size / 2) w)) -> find_area s = None).
  { intros del size w cov dist s HS HW E F NE V. unfold find_area. destruct (su_tris s) as [|T l] eqn:Q; [congruence|].
    rewrite osum_none; [reflexivity|]. left.
    assert (I : In T (su_tris s)) by (rewrite Q; now left).
    destruct (tri_pts _ _ _ _ _ T E F I) as [S P]. apply (pyr_area_nan size w); try assumption. apply V. now left. }
  split; [exact G|].
  destruct (mk_ok_cell del4 (pyr 2 2) None None 2 2 (pyr_fills 2 2 ltac:(lra))) as [s E]; [exists (mkv 0 0 0); split; [now left | reflexivity]|].
  exists s. destruct (mk_fields _ _ _ _ _ E) as (_ & _ & Q & _ & _ & S).
  assert (F : Forall (ccw (pyr 2 2)) (su_simp s)) by (rewrite S; apply del4_ccw; lra).
  assert (I := inv_mk _ _ _ _ _ E F). assert (T := i_tris _ _ I). rewrite Q, S in T.
  split; [exact E|]. split; [exact F|]. split.
  - apply (G del4 2 2 None None s); try assumption; try lra.
    + rewrite T. discriminate.
    + rewrite T. intros t H. cbn in H. unfold vertex_of. repeat (destruct H as [<-|H]); try (now destruct H); cbn; tauto.
  - rewrite T. apply rsum_pos.
    + discriminate.
    + intros x H. apply in_map_iff in H. destruct H as (t & <- & H). rewrite <- T in H.
      destruct (tri_pts _ _ _ _ _ t E F H) as [_ P]. rewrite <- t_cross_z in P. apply norm_pos in P. unfold tri_area, t_cross in *. lra.
Qed.
Print Assumptions C41_area_refuted.

(* ---------- C42 ---------- *)

(* All points lie on the profile of period width and the requested angle; so do the facets that do not cross
   the ridge; the ridge runs through the whole cell exactly if width = 1.  Missing: other widths. *)
Theorem C42_grooves_partial : forall angle width d p,
  0 < angle < 90 -> 0 < width -> groove_points angle width d = Ok p ->
  (forall v, In v p -> 0 <= across d v <= width /\ vz v = tan (angle * PI / 180) * Rmin (across d v) (width - across d v)) /\
  (forall T, spanned_by p T -> plan_area T <> 0 ->
     (forall v, vertex_of T v -> across d v <= width / 2) \/ (forall v, vertex_of T v -> width / 2 <= across d v) ->
     inclined T (angle * PI / 180)) /\
  (extruded d p <-> width = 1).
Proof.
  intros angle width d p HA HW E. split; [|split].
  - intros v I. split; [|exact (groove_profile angle width d p HW E v I)].
    destruct (groove_in _ _ _ _ _ E I) as [(_ & [->| ->] & _)|(_ & -> & _)]; lra.
  - intros T. exact (groove_facets angle width d p T HA HW E).
  - exact (groove_extruded_iff angle width d p HW E).
Qed.
Print Assumptions C42_grooves_partial.

Example C42_example : exists p, groove_points 45 1 DirX = Ok p /\ length p = 6%nat /\ extruded DirX p.
Proof.
  eexists. split; [reflexivity|]. split; [reflexivity|].
  apply (proj2 (groove_extruded_iff 45 1 DirX _ ltac:(lra) eq_refl)). reflexivity.
Qed.

(* A groove 2 wide: the ridge stops halfway along the cell.  A direction that is neither x nor y is not
   rejected but ends in UnboundLocalError. *)
Theorem C42_width_refuted :
  (exists p, groove_points 45 2 DirY = Ok p /\ is_max (map vy p) 2 /\ (exists v, In v p /\ vy v = 0 /\ vz v <> 0) /\
     (forall v, In v p -> vy v = 2 -> vz v = 0)) /\
  (forall angle width, groove_points angle width DirOther = Err UnboundLocalError).
Proof.
  split; [|reflexivity]. eexists. split; [reflexivity|].
  assert (M := groove_max 45 2 DirY _ ltac:(lra) eq_refl). rewrite Rmax_left in M by lra. split; [exact M|].
  assert (T := radians_tan 45 ltac:(lra)). split.
  - eexists. split; [right; right; right; right; left; reflexivity|]. cbn. split; [reflexivity | lra].
  - intros v I. destruct (groove_in 45 2 DirY _ v eq_refl I) as [(Z & _)|(_ & _ & [Y|Y])]; [now intros _|cbn in Y; lra|cbn in Y; lra].
Qed.
Print Assumptions C42_width_refuted.

(* ---------- C43 ---------- *)

Theorem C43_pyramids : forall del angle size upright cov f r,
  0 < angle < 90 -> 0 < size ->
  regular_pyramids del angle size upright cov None 0 = Ok (f, r) ->
  let h := size / 2 * tan (angle * PI / 180) in
  let top s := mkv (size / 2) (size / 2) s in
  let w := if upright then h else - h in
  (forall s a, (s = f /\ a = top w) \/ (s = r /\ a = top (- w)) ->
     fills_cell (su_pts s) size size /\ su_Lx s = size /\ su_Ly s = size /\
     In a (su_pts s) /\ (forall v, In v (su_pts s) -> v = a \/ vz v = 0) /\
     forall T, spanned_by (su_pts s) T -> vertex_of T a -> plan_area T <> 0 -> inclined T (angle * PI / 180)) /\
  Forall2 mirrored (su_pts f) (su_pts r).
Proof. exact C43_all. Qed.
Print Assumptions C43_pyramids.

Example C43_example : exists f r, regular_pyramids del4 55 3 false None None 0 = Ok (f, r).
Proof. apply regular_ok. lra. Qed.

(* ---------- C44 ---------- *)

(* A square map is laid out transposed, consistently.  Missing: maps that are not square. *)
Theorem C44_heights_partial : forall z n xw yw i j,
  length z = n -> (forall row, In row z -> length row = n) -> (i < n)%nat -> (j < n)%nat -> (2 <= n)%nat ->
  In (mkv (INR i * (xw / INR (n - 1))) (INR j * (yw / INR (n - 1))) (nth i (nth j z []) 0)) (heights_points z n n xw yw).
Proof.
  intros z n xw yw i j Hz Hr Hi Hj Hn. assert (H := heights_square z n xw yw i j Hz Hr Hi Hj).
  rewrite !linspace_nth in H by assumption. rewrite !Rminus_0_r, !Rplus_0_l in H. rewrite <- H. apply nth_In.
  unfold heights_points, heights_coords. destruct (mesh_length (linspace 0 xw n) (linspace 0 yw n)) as [L1 L2].
  rewrite !linspace_length in L1, L2. assert (LC := concat_len z n Hr). rewrite zip3_length by congruence. nia.
Qed.
Print Assumptions C44_heights_partial.

Example C44_example : In (mkv (INR 1 * (3 / INR 1)) (INR 0 * (5 / INR 1)) 8) (heights_points [[7; 8]; [9; 10]] 2 2 3 5).
Proof.
  apply (C44_heights_partial [[7; 8]; [9; 10]] 2 3 5 1 0); try reflexivity; try lia.
  intros row [<-|[<-|[]]]; reflexivity.
Qed.

(* A 2 x 3 map: z[0][2] should be at x = 0, y = 4; the texture has z[1][1] there, and z[0][2] is at x = 0, y = 2. *)
Theorem C44_heights_refuted :
  let p := heights_points [[0; 1; 2]; [3; 4; 5]] 2 3 2 4 in
  ~ In (mkv 0 4 2) p /\ In (mkv 0 4 4) p /\ In (mkv 0 2 2) p.
Proof.
  cbn zeta. set (p := heights_points _ _ _ _ _).
  assert (E : p = [mkv 0 0 0; mkv 2 0 1; mkv 0 2 2; mkv 2 2 3; mkv 0 4 4; mkv 2 4 5]).
  { unfold p, heights_points, heights_coords, linspace, zip3. cbn.
    repeat (apply f_equal2; [apply vec_ext; cbn; field|]). reflexivity. }
  rewrite E. cbn [In]. split; [|split; tauto].
  intros H. repeat (destruct H as [H|H]; [assert (Y := f_equal vy H); assert (Z := f_equal vz H); cbn in Y, Z; lra|]). exact H.
Qed.
Print Assumptions C44_heights_refuted.

(* ---------- C45 ---------- *)

(* Points, triangulation, z range and guessed coverage height are mirrored.
   Missing: a coverage height given by the caller. *)
Theorem C45_mirror_partial : forall del x y z cov dist f r,
  xyz_texture del x y z cov dist = Ok (f, r) ->
  Forall2 mirrored (su_pts f) (su_pts r) /\ su_simp r = su_simp f /\
  su_zmin r = - su_zmax f /\ su_zmax r = - su_zmin f /\
  (cov = None \/ cov = Some 0 -> su_zcov r = - su_zcov f).
Proof.
  intros del x y z cov dist f r E. destruct (C45_all _ _ _ _ _ _ _ _ E) as (A & B & C & D & _ & G & H).
  repeat (split; [assumption|]). intros [Q|Q]; [now apply G|]. destruct (H _ Q) as [-> ->]. ring.
Qed.
Print Assumptions C45_mirror_partial.

Example C45_example : exists f r, xyz_texture (fun _ => [(0, 1, 2)]%nat) [0; 1; 0] [0; 0; 1] [1; 2; 3] (Some 0) None = Ok (f, r).
Proof.
  unfold xyz_texture. destruct (mk_ok (fun _ => [(0, 1, 2)]%nat) (zip3 [0; 1; 0] [0; 0; 1] [1; 2; 3]) (Some 0) None) as [f ->]; [discriminate | discriminate|].
  destruct (mk_ok (fun _ => [(0, 1, 2)]%nat) (zip3 [0; 1; 0] [0; 0; 1] (map Ropp [1; 2; 3])) (Some 0) None) as [r ->]; [discriminate | discriminate|].
  cbn [rbind]. eauto.
Qed.

(* Any nonzero coverage height given by the caller is wrong for the rear surface. *)
Theorem C45_coverage_refuted :
  (forall del x y z c dist f r, xyz_texture del x y z (Some c) dist = Ok (f, r) -> c <> 0 -> su_zcov r <> - su_zcov f) /\
  exists f r, xyz_texture (fun _ => [(0, 1, 2)]%nat) [0; 1; 0] [0; 0; 1] [1; 1; 1] (Some 1) None = Ok (f, r) /\
    su_zcov r = 1 /\ su_zmax r = -1.
Proof.
  split.
  - intros del x y z c dist f r E Hc. destruct (C45_all _ _ _ _ _ _ _ _ E) as (_ & _ & _ & _ & _ & _ & H).
    destruct (H c eq_refl) as [-> ->]. lra.
  - unfold xyz_texture. destruct (mk_ok (fun _ => [(0, 1, 2)]%nat) (zip3 [0; 1; 0] [0; 0; 1] [1; 1; 1]) (Some 1) None) as [f F]; [discriminate | discriminate|].
    destruct (mk_ok (fun _ => [(0, 1, 2)]%nat) (zip3 [0; 1; 0] [0; 0; 1] (map Ropp [1; 1; 1])) (Some 1) None) as [r G]; [discriminate | discriminate|].
    rewrite F, G. cbn [rbind]. exists f, r. split; [reflexivity|].
    destruct (mk_fields _ _ _ _ _ G) as (_ & _ & _ & _ & C & _). split; [exact C|].
    destruct (mk_range _ _ _ _ _ G) as [_ [I _]]. cbn in I. destruct I as [<-|[<-|[<-|[]]]]; ring.
Qed.
Print Assumptions C45_coverage_refuted.

(* ---------- C85 ---------- *)

(* Textures made with xyz_texture re-randomise both surfaces.  Missing: regular_pyramids. *)
Theorem C85_both_sides_partial : forall del x y z cov dist f r,
  xyz_texture del x y z cov dist = Ok (f, r) -> su_dist f = dist /\ su_dist r = dist.
Proof.
  intros del x y z cov dist f r E. destruct (xyz_split _ _ _ _ _ _ _ _ E) as [F G].
  split; [exact (proj1 (proj2 (proj2 (proj2 (mk_fields _ _ _ _ _ F))))) | exact (proj1 (proj2 (proj2 (proj2 (mk_fields _ _ _ _ _ G)))))].
Qed.
Print Assumptions C85_both_sides_partial.

(* regular_pyramids with a height distribution: the rear surface keeps its first height for ever. *)
Theorem C85_rear_heights_refuted : forall del angle size upright cov d drawn f r,
  regular_pyramids del angle size upright cov (Some d) drawn = Ok (f, r) ->
  su_dist f = Some d /\ forall hs, do_ops r (map ORefresh hs) = r.
Proof.
  intros del angle size upright cov d drawn f r E. destruct (regular_split _ _ _ _ _ _ _ _ _ E) as [F G]. cbn zeta in F, G.
  destruct (mk_fields _ _ _ _ _ F) as (_ & _ & _ & D & _). destruct (mk_fields _ _ _ _ _ G) as (_ & _ & _ & D' & _).
  split; [exact D|]. induction hs as [|h hs IH]; [reflexivity|]. unfold do_ops in *. cbn [map fold_left do_op].
  replace (refresh h r) with r; [exact IH|]. unfold refresh. now rewrite D'.
Qed.
Print Assumptions C85_rear_heights_refuted.

Example C85_example : exists f r, regular_pyramids del4 55 1 true None (Some [1; 2]) 2 = Ok (f, r).
Proof. apply regular_ok. lra. Qed.

(* ---------- C86, C87 ---------- *)

Theorem C86_rough_pyramids :
  (forall angle size na n upright coords rnd p,
     (1 <= n)%nat -> (forall k i, 0 <= rnd k i < 1) -> rough_pyramids angle size na n upright true coords rnd = Ok p ->
     exists k, (2 <= k)%nat /\ ((k - 1) * (k - 1) < n <= k * k)%nat /\ length p = (k * k)%nat /\
       (forall c, In c (map (fun v => (vx v, vy v)) p) <->
          exists i j, (i < k)%nat /\ (j < k)%nat /\ c = (INR i * (size / INR (k - 1)), INR j * (size / INR (k - 1)))) /\
       forall v, In v p -> (edge size v /\ vz v = 0) \/
         (~ edge size v /\ exists e, 0 <= e < 1 /\
            vz v = (if upright then 1 else -1) * (tan (angle * PI / 180) * min4 size v + size / INR (k - 1) * tan na * e))) /\
  (forall angle size na n upright coords rnd p,
     (forall k i, 0 <= rnd k i < 1) -> rough_pyramids angle size na n upright false coords rnd = Ok p ->
     Permutation.Permutation (map (fun v => (vx v, vy v)) p) (coords ++ [(0, 0); (0, size); (size, size); (size, 0)]) /\
     forall v, In v p -> (edge size v /\ vz v = 0) \/
       (~ edge size v /\ exists e, 0 <= e < 1 /\
          vz v = (if upright then 1 else -1) * (tan (angle * PI / 180) * min4 size v + size / sqrt (INR n) * tan na * e))).
Proof.
  split; [exact C86_regular|]. intros angle size na n upright coords rnd p HR E. injection E as <-.
  exact (rough_pyramid_all angle size (size / sqrt (INR n) * tan na) upright coords false rnd HR).
Qed.
Print Assumptions C86_rough_pyramids.

Example C86_example : exists p, rough_pyramids 55 2 (1 / 10) 6 true false [(1 / 2, 1); (3 / 2, 1)] (fun _ _ => 1 / 2) = Ok p /\ length p = 6%nat.
Proof.
  eexists. split; [reflexivity|].
  destruct (rough_pyramid_all 55 2 (2 / sqrt (INR 6) * tan (1 / 10)) true [(1 / 2, 1); (3 / 2, 1)] false (fun _ _ => 1 / 2)) as [P _]; [intros; lra|].
  apply Permutation.Permutation_length in P. rewrite map_length in P. exact P.
Qed.

Theorem C87_rough_planar :
  (forall size na n coords rnd p,
     (1 <= n)%nat -> (forall i, 0 <= rnd i < 1) -> rough_planar_surface size na n true coords rnd = Ok p ->
     exists k, (2 <= k)%nat /\ ((k - 1) * (k - 1) < n <= k * k)%nat /\ length p = (k * k)%nat /\
       (forall c, In c (map (fun v => (vx v, vy v)) p) <->
          exists i j, (i < k)%nat /\ (j < k)%nat /\ c = (INR i * (size / INR (k - 1)), INR j * (size / INR (k - 1)))) /\
       forall v, In v p -> (edge size v /\ vz v = 0) \/
         (~ edge size v /\ exists e, 0 <= e < 1 /\ vz v = size / INR (k - 1) * tan na * e)) /\
  (forall size na n coords rnd p,
     (forall i, 0 <= rnd i < 1) -> rough_planar_surface size na n false coords rnd = Ok p ->
     map (fun v => (vx v, vy v)) p = coords ++ [(0, 0); (0, size); (size, size); (size, 0)] /\
     forall v, In v p -> (edge size v /\ vz v = 0) \/
       (~ edge size v /\ exists e, 0 <= e < 1 /\ vz v = size / sqrt (INR n) * tan na * e)).
Proof.
  split; [exact C87_regular|]. intros size na n coords rnd p HR E. injection E as <-.
  exact (rough_planar_all size (size / sqrt (INR n) * tan na) coords false rnd HR).
Qed.
Print Assumptions C87_rough_planar.

Example C87_example : exists p, rough_planar_surface 2 (1 / 10) 5 false [(1, 1)] (fun _ => 1 / 2) = Ok p /\ length p = 5%nat.
Proof.
  eexists. split; [reflexivity|]. unfold rough_planar_points, flatten_edges. now rewrite map_length.
Qed.

(* ---------- C88 ---------- *)

Theorem C88_hemisphere : forall size radius offset stretch na n upright rnd p,
  0 < size -> 0 <= offset < radius -> 0 < stretch -> 0 <= na < PI / 2 -> (forall i, 0 <= rnd i < 1) ->
  hemisphere_points size radius offset stretch na n upright rnd = Ok p ->
  let s := if upright then 1 else -1 in
  let rho2 := radius * radius - offset * offset in
  (forall v, In v p ->
     let X := vx v - size / 2 in let Y := vy v - size / 2 in let z := s * vz v in
     0 <= z /\
     (X * X + Y * Y < rho2 -> X * X + Y * Y + (z / stretch + offset) * (z / stretch + offset) = radius * radius) /\
     (rho2 <= X * X + Y * Y -> z <= size / INR (n - 1) * tan na /\ (edge size v -> vz v = 0))) /\
  (forall a b, In a (linspace (- size / 2) (size / 2) n) -> In b (linspace (- size / 2) (size / 2) n) ->
     a * a + b * b < rho2 \/ a = - size / 2 \/ a = size / 2 \/ b = - size / 2 \/ b = size / 2 ->
     exists v, In v p /\ vx v = a + size / 2 /\ vy v = b + size / 2).
Proof. exact hemisphere_all. Qed.
Print Assumptions C88_hemisphere.

Example C88_example : exists p, hemisphere_points 2 1 (1 / 2) 1 0 3 false (fun _ => 0) = Ok p.
Proof.
  unfold hemisphere_points. destruct (Rltb (1 / 2) 0) eqn:E; [apply Rltb_true in E; lra|]. cbn. eexists. reflexivity.
Qed.

(* ---------- C89 ---------- *)

(* All textures but V grooves (C42) fill the cell size x size, hemispheres if the cap fits into it. *)
Theorem C89_unit_cell_partial :
  (forall angle size upright hd, 0 < size -> fills_cell (pyramid_points angle size upright hd) size size) /\
  (forall size, 0 < size -> fills_cell (planar_points size) size size) /\
  (forall angle size na n upright regular coords rnd p,
     0 < size -> (forall k i, 0 <= rnd k i < 1) -> (forall q, In q coords -> 0 <= fst q <= size /\ 0 <= snd q <= size) ->
     rough_pyramids angle size na n upright regular coords rnd = Ok p -> fills_cell p size size) /\
  (forall size na n regular coords rnd p,
     0 < size -> (forall i, 0 <= rnd i < 1) -> (forall q, In q coords -> 0 <= fst q <= size /\ 0 <= snd q <= size) ->
     rough_planar_surface size na n regular coords rnd = Ok p -> fills_cell p size size) /\
  (forall size radius offset stretch na n upright rnd p,
     0 < size -> 0 <= offset < radius -> 0 < stretch -> 0 <= na < PI / 2 -> (forall i, 0 <= rnd i < 1) ->
     hemisphere_points size radius offset stretch na n upright rnd = Ok p ->
     radius * radius - offset * offset <= size / 2 * (size / 2) -> fills_cell p size size) /\
  (forall del p cov dist s a b, mk_surface del p cov dist = Ok s -> 0 <= a -> 0 <= b -> fills_cell p a b ->
     su_Lx s = a /\ su_Ly s = b /\ su_xmin s = 0 /\ su_xmax s = a /\ su_ymin s = 0 /\ su_ymax s = b).
Proof.
  split; [|split; [exact planar_cell|split; [exact rough_pyramids_cell|split; [exact rough_planar_cell|split; [exact hemisphere_cell|exact mk_cell]]]]].
  intros angle size upright hd H. rewrite pyramid_points_eq, Rmult_1_r. now apply pyr_fills.
Qed.
Print Assumptions C89_unit_cell_partial.

(* A smooth cap that is wider than the cell sticks out of it; nothing rejects it. *)
Theorem C89_wide_cap_refuted :
  (forall size radius offset stretch na n upright rnd p,
     0 <= offset < radius ->
     hemisphere_points size radius offset stretch na n upright rnd = Ok p ->
     na = 0 -> size / 2 * (size / 2) < radius * radius - offset * offset -> ~ fills_cell p size size) /\
  exists p, hemisphere_points 1 1 0 1 0 3 true (fun _ => 0) = Ok p /\ ~ fills_cell p 1 1.
Proof.
  assert (G : forall size radius offset stretch na n upright rnd p,
     0 <= offset < radius ->
     hemisphere_points size radius offset stretch na n upright rnd = Ok p ->
     na = 0 -> size / 2 * (size / 2) < radius * radius - offset * offset -> ~ fills_cell p size size) by exact hemisphere_out.
  split; [exact G|].
  assert (E : exists p, hemisphere_points 1 1 0 1 0 3 true (fun _ => 0) = Ok p).
  { unfold hemisphere_points. destruct (Rltb 0 0) eqn:E; [apply Rltb_true in E; lra|]. cbn. eexists. reflexivity. }
  destruct E as [p E]. exists p. split; [exact E|].
  apply (G 1 1 0 1 0 3%nat true (fun _ => 0) p); try exact E; try reflexivity; try (intros; lra).
Qed.
Print Assumptions C89_wide_cap_refuted.
