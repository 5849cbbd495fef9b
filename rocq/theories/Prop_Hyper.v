(* C154 to C158: hyperhemisphere.  ConvexHull is an argument; hull_ok says what is used of it. *)
From Coq Require Import Reals List ZArith Bool Lia Lra Permutation.
From Verif Require Import Base Lib Model_Optics Model_RayIface Model_Surface Model_Hyper Spec_Surface Spec_Hyper Proof_Surface2 Proof_Hyper Proof_Hyper2 Proof_Hyper3 Proof_HyperNum Proof_Hyper4 Proof_Hyper5 Proof_Hyper6.
Import ListNotations.
Open Scope R_scope.

Definition hull_ok (hull : list vec -> res triples) : Prop := forall p l, hull p = Ok l -> is_hull p l.

Lemma brute_ok : hull_ok (fun p => Ok (brute_hull p)).
Proof. intros p l E. injection E as <-. apply brute_is_hull. Qed.

Lemma Rltb_iff a b : Rltb a b = true <-> a < b.
Proof. unfold Rltb. destruct (Rlt_dec a b); split; intros H; auto; discriminate. Qed.

(* C154: the points lie on the sphere, not below z = 0; they are those of the golden spiral with z >= 0, and points with
   z = 0; the rear ones are their mirror images; corners, simplices and
   normals of both surfaces belong together; the front surface has exactly the faces of the hull that are not both nearly
   level and in the lowest tenth of a radius, and the rear surface the mirrored ones. *)
Theorem C154_surface del hull N radius h dist f r tf tb :
  hyperhemisphere del hull N radius h dist = Ok (f, r) -> hull (su_pts f) = Ok tf -> hull (su_pts r) = Ok tb ->
  (forall v, In v (su_pts f) -> on_sphere radius h v /\ 0 <= vz v) /\
  su_pts r = map flipped (su_pts f) /\
  (0 <= radius -> (forall v, In v (su_pts f) -> vz v = 0 \/ exists k, (k < N)%nat /\ on_spiral N radius h k v) /\
     forall k, (k < N)%nat -> 0 <= h + radius * ((2 * INR k + 1) / INR N - 1) -> exists v, In v (su_pts f) /\ on_spiral N radius h k v) /\
  Forall2 (has_vertices (su_pts f)) (su_simp f) (su_tris f) /\ Forall2 (has_vertices (su_pts r)) (su_simp r) (su_tris r) /\
  Forall2 right_normal (su_tris f) (su_N f) /\ Forall2 right_normal (su_tris r) (su_N r) /\
  (forall a b c, has_face f a b c <-> (exists t, In t tf /\ corners (tri_of (su_pts f) t) a b c) /\ ~ (nearly_level a b c /\ below (radius / 10) a b c)) /\
  (forall a b c, has_face r a b c <-> (exists t, In t tb /\ corners (tri_of (su_pts r) t) a b c) /\
     ~ (nearly_level a b c /\ below (radius / 10) (flipped a) (flipped b) (flipped c))).
Proof.
  intros E Hf Hb. destruct (hyper_run _ _ _ _ _ _ _ _ E) as (tf' & tb' & Q).
  pose proof (run_pts _ _ _ _ _ _ _ _ Q) as Pf. pose proof (run_ptsb _ _ _ _ _ _ _ _ Q) as Pb.
  assert (tf' = tf) by (rewrite Pf in Hf; pose proof (run_hull _ _ _ _ _ _ _ _ Q); congruence). assert (tb' = tb) by (rewrite Pb in Hb; pose proof (run_hullb _ _ _ _ _ _ _ _ Q); congruence). subst tf' tb'.
  pose proof (front_kept _ _ _ _ _ _ _ _ Q) as KF. pose proof (back_kept _ _ _ _ _ _ _ _ Q) as KB.
  split; [rewrite Pf; apply points_sphere|]. split; [rewrite Pf, Pb; reflexivity|].
  split. { intros Hr. rewrite Pf. unfold hyper_points. split.
    - intros v Hv. apply in_app_iff in Hv. destruct Hv as [Hv|Hv]; [left; now apply (rim_sphere _ _ _ _ Hv)|right].
      apply sphere_in in Hv. destruct Hv as [k [Hk [-> _]]]. exists k. split; auto. now apply spiral_spec.
    - intros k Hk Hz. exists (spiral N radius h k). pose proof (spiral_spec N radius h k Hr Hk) as S. split; auto. apply in_app_iff. right. apply sphere_in.
      exists k. split; auto. split; auto. destruct S as (? & ? & _ & _ & _ & -> & _). exact Hz. }
  split; [exact (kept_vertices _ _ _ _ KF)|]. split; [exact (kept_vertices _ _ _ _ KB)|]. split; [exact (kept_normals _ _ _ _ KF)|]. split; [exact (kept_normals _ _ _ _ KB)|].
  split; intros a b c.
  - rewrite (kept_faces _ _ _ _ KF). split.
    + intros (t & Ht & C & D). split; [exists t; auto|]. intros X. apply (bottom_iff radius _ _ _ _ C) in X. congruence.
    + intros [(t & Ht & C) X]. exists t. split; auto. split; auto. destruct (bottom_planar radius (tri_of (su_pts f) t)) eqn:B; auto. exfalso. apply X. now apply (bottom_iff radius _ _ _ _ C).
  - assert (TI : forall T, corners T a b c -> (top_planar radius T = true <-> nearly_level a b c /\ below (radius / 10) (flipped a) (flipped b) (flipped c))).
    { intros T C. unfold top_planar. rewrite andb_true_iff, flat_iff, all_z_iff. rewrite !Rltb_iff.
      split; intros [A B].
      - split; [exact (level_perm _ _ _ _ _ _ C A)|]. apply (below_perm (radius / 10) (flipped (t_P0 T)) (flipped (t_P1 T)) (flipped (t_P2 T))).
        + unfold corners in C. exact (Permutation_map flipped C).
        + unfold below, flipped. cbn [vz]. lra.
      - split; [exact (level_perm _ _ _ _ _ _ (Permutation_sym C) A)|].
        assert (B' : below (radius / 10) (flipped (t_P0 T)) (flipped (t_P1 T)) (flipped (t_P2 T))).
        { apply (below_perm (radius / 10) (flipped a) (flipped b) (flipped c)); auto. unfold corners in C. exact (Permutation_map flipped (Permutation_sym C)). }
        unfold below, flipped in B'. cbn [vz] in B'. lra. }
    rewrite (kept_faces _ _ _ _ KB). split.
    + intros (t & Ht & C & D). split; [exists t; auto|]. intros X. apply (TI _ C) in X. congruence.
    + intros [(t & Ht & C) X]. exists t. split; auto. split; auto. destruct (top_planar radius (tri_of (su_pts r) t)) eqn:B; auto. exfalso. apply X. now apply (TI _ C).
Qed.
Print Assumptions C154_surface.

(* ... and with a hull that is the same upside down, there is a surface whenever a point is left. *)
(* the rim: first of the points, equally spaced, half as many as the other points near it; the rest are those of the spiral *)
Theorem C154_rim del hull N radius h dist f r : hyperhemisphere del hull N radius h dist = Ok (f, r) -> 0 <= radius ->
  exists m, (m <= length (su_pts f))%nat /\
    (forall i, (m <= i < length (su_pts f))%nat -> exists k, (k < N)%nat /\ on_spiral N radius h k (nth i (su_pts f) v0)) /\
    (radius < Rabs h -> m = 0%nat) /\
    (Rabs h <= radius -> let rc := sqrt (radius * radius - h * h) in
       (forall i, (i < m)%nat -> on_rim rc m i (nth i (su_pts f) v0)) /\ m = Nat.div (length (filter (near_cylinder rc) (skipn m (su_pts f)))) 2).
Proof.
  intros E Hr. destruct (hyper_run _ _ _ _ _ _ _ _ E) as (tf & tb & Q). rewrite (run_pts _ _ _ _ _ _ _ _ Q). unfold hyper_points.
  set (a := sphere_points N radius h). set (rim := rim_points radius h (rim_count radius h a)).
  assert (SQ : radius < Rabs h -> radius * radius - h * h < 0). { intros L. rewrite <- (Rabs_right radius) in L by lra. apply Rsqr_lt_abs_1 in L. unfold Rsqr in L. lra. }
  assert (SQ' : Rabs h <= radius -> 0 <= radius * radius - h * h). { intros L. rewrite <- (Rabs_right radius) in L by lra. apply Rsqr_le_abs_1 in L. unfold Rsqr in L. lra. }
  assert (LR : length rim = rim_count radius h a).
  { unfold rim, rim_points, rim_count. destruct (r_cross radius h); [|reflexivity]. unfold linspace. now rewrite !map_length, seq_length. }
  exists (length rim). rewrite app_length. split; [lia|]. split; [|split].
  - intros i Hi. rewrite app_nth2 by lia. assert (I : In (nth (i - length rim) a v0) a) by (apply nth_In; lia).
    apply sphere_in in I. destruct I as (k & Hk & -> & _). exists k. split; auto. now apply spiral_spec.
  - intros L. rewrite LR. unfold rim_count, r_cross. rewrite (proj2 (Rltb_true _ _) (SQ L)). reflexivity.
  - intros L. cbv zeta. set (rc := sqrt (radius * radius - h * h)).
    assert (RC : r_cross radius h = Some rc). { unfold r_cross. rewrite (proj2 (Rltb_false _ _)); [reflexivity|]. specialize (SQ' L). lra. }
    split.
    + intros i Hi. rewrite app_nth1 by exact Hi. rewrite LR in *. unfold rim, rim_points. rewrite RC. set (m := rim_count radius h a) in *.
      rewrite (nth_indep _ v0 ((fun q => mkv (rc * cos q) (rc * sin q) 0) 0)) by (unfold linspace; rewrite !map_length, seq_length; exact Hi).
      rewrite (map_nth (fun q => mkv (rc * cos q) (rc * sin q) 0)). unfold linspace.
      rewrite (nth_indep _ 0 ((fun i => 0 + INR i * ((2 * PI - 0) / INR (m - 1))) 0%nat)) by (rewrite map_length, seq_length; exact Hi).
      rewrite (map_nth (fun i => 0 + INR i * ((2 * PI - 0) / INR (m - 1)))), seq_nth by exact Hi. cbn [Nat.add]. unfold on_rim. cbn [vx vy vz].
      replace (0 + INR i * ((2 * PI - 0) / INR (m - 1))) with (2 * PI * INR i / INR (m - 1)) by (unfold Rdiv; ring). auto.
    + rewrite skipn_app, skipn_all, Nat.sub_diag. cbn [skipn app]. rewrite LR. unfold rim_count. rewrite RC. f_equal. f_equal. apply filter_ext. intros v.
      unfold near_rim, near_cylinder. set (rho := sqrt _). destruct (Rltb rho (rc + 1 / 100)) eqn:L1, (Rltb (rc - 1 / 100) rho) eqn:L2; cbn [andb];
        rewrite ?Rltb_true, ?Rltb_false in *; symmetry; rewrite ?Rltb_true, ?Rltb_false; unfold Rabs; destruct (Rcase_abs _); lra.
Qed.
Print Assumptions C154_rim.

Theorem C154_succeeds del hull N radius h dist t : (0 < N)%nat -> 0 < radius -> - radius * (1 - 1 / INR N) <= h ->
  hull (hyper_points N radius h) = Ok t -> hull (mirror_z (hyper_points N radius h)) = Ok t ->
  exists f r, hyperhemisphere del hull N radius h dist = Ok (f, r).
Proof. intros HN Hr Hh. apply hyper_succeeds. now apply points_ne. Qed.
Print Assumptions C154_succeeds.

(* a hemisphere of 8 points *)
Example C154_example : exists f r tf tb, hyperhemisphere (fun _ => []) (fun p => Ok (brute_hull p)) 8 1 0 None = Ok (f, r) /\
  Ok (brute_hull (su_pts f)) = Ok tf /\ Ok (brute_hull (su_pts r)) = Ok tb /\ length (su_pts f) = 4%nat.
Proof.
  destruct (hyper_brute (fun _ => []) 8 1 0 None) as (f & r & E); [lia|lra|cbn; lra|]. exists f, r, (brute_hull (su_pts f)), (brute_hull (su_pts r)). repeat split; auto.
  destruct (hyper_run _ _ _ _ _ _ _ _ E) as (tf & tb & Q). rewrite (run_pts _ _ _ _ _ _ _ _ Q). apply eight_one.
Qed.

(* C155: a hemisphere (h = 0) and what is cut from it (h < 0) have normals that point upwards, on the rear surface as well. *)
Theorem C155_upward del hull N radius h dist f r : hull_ok hull -> 0 < radius -> h <= 0 -> hyperhemisphere del hull N radius h dist = Ok (f, r) ->
  (forall M, In M (su_N f) -> 0 <= vz M) /\ (forall M, In M (su_N r) -> 0 <= vz M).
Proof.
  intros HH Hr Hh E. destruct (hyper_run _ _ _ _ _ _ _ _ E) as (tf & tb & Q). apply (all_up _ _ _ _ _ _ _ _ Q Hr Hh).
  - intros [[i j] k] Ht. rewrite (run_pts _ _ _ _ _ _ _ _ Q). destruct (HH _ _ (run_hull _ _ _ _ _ _ _ _ Q)) as [S _]. destruct (S _ _ _ Ht) as (A & B & C & _). unfold in_pts. cbn. auto.
  - intros [[i j] k] Ht. rewrite (run_ptsb _ _ _ _ _ _ _ _ Q). destruct (HH _ _ (run_hullb _ _ _ _ _ _ _ _ Q)) as [S _]. destruct (S _ _ _ Ht) as (A & B & C & _). unfold in_pts. cbn. auto.
Qed.
Print Assumptions C155_upward.

Example C155_example : exists f r, hyperhemisphere (fun _ => []) (fun p => Ok (brute_hull p)) 100 1 0 None = Ok (f, r) /\ forall M, In M (su_N f) -> 0 <= vz M.
Proof.
  destruct (hyper_brute (fun _ => []) 100 1 0 None) as (f & r & E); [lia|lra| |].
  { rewrite INR_IZR_INZ. replace (IZR (Z.of_nat 100)) with 100 by reflexivity. lra. }
  exists f, r. split; auto. now apply (C155_upward _ _ _ _ _ _ _ _ brute_ok Rlt_0_1 (Rle_refl 0) E).
Qed.

(* C156, in part: a triangle of the front surface has its outer normal when its middle is more than 3 % over the centre and
   the face looks up, or more than 3 % below it and the face looks down, or in between and the face looks away from y = 0
   (where all triangles have been through the loops over x and y); and a triangle of the rear surface then has its inner one. *)
Theorem C156_outward_partial del hull N radius h dist f r : hull_ok hull -> hyperhemisphere del hull N radius h dist = Ok (f, r) ->
  (forall T M n, In (T, M) (combine (su_tris f) (su_N f)) -> face (su_pts f) n (t_P0 T) (t_P1 T) (t_P2 T) -> 0 < norm (t_cross T) ->
     (103 / 100 * h < mid_z T /\ 0 < vz n) \/ (mid_z T < 97 / 100 * h /\ vz n < 0) \/
     (97 / 100 * h <= mid_z T <= 103 / 100 * h /\ 0 < vy n * mid_y T /\ (length (su_tris f) <= length (su_tris r))%nat) ->
     forall q, In q (su_pts f) -> dot M (vsub q (t_P0 T)) <= 0) /\
  (forall T M n, In (T, M) (combine (su_tris r) (su_N r)) -> face (su_pts r) n (t_P0 T) (t_P1 T) (t_P2 T) -> 0 < norm (t_cross T) ->
     (mid_z T < - (103 / 100) * h /\ vz n < 0) \/ (- (97 / 100) * h < mid_z T /\ 0 < vz n) \/
     (- (103 / 100) * h <= mid_z T <= - (97 / 100) * h /\ 0 < vy n * mid_y T) ->
     forall q, In q (su_pts r) -> 0 <= dot M (vsub q (t_P0 T))).
Proof.
  intros HH E. destruct (hyper_run _ _ _ _ _ _ _ _ E) as (tf & tb & Q). split.
  - apply (front_out _ _ _ _ _ _ _ _ Q). intros [[i j] k] Ht. rewrite (run_pts _ _ _ _ _ _ _ _ Q). destruct (HH _ _ (run_hull _ _ _ _ _ _ _ _ Q)) as [S _]. destruct (S _ _ _ Ht) as (A & B & C & _). unfold in_pts. cbn. auto.
  - apply (back_in _ _ _ _ _ _ _ _ Q). intros [[i j] k] Ht. rewrite (run_ptsb _ _ _ _ _ _ _ _ Q). destruct (HH _ _ (run_hullb _ _ _ _ _ _ _ _ Q)) as [S _]. destruct (S _ _ _ Ht) as (A & B & C & _). unfold in_pts. cbn. auto.
Qed.
Print Assumptions C156_outward_partial.

(* C156 is false: a sphere of five points (radius = h = 1) has a triangle with points of the surface in front of it. *)
Theorem C156_outward_refuted del hull dist f r : hull_ok hull -> hyperhemisphere del hull 5 1 1 dist = Ok (f, r) ->
  exists T M q, In (T, M) (combine (su_tris f) (su_N f)) /\ In q (su_pts f) /\ 0 < dot M (vsub q (t_P0 T)).
Proof. exact (five_inward del hull dist f r). Qed.
Print Assumptions C156_outward_refuted.

Example C156_example : exists f r, hyperhemisphere (fun _ => []) (fun p => Ok (brute_hull p)) 5 1 1 None = Ok (f, r) /\
  exists T M q, In (T, M) (combine (su_tris f) (su_N f)) /\ In q (su_pts f) /\ 0 < dot M (vsub q (t_P0 T)).
Proof.
  destruct (hyper_brute (fun _ => []) 5 1 1 None) as (f & r & E); [lia|lra|cbn; lra|]. exists f, r. split; auto. exact (C156_outward_refuted _ _ _ _ _ brute_ok E).
Qed.

(* C157, in part: in units 1 / l, the points on the sphere are the same, and so are those on the rim if there are as many. *)
Theorem C157_units_partial del hull del' hull' dist dist' l N radius h f r f' r' : 0 < l ->
  hyperhemisphere del hull N radius h dist = Ok (f, r) -> hyperhemisphere del' hull' N (l * radius) (l * h) dist' = Ok (f', r') ->
  length (su_pts f') = length (su_pts f) -> radius * radius - h * h >= 0 -> su_pts f' = map (scaled l) (su_pts f).
Proof.
  intros Hl E E' L Hq. destruct (hyper_run _ _ _ _ _ _ _ _ E) as (tf & tb & Q). destruct (hyper_run _ _ _ _ _ _ _ _ E') as (tf' & tb' & Q').
  rewrite (run_pts _ _ _ _ _ _ _ _ Q), (run_pts _ _ _ _ _ _ _ _ Q') in *. apply points_scaled; auto.
  unfold hyper_points in L. rewrite !app_length, (sphere_scaled l), map_length in L by auto. rewrite (sphere_scaled l) by auto.
  assert (RL : forall R H n, 0 <= R * R - H * H -> length (rim_points R H n) = n).
  { intros R H n P. unfold rim_points, r_cross. rewrite Rltb_f by auto. rewrite map_length. apply linspace_length. }
  rewrite !RL in L by nra. lia.
Qed.
Print Assumptions C157_units_partial.

(* C157 is false: a hemisphere of radius 1 has 4 points and one of radius 0.01 has 6. *)
Theorem C157_units_refuted del hull del' hull' dist dist' f r f' r' :
  hyperhemisphere del hull 8 1 0 dist = Ok (f, r) -> hyperhemisphere del' hull' 8 (1 / 100 * 1) (1 / 100 * 0) dist' = Ok (f', r') ->
  length (su_pts f) = 4%nat /\ length (su_pts f') = 6%nat /\ su_pts f' <> map (scaled (1 / 100)) (su_pts f).
Proof.
  intros E E'. destruct (hyper_run _ _ _ _ _ _ _ _ E) as (tf & tb & Q). destruct (hyper_run _ _ _ _ _ _ _ _ E') as (tf' & tb' & Q').
  rewrite (run_pts _ _ _ _ _ _ _ _ Q), (run_pts _ _ _ _ _ _ _ _ Q'). rewrite Rmult_1_r, Rmult_0_r. pose proof eight_one as A. pose proof eight_small as B.
  split; auto. split; auto. intros X. apply (f_equal (@length vec)) in X. rewrite map_length in X. lia.
Qed.
Print Assumptions C157_units_refuted.

Example C157_example : exists f r f' r', hyperhemisphere (fun _ => []) (fun p => Ok (brute_hull p)) 8 1 0 None = Ok (f, r) /\
  hyperhemisphere (fun _ => []) (fun p => Ok (brute_hull p)) 8 (1 / 100 * 1) (1 / 100 * 0) None = Ok (f', r').
Proof.
  destruct (hyper_brute (fun _ => []) 8 1 0 None) as (f & r & E); [lia|lra|cbn; lra|]. destruct (hyper_brute (fun _ => []) 8 (1 / 100 * 1) (1 / 100 * 0) None) as (f' & r' & E'); [lia|lra|cbn; lra|].
  exists f, r, f', r'. auto.
Qed.

(* radius 2 *)
Example C157_example_partial : exists f r f' r', hyperhemisphere (fun _ => []) (fun p => Ok (brute_hull p)) 8 1 0 None = Ok (f, r) /\
  hyperhemisphere (fun _ => []) (fun p => Ok (brute_hull p)) 8 (2 * 1) (2 * 0) None = Ok (f', r') /\ length (su_pts f') = length (su_pts f).
Proof.
  destruct (hyper_brute (fun _ => []) 8 1 0 None) as (f & r & E); [lia|lra|cbn; lra|]. destruct (hyper_brute (fun _ => []) 8 (2 * 1) (2 * 0) None) as (f' & r' & E'); [lia|lra|cbn; lra|].
  exists f, r, f', r'. repeat split; auto. destruct (hyper_run _ _ _ _ _ _ _ _ E) as (tf & tb & Q). destruct (hyper_run _ _ _ _ _ _ _ _ E') as (tf' & tb' & Q').
  rewrite (run_pts _ _ _ _ _ _ _ _ Q), (run_pts _ _ _ _ _ _ _ _ Q'), Rmult_1_r, Rmult_0_r, eight_one. apply eight_big. lra.
Qed.

(* C158, in part: a proper face of the hull is in the front surface if it is not nearly level or has a corner at a tenth of
   the radius or higher. *)
Theorem C158_faces_partial del hull N radius h dist f r n a b c : hull_ok hull -> hyperhemisphere del hull N radius h dist = Ok (f, r) ->
  proper_face (su_pts f) n a b c -> 0 < norm (cross (vsub b a) (vsub c a)) -> ~ (nearly_level a b c /\ below (radius / 10) a b c) -> has_face f a b c.
Proof.
  intros HH E F A X. destruct (hyper_run _ _ _ _ _ _ _ _ E) as (tf & tb & Q). pose proof (run_hull _ _ _ _ _ _ _ _ Q) as H. rewrite <- (run_pts _ _ _ _ _ _ _ _ Q) in H.
  destruct (HH _ _ H) as [_ HC]. destruct (HC _ _ _ _ F A) as (t & Ht & C).
  apply (kept_faces _ _ _ _ (front_kept _ _ _ _ _ _ _ _ Q)). exists t. split; auto. split; auto.
  destruct (bottom_planar radius (tri_of (su_pts f) t)) eqn:B; auto. exfalso. apply X. now apply (bottom_iff radius _ _ _ _ C).
Qed.
Print Assumptions C158_faces_partial.

(* C158 is false: with h = radius and 51 points or more, the sphere has a hole at the bottom. *)
Theorem C158_whole_sphere_refuted del hull N radius dist f r : (51 <= N)%nat -> 0 < radius -> hyperhemisphere del hull N radius radius dist = Ok (f, r) ->
  exists n a b c, proper_face (su_pts f) n a b c /\ 0 < norm (cross (vsub b a) (vsub c a)) /\ ~ has_face f a b c.
Proof.
  intros HN Hr E. destruct (hyper_run _ _ _ _ _ _ _ _ E) as (tf & tb & Q). destruct (low_hole N radius HN Hr) as (n & a & b & c & F & A & L & B).
  exists n, a, b, c. rewrite (run_pts _ _ _ _ _ _ _ _ Q). split; auto. split; auto. exact (not_returned _ _ _ _ _ _ _ _ _ _ _ Q L B).
Qed.
Print Assumptions C158_whole_sphere_refuted.

(* ... and a cap no higher than a tenth of the radius has one at the top. *)
Theorem C158_cap_refuted del hull N radius h dist f r : (90 <= N)%nat -> 0 < radius -> - (1 - 9 / INR N) * radius <= h <= - (9 / 10) * radius ->
  hyperhemisphere del hull N radius h dist = Ok (f, r) ->
  exists n a b c, proper_face (su_pts f) n a b c /\ 0 < norm (cross (vsub b a) (vsub c a)) /\ ~ has_face f a b c.
Proof.
  intros HN Hr Hh E. destruct (hyper_run _ _ _ _ _ _ _ _ E) as (tf & tb & Q). destruct (high_hole N radius h HN Hr Hh) as (n & a & b & c & F & A & L & B).
  exists n, a, b, c. rewrite (run_pts _ _ _ _ _ _ _ _ Q). split; auto. split; auto. exact (not_returned _ _ _ _ _ _ _ _ _ _ _ Q L B).
Qed.
Print Assumptions C158_cap_refuted.

(* the default number of points *)
Example C158_example : exists f r, hyperhemisphere (fun _ => []) (fun p => Ok (brute_hull p)) (2 ^ 15) 1 1 None = Ok (f, r) /\
  exists n a b c, proper_face (su_pts f) n a b c /\ 0 < norm (cross (vsub b a) (vsub c a)) /\ ~ has_face f a b c.
Proof.
  assert (P : (51 <= 2 ^ 15)%nat). { apply (Nat.le_trans _ (2 ^ 6)); [cbn; lia|]. apply Nat.pow_le_mono_r; lia. }
  set (m := (2 ^ 15)%nat) in *. clearbody m. assert (K : 0 < INR m) by (apply lt_0_INR; lia).
  destruct (hyper_brute (fun _ => []) m 1 1 None) as (f & r & E); [lia|lra| |].
  { assert (0 < 1 / INR m) by (apply Rdiv_lt_0_compat; lra). assert (1 / INR m <= 1) by (apply div_le; [auto|rewrite Rmult_1_l; replace 1 with (INR 1) by reflexivity; apply le_INR; lia]). lra. }
  exists f, r. split; auto. exact (C158_whole_sphere_refuted _ _ _ _ _ _ _ P Rlt_0_1 E).
Qed.

Example C158_example_cap : exists f r, hyperhemisphere (fun _ => []) (fun p => Ok (brute_hull p)) 200 1 (- (92 / 100)) None = Ok (f, r) /\
  exists n a b c, proper_face (su_pts f) n a b c /\ 0 < norm (cross (vsub b a) (vsub c a)) /\ ~ has_face f a b c.
Proof.
  assert (I : INR 200 = 200) by (rewrite INR_IZR_INZ; reflexivity).
  destruct (hyper_brute (fun _ => []) 200 1 (- (92 / 100)) None) as (f & r & E); [lia|lra|rewrite I; lra|].
  exists f, r. split; auto. refine (C158_cap_refuted _ _ 200 1 (- (92 / 100)) _ _ _ _ Rlt_0_1 _ E); [lia|rewrite I; lra].
Qed.
