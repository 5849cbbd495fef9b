(* C122-C125 *)
From Coq Require Import Reals List ZArith Bool Lia Lra.
From Verif Require Import Base Lib Model_Ideal Model_TMM Model_Absorb Model_RTProfile Spec_Absorb Spec_RTProfile Proof_RTProfile.
Import ListNotations.
Open Scope R_scope.

Lemma one_layer w n k : n_points w 1 0 n -> (1 <= k <= 1)%nat -> n_points (width [w] k) 1 0 n.
Proof. intros H Hk. replace k with 1%nat by lia. exact H. Qed.
Lemma points2 : layer_points [2] 1 (fun _ => 2%nat).
Proof. intros k Hk. apply one_layer; auto. split; [simpl; lra|right; simpl; lra]. Qed.
Lemma exp_neg1 : 0 < exp (- 1) < 1.
Proof. split; [apply exp_pos|]. rewrite <- exp_0. apply exp_increasing. lra. Qed.
Lemma valid1 (w : R) : valid_layers [w] [1%nat].
Proof. intros k [<-|[]]; cbn; lia. Qed.
(* decays as e^(-z) *)
Definition decay (A1 : R) : coefs := mk_coefs A1 1 0 0 1 0.
Lemma decay_law z : depth_law (decay 0) z = exp (- z).
Proof. unfold depth_law, decay. cbn [c_A1 c_A2 c_A3r c_A3i c_a1 c_a3]. rewrite Rmult_1_l. ring. Qed.

(* ---------------- C122 ---------------- *)

(* off k is how far the distance to the rear side is missed in layer k *)
Theorem C122_rear_profile_partial : forall w d pts pl angles, 0 < d -> layer_points w d pts -> ascending pl -> valid_layers w pl ->
  (forall a, In a angles -> counted w pl a) ->
  exists off, (forall k, In k pl -> (0 < pts k)%nat -> 0 < off k <= d /\ (off k = d <-> width w k = INR (pts k) * d)) /\
    make_profile Rear w d pl angles = Ok (by_layer pl pts (fun k i => Rmax 0 (from_angles angles k (width w k - INR i * d - off k)))).
Proof. exact rear_spec. Qed.
Print Assumptions C122_rear_profile_partial.

Theorem C122_rear_profile_refuted : exists w d pts pl angles r, 0 < d /\ layer_points w d pts /\ ascending pl /\ valid_layers w pl /\
  (forall a, In a angles -> counted w pl a) /\
  make_profile Rear w d pl angles = Ok r /\
  r <> by_layer pl pts (fun k i => Rmax 0 (from_angles angles k (width w k - INR i * d))).
Proof.
  exists [2; 1], 1, (fun k => if Nat.eqb k 1 then 2%nat else 1%nat), [1%nat], [mk_share 1 (fun _ => decay 0)].
  assert (P : layer_points [2; 1] 1 (fun k => if Nat.eqb k 1 then 2%nat else 1%nat)).
  { intros k Hk. cbn [length] in Hk. destruct k as [|[|[|k]]]; try lia; unfold width; (split; [simpl; lra|right; simpl; lra]). }
  assert (C : forall a, In a [mk_share 1 (fun _ => decay 0)] -> counted [2; 1] [1%nat] a).
  { intros a _. right. left. exists 2%nat. split; [cbn; lia|]. intros [|[]]. discriminate. }
  assert (V : valid_layers [2; 1] [1%nat]) by (intros k [<-|[]]; cbn; lia).
  destruct (rear_spec [2; 1] 1 (fun k => if Nat.eqb k 1 then 2%nat else 1%nat) [1%nat] [mk_share 1 (fun _ => decay 0)]) as (off & O & E); auto;
    [lra|apply (asc_seq 1 1)|].
  exists (by_layer [1%nat] (fun k => if Nat.eqb k 1 then 2%nat else 1%nat)
     (fun k i => Rmax 0 (from_angles [mk_share 1 (fun _ => decay 0)] k (width [2; 1] k - INR i * 1 - off k)))).
  split; [lra|]. split; auto. split; [apply (asc_seq 1 1)|]. split; auto. split; auto. split; auto.
  destruct (O 1%nat) as [O1 O2]; [left; auto|cbn; lia|]. unfold by_layer. cbn [flat_map map seq Nat.eqb app]. intros H. injection H as H _.
  unfold from_angles in H. cbn [map rsum as_pr as_cf] in H. rewrite !decay_law in H.
  assert (G : off 1%nat = 1) by (apply O2; cbn; lra). rewrite G in H. unfold width in H. cbn [Nat.sub nth INR] in H.
  assert (exp (- (2 - 0 * 1)) < exp (- (2 - 0 * 1 - 1))) by (apply exp_increasing; lra).
  assert (X := exp_pos (- (2 - 0 * 1))). rewrite !Rmax_right in H by lra. lra.
Qed.
Print Assumptions C122_rear_profile_refuted.

Example C122_ex : counted [2] [1%nat] (mk_share (/ 2) (fun _ => decay 3)) /\ layer_points [2] 1 (fun _ => 2%nat).
Proof. split; [right; right; cbn; split; lra|apply points2]. Qed.

(* ---------------- C123 ---------------- *)

Theorem C123_angle_profile_partial : forall w d pts pl angles, 0 < d -> layer_points w d pts -> ascending pl -> valid_layers w pl ->
  (forall a, In a angles -> counted w pl a) ->
  make_profile Front w d pl angles = Ok (by_layer pl pts (fun k i => Rmax 0 (from_angles angles k (INR i * d)))).
Proof. exact front_spec. Qed.
Print Assumptions C123_angle_profile_partial.

(* all layers requested, all incoherent: the profile is 0 *)
Theorem C123_angle_profile_refuted :
  (forall s w d pl angles, ascending pl -> valid_layers w pl -> (forall k, (1 <= k <= length w)%nat -> In k pl) ->
    (forall a k, In a angles -> (1 <= k <= length w)%nat -> c_A1 (as_cf a k) = 0) ->
    exists r, make_profile s w d pl angles = Ok r /\ forall v, In v r -> v = 0) /\
  exists w d pts pl angles r, 0 < d /\ layer_points w d pts /\ ascending pl /\ valid_layers w pl /\
    make_profile Front w d pl angles = Ok r /\
    r <> by_layer pl pts (fun k i => Rmax 0 (from_angles angles k (INR i * d))).
Proof.
  split; [exact angles_dropped|]. exists [2], 1, (fun _ => 2%nat), [1%nat], [mk_share 1 (fun _ => decay 0)].
  destruct (angles_dropped Front [2] 1 [1%nat] [mk_share 1 (fun _ => decay 0)]) as (r & E & Z).
  - apply (asc_seq 1 1).
  - apply valid1.
  - intros k Hk. cbn [length] in Hk. left. lia.
  - intros a k [<-|[]] _. reflexivity.
  - exists r. split; [lra|]. split; [apply points2|]. split; [apply (asc_seq 1 1)|]. split; [apply valid1|]. split; auto.
    intros ->. specialize (Z 1). unfold by_layer in Z. cbn [flat_map map seq app] in Z. assert (1 = 0); [|lra]. apply Z. left.
    unfold from_angles. cbn [map rsum as_pr as_cf]. rewrite decay_law. simpl (INR 0). rewrite Rmult_0_l, Ropp_0, exp_0. rewrite Rmax_right; lra.
Qed.
Print Assumptions C123_angle_profile_refuted.

Example C123_ex : make_profile Front [2] 1 [1%nat] [mk_share (/ 2) (fun _ => mk_coefs 1 (-3) 0 0 0 0); mk_share (/ 2) (fun _ => mk_coefs 5 1 0 0 0 0)] = Ok [2; 2].
Proof.
  rewrite (C123_angle_profile_partial [2] 1 (fun _ => 2%nat)).
  - unfold by_layer, from_angles, depth_law. cbn [flat_map map seq app rsum as_pr as_cf c_A1 c_A2 c_A3r c_A3i c_a1 c_a3].
    rewrite !Rmult_0_l, !Ropp_0, !exp_0. f_equal. f_equal; [|f_equal]; rewrite Rmax_right; lra.
  - lra.
  - apply points2.
  - apply (asc_seq 1 1).
  - apply valid1.
  - intros a [<-|[<-|[]]]; right; right; cbn; split; lra.
Qed.

(* ---------------- C124 ---------------- *)

Theorem C124_interface_profile_partial : forall w d pts pl A rays, 0 < d -> layer_points w d pts -> ascending pl -> valid_layers w pl ->
  pl <> [] -> rays <> [] -> (forall y, In y rays -> resolved pl y) ->
  let raw := by_layer pl pts (ray_sample pl rays d pts) in
  0 < trapezoid d raw ->
  exists r, wl_profile w d pl A rays = Ok r /\ trapezoid d r = rsum A /\ r = map (fun x => rsum A / trapezoid d raw * x) raw.
Proof. exact rays_profile. Qed.
Print Assumptions C124_interface_profile_partial.

Example C124_ex : exists r, wl_profile [2] 1 [1%nat] [/ 4]
    [mk_absorbed Front (fun _ => / 4) (fun _ => / 2) (fun _ => mk_coefs 1 0 0 0 0 0)] = Ok r /\ trapezoid 1 r = / 4 /\ r = [/ 4; / 4].
Proof.
  assert (Raw : by_layer [1%nat] (fun _ => 2%nat) (ray_sample [1%nat] [mk_absorbed Front (fun _ => / 4) (fun _ => / 2) (fun _ => mk_coefs 1 0 0 0 0 0)] 1 (fun _ => 2%nat)) = [/ 2; / 2]).
  { unfold by_layer, ray_sample, from_rays, mean_ratio, depth_law.
    cbn [flat_map map seq app rsum ab_side ab_A ab_look ab_cf c_A1 c_A2 c_A3r c_A3i c_a1 c_a3 length]. rewrite !Rmult_0_l, !exp_0. simpl (INR 1).
    f_equal; [|f_equal]; field. }
  destruct (C124_interface_profile_partial [2] 1 (fun _ => 2%nat) [1%nat] [/ 4] [mk_absorbed Front (fun _ => / 4) (fun _ => / 2) (fun _ => mk_coefs 1 0 0 0 0 0)])
    as (r & E & T & F).
  - lra.
  - apply points2.
  - apply (asc_seq 1 1).
  - apply valid1.
  - discriminate.
  - discriminate.
  - intros y [<-|[]] k _. cbn. assert (10 < 10 ^ 10) by (rewrite <- (pow_1 10) at 1; apply Rlt_pow; [lra|lia]). apply Rinv_lt_contravar; lra.
  - rewrite Raw. cbn [trapezoid]. lra.
  - exists r. split; auto. split; [rewrite T; cbn [rsum]; lra|]. rewrite F, Raw. cbn [map trapezoid rsum]. f_equal; [field|f_equal; field].
Qed.

(* a ray without a layer above the threshold sets the profile of its side to 0, the absorption stays *)
Theorem C124_interface_profile_refuted :
  (forall w d pl rays A y, ascending pl -> valid_layers w pl -> In y rays ->
    (forall k, In k pl -> ab_look y k <= / 10 ^ 10) -> (forall x, In x rays -> ab_side x = ab_side y) ->
    exists r, wl_profile w d pl A rays = Ok r /\ forall v, In v r -> v = 0) /\
  exists w d pts pl A rays r, 0 < d /\ layer_points w d pts /\ ascending pl /\ valid_layers w pl /\
    (forall y k, In y rays -> ab_A y k = 0 \/ resolved pl y) /\
    wl_profile w d pl A rays = Ok r /\ 0 < rsum A /\ rsum A = rsum (map (fun y => rsum (map (ab_A y) pl)) rays) /\ trapezoid d r <> rsum A.
Proof.
  split; [exact nan_ray|].
  set (y1 := mk_absorbed Front (fun _ => / 2) (fun _ => / 2) (fun _ => mk_coefs 1 0 0 0 0 0)).
  set (y2 := mk_absorbed Front (fun _ => 0) (fun _ => 0) (fun _ => mk_coefs 0 0 0 0 0 0)).
  exists [2], 1, (fun _ => 2%nat), [1%nat], [/ 2], [y1; y2].
  assert (T10 : 10 < 10 ^ 10) by (rewrite <- (pow_1 10) at 1; apply Rlt_pow; [lra|lia]).
  destruct (nan_ray [2] 1 [1%nat] [y1; y2] [/ 2] y2) as (r & E & Z).
  - apply (asc_seq 1 1).
  - apply valid1.
  - right. left. auto.
  - intros k _. cbn. left. apply Rinv_0_lt_compat. lra.
  - intros x [<-|[<-|[]]]; reflexivity.
  - exists r. split; [lra|]. split; [apply points2|]. split; [apply (asc_seq 1 1)|]. split; [apply valid1|]. split; [|split; [auto|split; [|split]]].
    + intros y k [<-|[<-|[]]]; [right|left; reflexivity]. intros j _. cbn. apply Rinv_lt_contravar; lra.
    + cbn [rsum]. lra.
    + cbn. lra.
    + assert (L : trapezoid 1 r = 0).
      { clear - Z. assert (G : forall l, (forall v, In v l -> v = 0) -> trapezoid 1 l = 0).
        { induction l as [|a [|b l] IH]; intros H; auto. cbn [trapezoid] in *. rewrite IH by (intros; apply H; right; auto).
          rewrite (H a), (H b) by (cbn; auto). lra. }
        auto. }
      rewrite L. cbn [rsum]. lra.
Qed.
Print Assumptions C124_interface_profile_refuted.

(* ---------------- C125 ---------------- *)

Theorem C125_profile_points : forall w d pl, valid_layers w pl ->
  (forall A rays, exists r, wl_profile w d pl A rays = Ok r) /\
  (forall A rays r A' rays' r', wl_profile w d pl A rays = Ok r -> wl_profile w d pl A' rays' = Ok r' -> length r = length r').
Proof.
  intros w d pl V. split; [intros; apply profile_total; auto|]. intros A rays r A' rays' r' H H'.
  rewrite (profile_length _ _ _ _ _ _ H), (profile_length _ _ _ _ _ _ H'). auto.
Qed.
Print Assumptions C125_profile_points.

Example C125_ex : exists r r', wl_profile [2] 1 [1%nat] [0] [] = Ok r /\
  wl_profile [2] 1 [1%nat] [/ 4] [mk_absorbed Rear (fun _ => / 4) (fun _ => / 2) (fun _ => decay 0)] = Ok r' /\ length r = length r'.
Proof.
  destruct (C125_profile_points [2] 1 [1%nat] (valid1 2)) as [T L]. destruct (T [0] []) as [r E].
  destruct (T [/ 4] [mk_absorbed Rear (fun _ => / 4) (fun _ => / 2) (fun _ => decay 0)]) as [r' E']. exists r, r'. eauto.
Qed.
