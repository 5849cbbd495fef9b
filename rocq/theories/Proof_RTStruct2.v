(* Where a ray starts (C130-C133) *)
From Coq Require Import Reals List ZArith Bool String Lia Lra.
From Verif Require Import Base Lib Model_Angles Model_Ideal Model_MatMul Model_Optics Spec_Optics Proof_Optics Proof_Geom Proof_OpticsEx
  Model_RayIface Model_RayStack Model_RT Model_Surface Model_RTStruct Spec_RTStruct Proof_RTStruct.
Import ListNotations.
Local Notation length := List.length.
Open Scope R_scope.

Section Start.
  Variables (h theta phi x y : R).
  Hypothesis Ht : 0 <= theta < PI / 2.
  Hypothesis Hh : h <> - (1 / 10 ^ 8).

  Let r := Rabs ((h + 1 / 10 ^ 8) / cos theta).

  Lemma cos_theta_pos : 0 < cos theta.
  Proof. apply cos_gt_0; lra. Qed.

  Lemma r_pos : 0 < r.
  Proof.
    unfold r. apply Rabs_pos_lt. pose proof cos_theta_pos. intros E. apply (Rmult_eq_compat_r (cos theta)) in E.
    unfold Rdiv in E. rewrite Rmult_assoc, Rinv_l in E by lra. lra.
  Qed.

  Lemma r_cos : r * cos theta = Rabs (h + 1 / 10 ^ 8).
  Proof.
    unfold r. pose proof cos_theta_pos. unfold Rdiv. rewrite Rabs_mult, Rabs_inv. rewrite (Rabs_pos_eq (cos theta)) by lra.
    field. lra.
  Qed.

  Lemma above : h < r * cos theta.
  Proof. rewrite r_cos. unfold Rabs. destruct (Rcase_abs (h + 1 / 10 ^ 8)); lra. Qed.

  Lemma diff_eq : vsub (mkv x y 0) (vadd (start_vector h theta phi) (mkv x y 0)) =
    mkv (- (r * sin theta * cos phi)) (- (r * sin theta * sin phi)) (- (r * cos theta)).
  Proof. unfold start_vector, vsub, vadd. fold r. cbn [vx vy vz]. apply vec_ext; cbn [vx vy vz]; ring. Qed.

  Lemma diff_norm : norm (vsub (mkv x y 0) (vadd (start_vector h theta phi) (mkv x y 0))) = r.
  Proof.
    rewrite diff_eq. unfold norm, dot. cbn [vx vy vz].
    replace (- (r * sin theta * cos phi) * - (r * sin theta * cos phi) + - (r * sin theta * sin phi) * - (r * sin theta * sin phi) +
      - (r * cos theta) * - (r * cos theta)) with (r * r * (sin theta * sin theta * (cos phi * cos phi + sin phi * sin phi) + cos theta * cos theta)) by ring.
    rewrite cos_sin_sq. replace (sin theta * sin theta * 1 + cos theta * cos theta) with 1 by (pose proof (cos_sin_sq theta); lra).
    rewrite Rmult_1_r. apply sqrt_square. pose proof r_pos. lra.
  Qed.

  Lemma first_dir : heads_down theta phi (snd (first_ray (start_vector h theta phi) x y)).
  Proof.
    unfold first_ray, heads_down. cbn [snd]. rewrite diff_norm, diff_eq. pose proof r_pos. unfold vscale. cbn [vx vy vz].
    apply vec_ext; cbn [vx vy vz]; field; lra.
  Qed.

  Lemma dir_unit d : heads_down theta phi d -> unit d.
  Proof.
    intros ->. unfold unit, dot. cbn [vx vy vz].
    replace (- (sin theta * cos phi) * - (sin theta * cos phi) + - (sin theta * sin phi) * - (sin theta * sin phi) + - cos theta * - cos theta)
      with (sin theta * sin theta * (cos phi * cos phi + sin phi * sin phi) + cos theta * cos theta) by ring.
    rewrite cos_sin_sq. pose proof (cos_sin_sq theta). lra.
  Qed.

  (* RT: the ray comes from above the texture and is aimed at (x, y, 0) *)
  Lemma first_ok : let '(p, d) := first_ray (start_vector h theta phi) x y in
    heads_down theta phi d /\ unit d /\ h < vz p /\ exists t, 0 < t /\ vadd p (vscale t d) = mkv x y 0.
  Proof.
    pose proof first_dir as D. unfold first_ray in *. cbn [snd] in D. set (d := vscale _ _) in *.
    split; auto. split; [apply dir_unit; auto|]. split.
    - unfold vadd, start_vector. cbn [vz]. fold r. pose proof above. lra.
    - exists r. split; [apply r_pos|]. rewrite D. unfold vadd, vscale, start_vector. fold r. cbn [vx vy vz].
      apply vec_ext; cbn [vx vy vz]; ring.
  Qed.

  (* the common part of single_ray_stack *)
  Lemma stack_pos z : let '(p, d) := first_ray (start_vector h theta phi) x y in
    set_z (vadd p (vscale (- vz p / vz d) d)) z = mkv x y z.
  Proof.
    pose proof first_dir as D. unfold first_ray in *. cbn [snd] in D. set (d := vscale _ _) in *.
    rewrite D. unfold set_z, vadd, vscale, start_vector. fold r. cbn [vx vy vz]. pose proof cos_theta_pos.
    apply vec_ext; cbn [vx vy vz]; field; lra.
  Qed.

  Lemma stack_first widths : exists z d,
    stack_start widths (start_vector h theta phi) x y 0 1 = Ok (mkv x y z, d, 0%Z) /\ h < z /\ heads_down theta phi d.
  Proof.
    pose proof first_dir as D. exists (r * cos theta), (snd (first_ray (start_vector h theta phi) x y)).
    pose proof (stack_pos (r * cos theta)) as P. unfold stack_start. cbn [Z.eqb Pos.eqb Z.ltb Z.compare andb rbind].
    destruct (first_ray (start_vector h theta phi) x y) as [p d]. cbn [snd fst] in *.
    replace (vz (start_vector h theta phi)) with (r * cos theta) by reflexivity. rewrite P.
    split; [reflexivity|]. split; [apply above|auto].
  Qed.

  (* numpy: [0] + widths on an array, then cumsum: the depths of the surfaces *)
  Lemma cum_depth ws k : (k <= length ws)%nat ->
    py_index (cumsum (map (fun w => 0 + w) (padded ws))) (Z.of_nat k) = Ok (depth ws k).
  Proof.
    intros Hk. assert (E : map (fun w => 0 + w) (padded ws) = padded ws).
    { etransitivity; [|apply map_id]. apply map_ext. intros a. lra. }
    rewrite E. unfold cumsum, padded. cbn [cumsum_go].
    assert (G : forall l acc j, (j < length l)%nat -> nth_error (cumsum_go acc l) j = Some (acc + rsum (firstn (S j) l))).
    { clear. induction l as [|a l IH]; intros acc j Hj; cbn [length] in Hj; [lia|]. cbn [cumsum_go]. destruct j as [|j].
      - cbn [nth_error firstn rsum]. f_equal. lra.
      - cbn [nth_error]. rewrite IH by lia. cbn [firstn rsum]. f_equal. lra. }
    unfold py_index. destruct (Z.ltb_spec (Z.of_nat k) 0); [lia|].
    destruct (Z.ltb_spec (Z.of_nat k) 0); [lia|]. rewrite Nat2Z.id. unfold depth.
    destruct k as [|k].
    - cbn [nth_error firstn rsum]. f_equal. lra.
    - cbn [nth_error]. rewrite G by (rewrite app_length; cbn [length]; lia).
      rewrite firstn_app. replace (S k - length ws)%nat with 0%nat by lia. cbn [firstn]. rewrite app_nil_r. f_equal. lra.
  Qed.

  Lemma depth_S ws k : (k < length ws)%nat -> depth ws (S k) = depth ws k + nth k ws 0.
  Proof.
    unfold depth. revert k. induction ws as [|w ws IH]; intros k Hk; cbn [length] in Hk; [lia|].
    destruct k as [|k]; [cbn [firstn rsum nth]; lra|].
    change (w + rsum (firstn (S k) ws) = w + rsum (firstn k ws) + nth k ws 0). rewrite IH by lia. lra.
  Qed.

  Lemma stack_down ws m : (m < length ws)%nat -> 1 / 10 ^ 8 < nth m ws 0 -> exists z d,
    stack_start (padded ws) (start_vector h theta phi) x y (Z.of_nat (S m)) 1 = Ok (mkv x y z, d, Z.of_nat (S m)) /\
    - depth ws (S m) < z < - depth ws m /\ heads_down theta phi d.
  Proof.
    intros Hm Hw. pose proof first_dir as D. exists (- depth ws m - 1 / 10 ^ 8), (snd (first_ray (start_vector h theta phi) x y)).
    pose proof (stack_pos (- depth ws m - 1 / 10 ^ 8)) as P. unfold stack_start.
    replace (0 <? Z.of_nat (S m))%Z with true by (symmetry; apply Z.ltb_lt; lia). cbn [Z.eqb Pos.eqb andb].
    replace (Z.of_nat (S m) - 1)%Z with (Z.of_nat m) by lia. rewrite cum_depth by lia. cbn [rbind fst snd].
    destruct (first_ray (start_vector h theta phi) x y) as [p d]. cbn [snd fst] in *. rewrite P.
    split; [reflexivity|]. split; auto. rewrite depth_S by auto. lra.
  Qed.

  Lemma up_flip d : heads_down theta phi d -> heads_up theta phi (set_z d (- vz d)).
  Proof. intros ->. unfold heads_up, set_z. cbn [vx vy vz]. apply vec_ext; cbn [vx vy vz]; ring. Qed.

  Lemma stack_up_gen ws m : (m <= S (length ws))%nat -> exists d,
    stack_start (padded ws) (start_vector h theta phi) x y (Z.of_nat m) (-1) =
      Ok (mkv x y (- depth ws m + 1 / 10 ^ 8), d, (Z.of_nat m - 1)%Z) /\ heads_up theta phi d.
  Proof.
    intros Hm. pose proof first_dir as D.
    pose proof (stack_pos (- depth ws m + 1 / 10 ^ 8)) as P. unfold stack_start. cbn [Z.eqb andb].
    destruct (first_ray (start_vector h theta phi) x y) as [p d]. cbn [snd fst] in *.
    assert (C : py_index (cumsum (map (fun w => 0 + w) (padded ws))) (Z.of_nat m) = Ok (depth ws m)).
    { destruct (Nat.eq_dec m (S (length ws))) as [->|]; [|apply cum_depth; lia].
      assert (E : map (fun w => 0 + w) (padded ws) = padded ws).
      { etransitivity; [|apply map_id]. apply map_ext. intros a. lra. }
      rewrite E. unfold cumsum, padded, py_index. cbn [cumsum_go].
      destruct (Z.ltb_spec (Z.of_nat (S (length ws))) 0); [lia|].
      destruct (Z.ltb_spec (Z.of_nat (S (length ws))) 0); [lia|]. rewrite Nat2Z.id. cbn [nth_error].
      assert (G : forall l acc, nth_error (cumsum_go acc (l ++ [0])) (length l) = Some (acc + rsum l)).
      { clear. induction l as [|a l IH]; intros acc; cbn [cumsum_go app length nth_error rsum]; [f_equal; lra|]. rewrite IH. f_equal. lra. }
      rewrite G. unfold depth. rewrite firstn_all2 by lia. f_equal. lra. }
    rewrite C. cbn [rbind fst snd]. rewrite P. exists (set_z d (- vz d)). split; [reflexivity|]. apply up_flip. auto.
  Qed.

  Lemma stack_up ws m : (m < length ws)%nat -> 1 / 10 ^ 8 < nth m ws 0 -> exists z d,
    stack_start (padded ws) (start_vector h theta phi) x y (Z.of_nat (S m)) (-1) = Ok (mkv x y z, d, Z.of_nat m) /\
    - depth ws (S m) < z < - depth ws m /\ heads_up theta phi d.
  Proof.
    intros Hm Hw. destruct (stack_up_gen ws (S m)) as [d [E U]]; [lia|]. rewrite E.
    exists (- depth ws (S m) + 1 / 10 ^ 8), d. replace (Z.of_nat (S m) - 1)%Z with (Z.of_nat m) by lia.
    split; [reflexivity|]. split; auto. rewrite depth_S by auto. lra.
  Qed.
End Start.

(* from below: the start is above the last surface *)
Lemma stack_rear_wrong h theta phi x y ws : 0 <= theta < PI / 2 -> h <> - (1 / 10 ^ 8) -> exists p d,
  stack_start (padded ws) (start_vector h theta phi) x y (Z.of_nat (S (length ws))) (-1) = Ok (p, d, Z.of_nat (length ws)) /\
  - depth ws (length ws) < vz p /\ 0 < vz d /\
  forall tris, (forall T, In T tris -> vz (t_P0 T) = - depth ws (length ws) /\ vz (t_P1 T) = - depth ws (length ws) /\
                                       vz (t_P2 T) = - depth ws (length ws)) ->
    check_intersect p d tris = None.
Proof.
  intros Ht Hh. destruct (stack_up_gen h theta phi x y Ht Hh ws (S (length ws))) as [d [E U]]; [lia|].
  assert (C : 0 < cos theta) by (apply cos_gt_0; lra).
  assert (Dd : depth ws (S (length ws)) = depth ws (length ws)) by (unfold depth; rewrite !firstn_all2 by lia; reflexivity).
  eexists. exists d. split; [rewrite E; repeat f_equal; lia|].
  rewrite Dd. cbn [vz]. rewrite U. cbn [vz]. split; [lra|]. split; [lra|]. intros tris Hf. apply check_intersect_none.
  intros T t HT [Ht0 [[a [b [_ [_ [_ Ep]]]]] _]]. destruct (Hf T HT) as [Z0 [Z1 Z2]].
  apply (f_equal vz) in Ep. unfold vadd, vscale, vsub in Ep. cbn [vx vy vz] in Ep. rewrite Z0, Z1, Z2 in Ep.
  assert (0 < t * cos theta) by (apply Rmult_lt_0_compat; auto). rewrite U in Ep. cbn [vz] in Ep.
  rewrite Rminus_diag_eq in Ep by reflexivity. rewrite !Rmult_0_r in Ep. lra.
Qed.

(* ---------- place ---------- *)

Lemma floor_range a L : 0 < L -> 0 <= a - L * pyfloordiv a L < L.
Proof.
  intros HL. unfold pyfloordiv, Zfloor. destruct (base_Int_part (a / L)) as [B1 B2].
  set (z := IZR (Int_part (a / L))) in *. assert (E : a = a / L * L) by (field; lra). set (q := a / L) in *. rewrite E. nra.
Qed.

Lemma place_zero Lx Ly zcov r d : 0 < Lx -> 0 < Ly -> vz d <> 0 ->
  exists p, place Lx Ly zcov (Some r) d = Some p /\ vz p = vz r /\ crosses_cell 0 0 Lx Ly zcov p d /\
    exists j k : Z, vx p = vx r + IZR j * Lx /\ vy p = vy r + IZR k * Ly.
Proof.
  intros Hx Hy Hd. unfold place. unfold Reqb. destruct (Req_EM_T (vz d) 0); [contradiction|].
  eexists. split; [reflexivity|]. cbn [vx vy vz]. split; auto. split.
  - exists ((zcov - vz r) / vz d). cbn [vx vy vz].
    pose proof (floor_range (vx r + vx d * (zcov - vz r) / vz d) Lx Hx).
    pose proof (floor_range (vy r + vy d * (zcov - vz r) / vz d) Ly Hy).
    split; [field; auto|]. replace ((zcov - vz r) / vz d * vx d) with (vx d * (zcov - vz r) / vz d) by (field; auto).
    replace ((zcov - vz r) / vz d * vy d) with (vy d * (zcov - vz r) / vz d) by (field; auto). lra.
  - unfold pyfloordiv. exists (- Zfloor ((vx r + vx d * (zcov - vz r) / vz d) / Lx))%Z, (- Zfloor ((vy r + vy d * (zcov - vz r) / vz d) / Ly))%Z.
    rewrite !opp_IZR. split; ring.
Qed.

Lemma randomized_ok Lx Ly zmin zmax zcov u v direction d : 0 < Lx -> 0 < Ly -> zmin <= zcov <= zmax -> 0 <= u < 1 -> 0 <= v < 1 ->
  (direction = 1 \/ direction = -1)%Z ->
  let '(p, d') := randomized Lx Ly zmin zmax zcov u v direction d in
  (vz d <> 0 -> d' = d) /\ vz d' <> 0 /\ vx d' = vx d /\ vy d' = vy d /\
  (vz d = 0 -> (direction = 1%Z -> vz d' < 0) /\ (direction = (-1)%Z -> 0 < vz d')) /\
  (vz d' < 0 -> zmax < vz p) /\ (0 < vz d' -> vz p < zmin) /\
  (exists t, 0 < t /\ vadd p (vscale t d') = mkv (u * Lx) (v * Ly) zcov) /\
  place Lx Ly zcov (Some p) d' = Some p.
Proof.
  intros Hx Hy Hz Hu Hv Hdir. unfold randomized. set (d' := if Reqb (vz d) 0 then _ else d). cbn zeta.
  assert (D1 : vz d <> 0 -> d' = d). { intros N. unfold d', Reqb. destruct (Req_EM_T (vz d) 0); congruence. }
  assert (D2 : vz d = 0 -> d' = set_z d (- IZR direction * (1 / 10 ^ 3))).
  { intros N. unfold d', Reqb. destruct (Req_EM_T (vz d) 0); congruence. }
  assert (D3 : vz d' <> 0).
  { destruct (Req_dec (vz d) 0) as [e|n]; [rewrite D2 by auto; cbn [set_z vz]; destruct Hdir; subst; lra|rewrite D1; auto]. }
  set (hh := zmax - zmin + 1 / 10) in *. assert (Hh : 0 < hh) by (unfold hh; lra).
  set (n_z := IZR (Zceil (Rabs (hh / vz d')))).
  assert (A : 0 < Rabs (hh / vz d')). { apply Rabs_pos_lt. unfold Rdiv. apply Rmult_integral_contrapositive_currified; [lra|]. apply Rinv_neq_0_compat; auto. }
  assert (N : Rabs (hh / vz d') <= n_z).
  { unfold n_z, Zceil. rewrite opp_IZR. destruct (base_Int_part (- Rabs (hh / vz d'))). lra. }
  assert (M : hh <= n_z * Rabs (vz d')).
  { replace hh with (Rabs (hh / vz d') * Rabs (vz d')).
    - apply Rmult_le_compat_r; [apply Rabs_pos|auto].
    - rewrite <- Rabs_mult. replace (hh / vz d' * vz d') with hh by (field; auto). apply Rabs_pos_eq. lra. }
  split; [auto|]. split; [auto|].
  split; [destruct (Req_dec (vz d) 0) as [e|n]; [rewrite D2 by auto; reflexivity|rewrite D1; auto]|].
  split; [destruct (Req_dec (vz d) 0) as [e|n]; [rewrite D2 by auto; reflexivity|rewrite D1; auto]|].
  split.
  { intros e. rewrite D2 by auto. cbn [set_z vz]. split; intros ->; lra. }
  cbn [vsub vscale vz vx vy].
  split.
  { intros Hn. rewrite Rabs_left in M by auto. unfold hh in M. lra. }
  split.
  { intros Hn. rewrite (Rabs_pos_eq (vz d')) in M by lra. unfold hh in M. lra. }
  split.
  { exists n_z. split; [lra|]. unfold vadd, vscale, vsub. cbn [vx vy vz]. apply vec_ext; cbn [vx vy vz]; ring. }
  unfold place, Reqb. destruct (Req_EM_T (vz d') 0); [contradiction|]. f_equal. unfold vsub, vscale. cbn [vx vy vz].
  assert (Z : forall q L dd, 0 < L -> 0 <= q < 1 -> pyfloordiv (q * L - n_z * dd + dd * (zcov - (zcov - n_z * vz d')) / vz d') L = 0).
  { intros q L dd HL Hq. unfold pyfloordiv, Zfloor.
    replace (q * L - n_z * dd + dd * (zcov - (zcov - n_z * vz d')) / vz d') with (q * L) by (field; auto).
    replace (q * L / L) with q by (field; lra). replace (Int_part q) with 0%Z; [reflexivity|]. symmetry. apply (Zfloor_unique _ 0). lra. }
  rewrite !Z by auto. apply vec_ext; cbn [vx vy vz]; ring.
Qed.

Lemma place_self Lx Ly zcov a b : 0 < Lx -> 0 < Ly -> 0 <= a < Lx -> 0 <= b < Ly ->
  place Lx Ly zcov (Some (mkv a b zcov)) (mkv 0 0 (-1)) = Some (mkv a b zcov).
Proof.
  intros Hx Hy Ha Hb. unfold place, Reqb. cbn [vz]. destruct (Req_EM_T (-1) 0); [lra|]. f_equal. cbn [vx vy vz].
  assert (Z : forall q L, 0 < L -> 0 <= q < L -> pyfloordiv (q + 0 * (zcov - zcov) / -1) L = 0).
  { intros q L HL Hq. unfold pyfloordiv, Zfloor. replace (q + 0 * (zcov - zcov) / -1) with q by field.
    replace (Int_part (q / L)) with 0%Z; [reflexivity|].
    assert (B : 0 <= q / L < 1).
    { split; [apply Rmult_le_pos; [lra|left; apply Rinv_0_lt_compat; auto]|].
      apply (Rmult_lt_reg_r L); auto. unfold Rdiv. rewrite Rmult_assoc, Rinv_l by lra. lra. }
    symmetry. apply (Zfloor_unique _ 0). lra. }
  rewrite !Z by auto. apply vec_ext; cbn [vx vy vz]; ring.
Qed.

Lemma outside x0 L : 0 < L -> x0 <> 0 -> exists a, 0 <= a < L /\ ~ (x0 <= a < x0 + L).
Proof.
  intros HL Hx. destruct (Rlt_dec 0 x0); [exists 0; lra|]. destruct (Rle_dec x0 (- L)); [exists 0; lra|].
  exists (L + x0 / 2). lra.
Qed.

Lemma place_misses x0 y0 Lx Ly zcov : 0 < Lx -> 0 < Ly -> x0 <> 0 \/ y0 <> 0 ->
  exists r d p, vz d <> 0 /\ place Lx Ly zcov (Some r) d = Some p /\ ~ crosses_cell x0 y0 Lx Ly zcov p d.
Proof.
  intros Hx Hy H.
  assert (G : exists a b, 0 <= a < Lx /\ 0 <= b < Ly /\ ~ (x0 <= a < x0 + Lx /\ y0 <= b < y0 + Ly)).
  { destruct H as [H|H].
    - destruct (outside x0 Lx Hx H) as [a [A B]]. exists a, 0. split; auto. split; [lra|tauto].
    - destruct (outside y0 Ly Hy H) as [b [A B]]. exists 0, b. split; [lra|]. split; [auto|tauto]. }
  destruct G as [a [b [Ha [Hb N]]]]. exists (mkv a b zcov), (mkv 0 0 (-1)), (mkv a b zcov).
  split; [cbn; lra|]. split; [apply place_self; auto|]. intros [t [_ [T2 T3]]]. cbn [vx vy] in T2, T3. apply N. lra.
Qed.
