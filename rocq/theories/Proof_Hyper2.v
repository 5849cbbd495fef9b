(* Which way the normals of hyperhemisphere point. *)
From Coq Require Import Reals List ZArith Bool Lia Lra Permutation.
From Verif Require Import Base Lib Model_Optics Model_RayIface Model_Surface Model_Hyper Spec_Surface Spec_Hyper Proof_Surface2 Proof_Hyper.
Import ListNotations.
Open Scope R_scope.

Lemma sgn_pos x : 0 < x -> sgn x = 1%Z.
Proof. intros H. unfold sgn, Rltb. destruct (Rlt_dec x 0); [lra|]. destruct (Rlt_dec 0 x); [auto|lra]. Qed.
Lemma sgn_neg x : x < 0 -> sgn x = (-1)%Z.
Proof. intros H. unfold sgn, Rltb. destruct (Rlt_dec x 0); [auto|lra]. Qed.

Lemma Rltb_t a b : a < b -> Rltb a b = true.
Proof. intros H. unfold Rltb. destruct (Rlt_dec a b); [auto|lra]. Qed.
Lemma Rltb_f a b : b <= a -> Rltb a b = false.
Proof. intros H. unfold Rltb. destruct (Rlt_dec a b); [lra|auto]. Qed.

Lemma neg_z v : vz (neg v) = - vz v. Proof. unfold neg. cbn [vscale vz]. ring. Qed.
Lemma neg_y v : vy (neg v) = - vy v. Proof. unfold neg. cbn [vscale vy]. ring. Qed.

(* the sign of the z component after the last loops *)
Lemma front_z_up h x : 103 / 100 * h < vz (middle (snd x)) -> 97 / 100 * h <= vz (middle (snd x)) -> 0 <= vz (t_cross (snd (front_z h x))).
Proof.
  intros A B. unfold front_z. rewrite (Rltb_t _ _ A), (Rltb_f _ _ B). cbn [andb switch_if].
  destruct (Rltb (vz (t_cross (snd x))) 0) eqn:Q; cbn [switch_if]; [apply Rltb_true in Q; rewrite switch_cross, neg_z|apply Rltb_false in Q]; lra.
Qed.

Lemma front_z_down h x : vz (middle (snd x)) <= 103 / 100 * h -> vz (middle (snd x)) < 97 / 100 * h -> vz (t_cross (snd (front_z h x))) <= 0.
Proof.
  intros A B. unfold front_z. rewrite (Rltb_f _ _ A), (Rltb_t _ _ B). cbn [andb switch_if].
  destruct (Rltb 0 (vz (t_cross (snd x)))) eqn:Q; cbn [switch_if]; [apply Rltb_true in Q; rewrite switch_cross, neg_z|apply Rltb_false in Q]; lra.
Qed.

Lemma front_z_same h x : 97 / 100 * h <= vz (middle (snd x)) <= 103 / 100 * h -> front_z h x = x.
Proof. intros [A B]. unfold front_z. rewrite (Rltb_f _ _ A), (Rltb_f _ _ B). reflexivity. Qed.

Lemma back_z_down h x : - (97 / 100) * h < vz (middle (snd x)) -> - (103 / 100) * h <= vz (middle (snd x)) -> vz (t_cross (snd (back_z h x))) <= 0.
Proof.
  intros A B. unfold back_z. rewrite (Rltb_t _ _ A), (Rltb_f _ _ B). cbn [andb switch_if].
  destruct (Rltb 0 (vz (t_cross (snd x)))) eqn:Q; cbn [switch_if]; [apply Rltb_true in Q; rewrite switch_cross, neg_z|apply Rltb_false in Q]; lra.
Qed.

Lemma back_z_up h x : vz (middle (snd x)) <= - (97 / 100) * h -> vz (middle (snd x)) < - (103 / 100) * h -> 0 <= vz (t_cross (snd (back_z h x))).
Proof.
  intros A B. unfold back_z. rewrite (Rltb_f _ _ A), (Rltb_t _ _ B). cbn [andb switch_if].
  destruct (Rltb (vz (t_cross (snd x))) 0) eqn:Q; cbn [switch_if]; [apply Rltb_true in Q; rewrite switch_cross, neg_z|apply Rltb_false in Q]; lra.
Qed.

Lemma back_z_same h x : - (103 / 100) * h <= vz (middle (snd x)) <= - (97 / 100) * h -> back_z h x = x.
Proof. intros [A B]. unfold back_z. rewrite (Rltb_f _ _ A), (Rltb_f _ _ B). reflexivity. Qed.

(* and of the y component after the second *)
Lemma switch_y d x : d = 1%Z \/ d = (-1)%Z -> vy (t_cross (snd x)) <> 0 -> vy (middle (snd x)) <> 0 ->
  0 < IZR d * vy (middle (snd x)) * vy (t_cross (snd (switch_one vy d x))).
Proof.
  intros Hd Hc Hm. unfold switch_one.
  destruct (Rtotal_order (vy (t_cross (snd x))) 0) as [C|[C|C]]; [|contradiction|];
  (destruct (Rtotal_order (vy (middle (snd x))) 0) as [M|[M|M]]; [|contradiction|]);
  rewrite ?(sgn_pos _ C), ?(sgn_neg _ C), ?(sgn_pos _ M), ?(sgn_neg _ M); destruct Hd as [ -> | -> ]; cbn [Z.mul Z.opp Pos.mul Z.eqb Pos.eqb negb];
  rewrite ?switch_cross, ?neg_y; nra.
Qed.

Lemma xy_one_switched d x : switched x (xy_one d x).
Proof. unfold xy_one. eapply switched_trans; apply switched_one. Qed.

(* every kept triangle with what it came from *)
Lemma front_items hull N radius h f r tf tb : run hull N radius h f r tf tb -> forall T, In T (su_tris f) ->
  exists t x, In t tf /\ switched (t, tri_of (su_pts f) t) x /\ T = snd (front_z h x) /\ bottom_planar radius (tri_of (su_pts f) t) = false /\
    ((length (su_tris f) <= length (su_tris r))%nat -> x = xy_one 1 (t, tri_of (su_pts f) t)).
Proof.
  intros [_ _ _ P _ (f0 & L & E) _] T HT. set (l := without _ _) in *. set (n := length (su_tris r)) in *.
  rewrite E in HT. cbn [with_items su_tris] in HT. apply in_map_iff in HT. destruct HT as [y [<- Hy]].
  assert (LF : length (su_tris f) = length l).
  { rewrite E. cbn [with_items su_tris]. rewrite map_length, app_length, !map_length, <- app_length, firstn_skipn. reflexivity. }
  apply in_app_iff in Hy. destruct Hy as [Hy|Hy]; apply in_map_iff in Hy; destruct Hy as [x [<- Hx]].
  - assert (Hin : In x l) by (rewrite <- (firstn_skipn n l); apply in_app_iff; auto).
    apply in_without in Hin. destruct Hin as [t [Ht [Ex D]]]. rewrite P. exists t, (xy_one 1 x). subst x. split; auto. split; [apply xy_one_switched|]. auto.
  - assert (Hin : In x l) by (rewrite <- (firstn_skipn n l); apply in_app_iff; auto).
    apply in_without in Hin. destruct Hin as [t [Ht [Ex D]]]. rewrite P. exists t, x. subst x. split; auto. split; [now left|]. split; auto. split; auto.
    intros Hle. exfalso. assert (n = length l) by lia. rewrite H, skipn_all in Hx. destruct Hx.
Qed.

Lemma back_items hull N radius h f r tf tb : run hull N radius h f r tf tb -> forall T, In T (su_tris r) ->
  exists t, In t tb /\ T = snd (back_z h (xy_one (-1) (t, tri_of (su_pts r) t))) /\ top_planar radius (tri_of (su_pts r) t) = false.
Proof.
  intros [_ _ _ _ P _ (r0 & E)] T HT. rewrite E in HT. cbn [with_items su_tris] in HT. apply in_map_iff in HT. destruct HT as [y [<- Hy]].
  apply in_map_iff in Hy. destruct Hy as [x [<- Hx]]. apply in_without in Hx. destruct Hx as [t [Ht [-> D]]]. rewrite P. exists t. auto.
Qed.

(* N is computed from the final corners *)
Lemma N_of hull N radius h f r tf tb : run hull N radius h f r tf tb ->
  (forall T M, In (T, M) (combine (su_tris f) (su_N f)) -> In T (su_tris f) /\ M = t_N T) /\
  (forall T M, In (T, M) (combine (su_tris r) (su_N r)) -> In T (su_tris r) /\ M = t_N T).
Proof.
  intros Q. assert (K : forall p d t s, kept_in p d t s -> forall T M, In (T, M) (combine (su_tris s) (su_N s)) -> In T (su_tris s) /\ M = t_N T).
  { intros p d t s (l & _ & _ & E2 & E3). rewrite E2, E3. generalize (map snd l) as L. clear. induction L as [|U L IH]; intros T M; [intros []|].
    cbn [map normals combine]. intros [E|H].
    - injection E as <- <-. split; [now left|reflexivity].
    - destruct (IH T M H) as [A B]. split; auto. now right. }
  split; [exact (K _ _ _ _ (front_kept _ _ _ _ _ _ _ _ Q))|exact (K _ _ _ _ (back_kept _ _ _ _ _ _ _ _ Q))].
Qed.

(* ---------- h <= 0 ---------- *)

Definition in_pts (p : list vec) (t : nat * nat * nat) : Prop := (fst (fst t) < length p)%nat /\ (snd (fst t) < length p)%nat /\ (snd t < length p)%nat.

Lemma corner_in p t : in_pts p t -> In (t_P0 (tri_of p t)) p /\ In (t_P1 (tri_of p t)) p /\ In (t_P2 (tri_of p t)) p.
Proof. destruct t as [[i j] k]. intros (A & B & C). cbn in *. repeat split; now apply nth_In. Qed.

Lemma middle_z T : vz (middle T) = (vz (t_P0 T) + vz (t_P1 T) + vz (t_P2 T)) / 3.
Proof. reflexivity. Qed.

Lemma level_triangle T z : vz (t_P0 T) = z -> vz (t_P1 T) = z -> vz (t_P2 T) = z -> is_flat T = true \/ t_cross T = mkv 0 0 0.
Proof.
  intros A B C. assert (E : t_cross T = mkv 0 0 (vz (t_cross T))).
  { unfold t_cross, cross, vsub. cbn [vx vy vz]. rewrite A, B, C. f_equal; ring. }
  destruct (Req_dec (vz (t_cross T)) 0) as [Z|NZ]; [right; rewrite Z in E; exact E|left].
  apply flat_iff. unfold nearly_level. change (cross (vsub (t_P1 T) (t_P0 T)) (vsub (t_P2 T) (t_P0 T))) with (t_cross T).
  assert (Q : norm (t_cross T) = Rabs (vz (t_cross T))).
  { unfold norm. rewrite E at 1 2. unfold dot. cbn [vx vy vz]. replace (0 * 0 + 0 * 0 + vz (t_cross T) * vz (t_cross T)) with (Rsqr (vz (t_cross T))) by (unfold Rsqr; ring).
    apply sqrt_Rsqr_abs. }
  rewrite Q. pose proof (Rabs_pos_lt _ NZ). lra.
Qed.

Lemma t_N_z T : 0 <= vz (t_cross T) -> 0 <= vz (t_N T).
Proof.
  intros H. unfold t_N. cbn [vscale vz]. pose proof (norm_nonneg (t_cross T)) as [P|Z].
  - apply Rmult_le_pos; auto. left. now apply Rinv_0_lt_compat.
  - symmetry in Z. destruct (norm_zero _ Z) as (_ & _ & ->). lra.
Qed.

Lemma all_up hull N radius h f r tf tb : run hull N radius h f r tf tb -> 0 < radius -> h <= 0 ->
  (forall t, In t tf -> in_pts (su_pts f) t) -> (forall t, In t tb -> in_pts (su_pts r) t) ->
  (forall M, In M (su_N f) -> 0 <= vz M) /\ (forall M, In M (su_N r) -> 0 <= vz M).
Proof.
  intros Q Hr Hh If Ib.
  assert (NI : forall p d t s, kept_in p d t s -> forall M, In M (su_N s) -> exists T, In T (su_tris s) /\ M = t_N T).
  { intros p d t s (l & _ & _ & E2 & E3) M HM. rewrite E3 in HM. unfold normals in HM. apply in_map_iff in HM. destruct HM as [c [<- Hc]].
    apply in_map_iff in Hc. destruct Hc as [T [<- HT]]. exists T. rewrite E2. auto. }
  split; intros M HM.
  - destruct (NI _ _ _ _ (front_kept _ _ _ _ _ _ _ _ Q) M HM) as [T [HT ->]]. apply t_N_z.
    destruct (front_items _ _ _ _ _ _ _ _ Q T HT) as (t & x & Ht & Sx & -> & D & _).
    destruct (corner_in _ _ (If t Ht)) as (C0 & C1 & C2). pose proof (run_pts _ _ _ _ _ _ _ _ Q) as EP. set (p := su_pts f) in *. clearbody p. subst p.
    apply points_sphere in C0. apply points_sphere in C1. apply points_sphere in C2. destruct C0 as [_ C0], C1 as [_ C1], C2 as [_ C2].
    pose proof (switched_middle _ _ Sx) as EM. cbn [snd] in EM. pose proof (middle_z (tri_of (hyper_points N radius h) t)) as MZ.
    destruct (Rlt_dec (103 / 100 * h) (vz (middle (snd x)))) as [L|L].
    + apply front_z_up; auto. rewrite EM, MZ. lra.
    + rewrite EM, MZ in L. assert (vz (t_P0 (tri_of (hyper_points N radius h) t)) = 0 /\ vz (t_P1 (tri_of (hyper_points N radius h) t)) = 0 /\ vz (t_P2 (tri_of (hyper_points N radius h) t)) = 0) as (Z0 & Z1 & Z2) by lra.
      destruct (level_triangle _ 0 Z0 Z1 Z2) as [F|F].
      * exfalso. unfold bottom_planar in D. rewrite F in D. cbn [andb] in D. assert (all_z (fun z => Rltb z (1 / 10 * radius)) (tri_of (hyper_points N radius h) t) = true).
        { apply all_z_iff. rewrite Z0, Z1, Z2. rewrite Rltb_t by lra. auto. } congruence.
      * assert (S2 : switched (t, tri_of (hyper_points N radius h) t) (front_z h x)) by (eapply switched_trans; [exact Sx|apply switched_front]).
        destruct (switched_cross _ _ S2) as [E|E]; rewrite E; cbn [snd]; rewrite F; unfold neg; cbn [vscale vz]; lra.
  - destruct (NI _ _ _ _ (back_kept _ _ _ _ _ _ _ _ Q) M HM) as [T [HT ->]]. apply t_N_z.
    destruct (back_items _ _ _ _ _ _ _ _ Q T HT) as (t & Ht & -> & D). set (x := xy_one (-1) (t, tri_of (su_pts r) t)).
    assert (Sx : switched (t, tri_of (su_pts r) t) x) by apply xy_one_switched.
    destruct (corner_in _ _ (Ib t Ht)) as (C0 & C1 & C2). pose proof (run_ptsb _ _ _ _ _ _ _ _ Q) as EP. set (p := su_pts r) in *. clearbody p. subst p.
    assert (MP : forall v, In v (mirror_z (hyper_points N radius h)) -> vz v <= 0).
    { intros v Hv. apply in_map_iff in Hv. destruct Hv as [w [<- Hw]]. apply points_sphere in Hw. cbn [set_z vz]. lra. }
    apply MP in C0. apply MP in C1. apply MP in C2.
    pose proof (switched_middle _ _ Sx) as EM. cbn [snd] in EM. pose proof (middle_z (tri_of (mirror_z (hyper_points N radius h)) t)) as MZ.
    destruct (Rlt_dec (vz (middle (snd x))) (- (103 / 100) * h)) as [L|L].
    + apply back_z_up; auto. rewrite EM, MZ. lra.
    + rewrite EM, MZ in L. assert (vz (t_P0 (tri_of (mirror_z (hyper_points N radius h)) t)) = 0 /\ vz (t_P1 (tri_of (mirror_z (hyper_points N radius h)) t)) = 0 /\ vz (t_P2 (tri_of (mirror_z (hyper_points N radius h)) t)) = 0) as (Z0 & Z1 & Z2) by lra.
      destruct (level_triangle _ 0 Z0 Z1 Z2) as [F|F].
      * exfalso. unfold top_planar in D. rewrite F in D. cbn [andb] in D. assert (all_z (fun z => Rltb (- (1 / 10) * radius) z) (tri_of (mirror_z (hyper_points N radius h)) t) = true).
        { apply all_z_iff. rewrite Z0, Z1, Z2. rewrite Rltb_t by lra. auto. } congruence.
      * assert (S2 : switched (t, tri_of (mirror_z (hyper_points N radius h)) t) (back_z h x)) by (eapply switched_trans; [exact Sx|apply switched_back]).
        destruct (switched_cross _ _ S2) as [E|E]; rewrite E; cbn [snd]; rewrite F; unfold neg; cbn [vscale vz]; lra.
Qed.

(* ---------- outward ---------- *)

(* two vectors perpendicular to the same plane are parallel *)
Lemma parallel n a b c : perpendicular n a b c -> 0 < norm (cross (vsub b a) (vsub c a)) ->
  exists k, n = vscale k (cross (vsub b a) (vsub c a)).
Proof.
  intros [P1 P2] Hn. set (u := vsub b a) in *. set (v := vsub c a) in *. clearbody u v. set (w := cross u v) in *.
  assert (Q : 0 < dot w w). { unfold norm in Hn. destruct (Rle_lt_or_eq_dec 0 (dot w w) (dot_pos w)) as [|E]; auto. rewrite <- E, sqrt_0 in Hn. lra. }
  exists (dot n w / dot w w).
  (* |w|^2 n - (n.w) w = w x (n x w), and n x w = (n.v) u - (n.u) v = 0 *)
  assert (X : vy n * vz w - vz n * vy w = 0 /\ vz n * vx w - vx n * vz w = 0 /\ vx n * vy w - vy n * vx w = 0).
  { unfold dot in P1, P2. unfold w, cross. cbn [vx vy vz]. destruct n as [n1 n2 n3], u as [u1 u2 u3], v as [v1 v2 v3]. cbn [vx vy vz] in *.
    repeat split.
    - replace (n2 * (u1 * v2 - u2 * v1) - n3 * (u3 * v1 - u1 * v3)) with (u1 * (n1 * v1 + n2 * v2 + n3 * v3) - v1 * (n1 * u1 + n2 * u2 + n3 * u3)) by ring. rewrite P1, P2. ring.
    - replace (n3 * (u2 * v3 - u3 * v2) - n1 * (u1 * v2 - u2 * v1)) with (u2 * (n1 * v1 + n2 * v2 + n3 * v3) - v2 * (n1 * u1 + n2 * u2 + n3 * u3)) by ring. rewrite P1, P2. ring.
    - replace (n1 * (u3 * v1 - u1 * v3) - n2 * (u2 * v3 - u3 * v2)) with (u3 * (n1 * v1 + n2 * v2 + n3 * v3) - v3 * (n1 * u1 + n2 * u2 + n3 * u3)) by ring. rewrite P1, P2. ring. }
  clearbody w. destruct X as (X1 & X2 & X3). destruct n as [n1 n2 n3], w as [w1 w2 w3]. unfold dot, vscale in *. cbn [vx vy vz] in *.
  f_equal; apply (Rmult_eq_reg_r (w1 * w1 + w2 * w2 + w3 * w3)); try lra; unfold Rdiv; rewrite !Rmult_assoc.
  - replace (/ (w1 * w1 + w2 * w2 + w3 * w3) * (w1 * (w1 * w1 + w2 * w2 + w3 * w3))) with w1 by (field; lra).
    apply Rminus_diag_uniq. transitivity (w2 * (n1 * w2 - n2 * w1) - w3 * (n3 * w1 - n1 * w3)); [ring|rewrite X3, X2; ring].
  - replace (/ (w1 * w1 + w2 * w2 + w3 * w3) * (w2 * (w1 * w1 + w2 * w2 + w3 * w3))) with w2 by (field; lra).
    apply Rminus_diag_uniq. transitivity (w3 * (n2 * w3 - n3 * w2) - w1 * (n1 * w2 - n2 * w1)); [ring|rewrite X1, X3; ring].
  - replace (/ (w1 * w1 + w2 * w2 + w3 * w3) * (w3 * (w1 * w1 + w2 * w2 + w3 * w3))) with w3 by (field; lra).
    apply Rminus_diag_uniq. transitivity (w1 * (n3 * w1 - n1 * w3) - w2 * (n2 * w3 - n3 * w2)); [ring|rewrite X2, X1; ring].
Qed.

(* the normal of T, once known not to point inwards in one coordinate *)
Lemma points_out p n T : face p n (t_P0 T) (t_P1 T) (t_P2 T) -> 0 < norm (t_cross T) ->
  (0 < vz n /\ 0 <= vz (t_cross T)) \/ (vz n < 0 /\ vz (t_cross T) <= 0) \/ 0 < vy n * vy (t_cross T) ->
  forall q, In q p -> dot (t_N T) (vsub q (t_P0 T)) <= 0.
Proof.
  intros (_ & _ & _ & N0 & PP & HF) Hn HS q Hq. destruct (parallel _ _ _ _ PP Hn) as [k Hk]. change (cross (vsub (t_P1 T) (t_P0 T)) (vsub (t_P2 T) (t_P0 T))) with (t_cross T) in Hk.
  assert (K : 0 < k).
  { rewrite Hk in HS. cbn [vscale vz vy] in HS. destruct HS as [[A B]|[[A B]|A]]; nra. }
  specialize (HF q Hq). rewrite Hk, scale_dot in HF. unfold t_N. rewrite scale_dot. pose proof (Rinv_0_lt_compat _ Hn).
  assert (dot (t_cross T) (vsub q (t_P0 T)) <= 0) by nra. nra.
Qed.

Lemma points_in p n T : face p n (t_P0 T) (t_P1 T) (t_P2 T) -> 0 < norm (t_cross T) ->
  (0 < vz n /\ vz (t_cross T) <= 0) \/ (vz n < 0 /\ 0 <= vz (t_cross T)) \/ vy n * vy (t_cross T) < 0 ->
  forall q, In q p -> 0 <= dot (t_N T) (vsub q (t_P0 T)).
Proof.
  intros (_ & _ & _ & N0 & PP & HF) Hn HS q Hq. destruct (parallel _ _ _ _ PP Hn) as [k Hk]. change (cross (vsub (t_P1 T) (t_P0 T)) (vsub (t_P2 T) (t_P0 T))) with (t_cross T) in Hk.
  assert (K : k < 0).
  { assert (k <> 0). { intros ->. rewrite Hk in N0. unfold dot, vscale in N0. cbn [vx vy vz] in N0. nra. }
    rewrite Hk in HS. cbn [vscale vz vy] in HS. destruct HS as [[A B]|[[A B]|A]]; nra. }
  specialize (HF q Hq). rewrite Hk, scale_dot in HF. unfold t_N. rewrite scale_dot. pose proof (Rinv_0_lt_compat _ Hn).
  assert (0 <= dot (t_cross T) (vsub q (t_P0 T))) by nra. apply Rmult_le_pos; lra.
Qed.

Definition mid_z (T : tri) : R := (vz (t_P0 T) + vz (t_P1 T) + vz (t_P2 T)) / 3.
Definition mid_y (T : tri) : R := (vy (t_P0 T) + vy (t_P1 T) + vy (t_P2 T)) / 3.

Lemma y_nonzero p n T : face p n (t_P0 T) (t_P1 T) (t_P2 T) -> 0 < norm (t_cross T) -> vy n <> 0 -> vy (t_cross T) <> 0.
Proof.
  intros (_ & _ & _ & N0 & PP & _) Hn Hy Z. destruct (parallel _ _ _ _ PP Hn) as [k Hk]. change (cross (vsub (t_P1 T) (t_P0 T)) (vsub (t_P2 T) (t_P0 T))) with (t_cross T) in Hk.
  rewrite Hk in Hy. cbn [vscale vy] in Hy. rewrite Z in Hy. lra.
Qed.

Lemma front_out hull N radius h f r tf tb : run hull N radius h f r tf tb -> (forall t, In t tf -> in_pts (su_pts f) t) -> forall T M n, In (T, M) (combine (su_tris f) (su_N f)) ->
  face (su_pts f) n (t_P0 T) (t_P1 T) (t_P2 T) -> 0 < norm (t_cross T) ->
  (103 / 100 * h < mid_z T /\ 0 < vz n) \/ (mid_z T < 97 / 100 * h /\ vz n < 0) \/
  (97 / 100 * h <= mid_z T <= 103 / 100 * h /\ 0 < vy n * mid_y T /\ (length (su_tris f) <= length (su_tris r))%nat) ->
  forall q, In q (su_pts f) -> dot M (vsub q (t_P0 T)) <= 0.
Proof.
  intros Q If T M n HT HF Hn HS. destruct (proj1 (N_of _ _ _ _ _ _ _ _ Q) T M HT) as [HT' ->]. apply (points_out _ n); auto.
  destruct (front_items _ _ _ _ _ _ _ _ Q T HT') as (t & x & Ht & Sx & E & _ & X).
  assert (S2 : switched x (front_z h x)) by apply switched_front.
  pose proof (switched_middle _ _ S2) as EM. rewrite <- E in EM.
  assert (MZ : mid_z T = vz (middle (snd x))) by (rewrite <- EM; reflexivity).
  assert (P0 : 0 <= mid_z T).
  { destruct HF as (C0 & C1 & C2 & _). rewrite (run_pts _ _ _ _ _ _ _ _ Q) in C0, C1, C2. apply points_sphere in C0. apply points_sphere in C1. apply points_sphere in C2. unfold mid_z. lra. }
  destruct HS as [[A B]|[[A B]|[A [B L]]]].
  - left. split; auto. rewrite E. apply front_z_up; rewrite <- MZ; lra.
  - right. left. split; auto. rewrite E. apply front_z_down; rewrite <- MZ; lra.
  - right. right. rewrite (front_z_same h x) in E by (rewrite <- MZ; lra).
    specialize (X L). set (x0 := switch_one vx 1 (t, tri_of (su_pts f) t)) in *. assert (Ex : x = switch_one vy 1 x0) by exact X.
    assert (S3 : switched x0 x) by (rewrite Ex; apply switched_one).
    assert (MY : mid_y T = vy (middle (snd x0))).
    { rewrite <- (switched_middle _ _ S3), <- E. reflexivity. }
    assert (NY : vy (t_cross (snd x0)) <> 0).
    { assert (K : vy (t_cross T) <> 0) by (eapply y_nonzero; eauto; nra).
      rewrite E in K. destruct (switched_cross _ _ S3) as [K1|K1]; rewrite K1 in K; auto. rewrite neg_y in K. lra. }
    pose proof (switch_y 1 x0 (or_introl eq_refl) NY ltac:(rewrite <- MY; nra)) as K. rewrite <- Ex, <- E, <- MY in K. nra.
Qed.

Lemma back_in hull N radius h f r tf tb : run hull N radius h f r tf tb -> (forall t, In t tb -> in_pts (su_pts r) t) -> forall T M n, In (T, M) (combine (su_tris r) (su_N r)) ->
  face (su_pts r) n (t_P0 T) (t_P1 T) (t_P2 T) -> 0 < norm (t_cross T) ->
  (mid_z T < - (103 / 100) * h /\ vz n < 0) \/ (- (97 / 100) * h < mid_z T /\ 0 < vz n) \/
  (- (103 / 100) * h <= mid_z T <= - (97 / 100) * h /\ 0 < vy n * mid_y T) ->
  forall q, In q (su_pts r) -> 0 <= dot M (vsub q (t_P0 T)).
Proof.
  intros Q Ib T M n HT HF Hn HS. destruct (proj2 (N_of _ _ _ _ _ _ _ _ Q) T M HT) as [HT' ->]. apply (points_in _ n); auto.
  destruct (back_items _ _ _ _ _ _ _ _ Q T HT') as (t & Ht & E & _). set (x := xy_one (-1) (t, tri_of (su_pts r) t)) in *.
  assert (S2 : switched x (back_z h x)) by apply switched_back.
  pose proof (switched_middle _ _ S2) as EM. rewrite <- E in EM.
  assert (MZ : mid_z T = vz (middle (snd x))) by (rewrite <- EM; reflexivity).
  assert (P0 : mid_z T <= 0).
  { destruct HF as (C0 & C1 & C2 & _). rewrite (run_ptsb _ _ _ _ _ _ _ _ Q) in C0, C1, C2.
    assert (MP : forall v, In v (mirror_z (hyper_points N radius h)) -> vz v <= 0).
    { intros v Hv. apply in_map_iff in Hv. destruct Hv as [w [<- Hw]]. apply points_sphere in Hw. cbn [set_z vz]. lra. }
    apply MP in C0. apply MP in C1. apply MP in C2. unfold mid_z. lra. }
  destruct HS as [[A B]|[[A B]|[A B]]].
  - right. left. split; auto. rewrite E. apply back_z_up; rewrite <- MZ; lra.
  - left. split; auto. rewrite E. apply back_z_down; rewrite <- MZ; lra.
  - right. right. rewrite (back_z_same h x) in E by (rewrite <- MZ; lra).
    set (x0 := switch_one vx (-1) (t, tri_of (su_pts r) t)) in *. assert (Ex : x = switch_one vy (-1) x0) by reflexivity. clearbody x.
    assert (S3 : switched x0 x) by (rewrite Ex; apply switched_one).
    assert (MY : mid_y T = vy (middle (snd x0))).
    { rewrite <- (switched_middle _ _ S3), <- E. reflexivity. }
    assert (NY : vy (t_cross (snd x0)) <> 0).
    { assert (K : vy (t_cross T) <> 0) by (eapply y_nonzero; eauto; nra).
      rewrite E in K. destruct (switched_cross _ _ S3) as [K1|K1]; rewrite K1 in K; auto. rewrite neg_y in K. lra. }
    pose proof (switch_y (-1) x0 (or_intror eq_refl) NY ltac:(rewrite <- MY; nra)) as K. rewrite <- Ex, <- E, <- MY in K. nra.
Qed.
