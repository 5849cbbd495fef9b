(* A face of a sphere whose normal is turned inwards, and a hemisphere in other units. *)
From Coq Require Import Reals List ZArith Bool Lia Lra Permutation.
From Verif Require Import Base Lib Model_Optics Model_RayIface Model_Surface Model_Hyper Spec_Surface Spec_Hyper Proof_Surface2 Proof_Hyper Proof_Hyper2 Proof_Hyper3 Proof_HyperNum Proof_Hyper4.
Import ListNotations.
Open Scope R_scope.

Lemma in_tris_N p d t s T : kept_in p d t s -> In T (su_tris s) -> In (T, t_N T) (combine (su_tris s) (su_N s)).
Proof.
  intros (l & _ & _ & E2 & E3). rewrite E2, E3. generalize (map snd l) as L. clear. induction L as [|U L IH]; [intros []|].
  cbn [map normals combine]. intros [ -> | H]; [now left|right; auto].
Qed.

(* a face that rises towards the outside but whose middle lies below 0.97 h *)
Lemma turned_in hull N radius h f r tf tb a b c q : run hull N radius h f r tf tb -> has_face f a b c ->
  0 < vz (ncross a b c) -> (vz a + vz b + vz c) / 3 < 97 / 100 * h -> 0 <= h -> dot (ncross a b c) (vsub q a) < 0 ->
  exists T M, In (T, M) (combine (su_tris f) (su_N f)) /\ corners T a b c /\ 0 < dot M (vsub q (t_P0 T)).
Proof.
  intros Q (T & HT & C) Hn Hm Hh Hq. exists T, (t_N T). split; [exact (in_tris_N _ _ _ _ _ (front_kept _ _ _ _ _ _ _ _ Q) HT)|]. split; auto.
  destruct (front_items _ _ _ _ _ _ _ _ Q T HT) as (t & x & _ & _ & E & _).
  pose proof (switched_middle _ _ (switched_front h x)) as EM. rewrite <- E in EM.
  assert (MZ : vz (middle (snd x)) = (vz a + vz b + vz c) / 3).
  { rewrite <- EM, middle_z. destruct (perm3 _ _ _ _ _ _ C) as [H|[H|[H|[H|[H|H]]]]]; injection H as E0 E1 E2; rewrite E0, E1, E2; field. }
  assert (D : vz (t_cross T) <= 0) by (rewrite E; apply front_z_down; lra).
  assert (K : t_cross T = neg (ncross a b c)).
  { destruct (ncross_perm _ _ _ _ _ _ C) as [H|H]; [|exact H]. change (ncross (t_P0 T) (t_P1 T) (t_P2 T)) with (t_cross T) in H. rewrite H in D. lra. }
  unfold t_N. rewrite K, scale_dot, norm_neg, dot_neg_l. set (n := ncross a b c) in *.
  assert (P : 0 < norm n).
  { unfold norm. apply sqrt_lt_R0. unfold dot. nra. }
  assert (Z : dot n (vsub q (t_P0 T)) = dot n (vsub q a)).
  { destruct (cross_perp (vsub b a) (vsub c a)) as [Z1 Z2]. change (cross (vsub b a) (vsub c a)) with n in Z1, Z2.
    assert (W : t_P0 T = a \/ t_P0 T = b \/ t_P0 T = c) by (destruct (perm3 _ _ _ _ _ _ C) as [H|[H|[H|[H|[H|H]]]]]; injection H as E0 E1 E2; rewrite E0; auto).
    unfold dot, vsub in *. cbn [vx vy vz] in *. destruct W as [ -> | [ -> | -> ]]; lra. }
  rewrite Z. pose proof (Rinv_0_lt_compat _ P). nra.
Qed.

(* ---------- five points ---------- *)

Definition rr (k : nat) : R := sqrt (1 - (INR k * (2 / 5) - 4 / 5) * (INR k * (2 / 5) - 4 / 5)).
Definition five (k : nat) : vec := mkv (rr k * azc k) (rr k * azs k) (INR k * (2 / 5) + 1 / 5).

Lemma spiral_five k : spiral 5 1 1 k = five k.
Proof.
  unfold spiral, five, rr, azc, azs. replace (INR 5) with 5 by (cbn; lra).
  replace (INR k * (2 / 5) - 1 + 2 / 5 / 2) with (INR k * (2 / 5) - 4 / 5) by field. f_equal; field.
Qed.

Lemma rr_02 : rr 0 = 6 / 10 /\ rr 2 = 1 /\ rr 4 = 6 / 10.
Proof.
  unfold rr. cbn [INR]. repeat split.
  - replace (1 - (0 * (2 / 5) - 4 / 5) * (0 * (2 / 5) - 4 / 5)) with ((6 / 10) * (6 / 10)) by field. apply sqrt_square. lra.
  - replace (1 - ((1 + 1) * (2 / 5) - 4 / 5) * ((1 + 1) * (2 / 5) - 4 / 5)) with (1 * 1) by field. apply sqrt_square. lra.
  - replace (1 - ((1 + 1 + 1 + 1) * (2 / 5) - 4 / 5) * ((1 + 1 + 1 + 1) * (2 / 5) - 4 / 5)) with ((6 / 10) * (6 / 10)) by field. apply sqrt_square. lra.
Qed.
Lemma rr_13 : (9165 / 10000 <= rr 1 <= 9166 / 10000) /\ (9165 / 10000 <= rr 3 <= 9166 / 10000).
Proof. unfold rr. cbn [INR]. split; apply sqrt_between; lra. Qed.

Lemma rho_five k : (k < 5)%nat -> 6 / 10 <= sqrt (vx (five k) * vx (five k) + vy (five k) * vy (five k)).
Proof.
  intros H. unfold five. cbn [vx vy]. pose proof (sin2_cos2 (INR k * long_incr)) as T. unfold Rsqr in T. fold (azc k) (azs k) in T.
  replace (rr k * azc k * (rr k * azc k) + rr k * azs k * (rr k * azs k)) with (rr k * rr k * (azs k * azs k + azc k * azc k)) by ring. rewrite T, Rmult_1_r.
  assert (6 / 10 <= rr k).
  { destruct rr_02 as (A & B & C), rr_13 as (D & E). do 5 (destruct k as [|k]; [lra|]). lia. }
  rewrite sqrt_square; lra.
Qed.

Lemma points_five : hyper_points 5 1 1 = [five 0; five 1; five 2; five 3; five 4].
Proof.
  assert (S : sphere_points 5 1 1 = [five 0; five 1; five 2; five 3; five 4]).
  { unfold sphere_points. cbn [seq map]. rewrite !spiral_five. cbn [filter].
    assert (Z : forall k, Rleb 0 (vz (five k)) = true).
    { intros k. unfold five. cbn [vz]. pose proof (pos_INR k). unfold Rleb. destruct (Rle_dec 0 (INR k * (2 / 5) + 1 / 5)); auto; lra. }
    now rewrite !Z. }
  unfold hyper_points. rewrite S.
  assert (R : rim_count 1 1 [five 0; five 1; five 2; five 3; five 4] = 0%nat).
  { unfold rim_count, r_cross. rewrite Rltb_f by lra.
    assert (NR : forall k, (k < 5)%nat -> near_rim (sqrt (1 * 1 - 1 * 1)) (five k) = false).
    { intros k Hk. unfold near_rim. replace (1 * 1 - 1 * 1) with 0 by ring. rewrite sqrt_0. rewrite Rltb_f; [reflexivity|]. pose proof (rho_five k Hk). lra. }
    cbn [filter]. rewrite !NR by lia. reflexivity. }
  rewrite R. unfold rim_points. destruct (r_cross 1 1); reflexivity.
Qed.

Lemma xy_five : (-6760 / 10000 <= rr 1 * azc 1 <= -6757 / 10000) /\ (-6193 / 10000 <= rr 1 * azs 1 <= -6189 / 10000) /\
  (5567 / 10000 <= rr 3 * azc 3 <= 5587 / 10000) /\ (-7281 / 10000 <= rr 3 * azs 3 <= -7266 / 10000).
Proof.
  destruct rr_13 as [[A A'] [B B']], az_1 as [[C C'] [D D']], az_3 as [[E E'] [F F']].
  assert (C1 : 7373 / 10000 <= - azc 1) by lra. assert (C1' : - azc 1 <= 7374 / 10000) by lra. assert (D1 : 6754 / 10000 <= - azs 1) by lra. assert (D1' : - azs 1 <= 6756 / 10000) by lra.
  assert (F1 : 7929 / 10000 <= - azs 3) by lra. assert (F1' : - azs 3 <= 7943 / 10000) by lra.
  pose proof (mul_bound _ _ _ _ _ _ A A' C1 C1' ltac:(lra) ltac:(lra)). pose proof (mul_bound _ _ _ _ _ _ A A' D1 D1' ltac:(lra) ltac:(lra)).
  pose proof (mul_bound _ _ _ _ _ _ B B' E E' ltac:(lra) ltac:(lra)). pose proof (mul_bound _ _ _ _ _ _ B B' F1 F1' ltac:(lra) ltac:(lra)). lra.
Qed.

Definition n5 : vec := ncross (five 0) (five 2) (five 3).

Lemma n5_b : (17763 / 10000 <= vx n5 <= 17783 / 10000) /\ (5800 / 10000 <= vy n5 <= 5825 / 10000) /\ (4130 / 10000 <= vz n5 <= 4170 / 10000).
Proof.
  unfold n5, ncross, five, cross, vsub. cbn [vx vy vz INR]. destruct rr_02 as (-> & -> & _), az_0 as [-> ->]. rewrite !Rmult_1_l, Rmult_0_r.
  destruct az_2 as [[C C'] [D D']], xy_five as (_ & _ & [E E'] & [F F']). set (X := rr 3 * azc 3) in *. set (Y := rr 3 * azs 3) in *. clearbody X Y.
  set (c2 := azc 2) in *. set (s2 := azs 2) in *. clearbody c2 s2.
  assert (G : 5123 / 10000 <= 6 / 10 - c2) by lra. assert (G' : 6 / 10 - c2 <= 5128 / 10000) by lra.
  assert (H : 7266 / 10000 <= - Y) by lra. assert (H' : - Y <= 7281 / 10000) by lra.
  assert (I : 413 / 10000 <= 6 / 10 - X) by lra. assert (I' : 6 / 10 - X <= 433 / 10000) by lra.
  pose proof (mul_bound _ _ _ _ _ _ G G' H H' ltac:(lra) ltac:(lra)). pose proof (mul_bound _ _ _ _ _ _ D D' I I' ltac:(lra) ltac:(lra)).
  repeat split; lra.
Qed.

Lemma n5_1 : dot n5 (vsub (five 1) (five 0)) < 0.
Proof.
  destruct n5_b as ([A A'] & [B B'] & [C C']). unfold dot. set (n := n5) in *. clearbody n. unfold five, vsub. cbn [vx vy vz INR].
  destruct rr_02 as (-> & _), az_0 as [-> ->]. rewrite Rmult_1_r, Rmult_0_r. destruct xy_five as ([E E'] & [F F'] & _). set (X := rr 1 * azc 1) in *. set (Y := rr 1 * azs 1) in *. clearbody X Y. nra.
Qed.

Lemma n5_4 : dot n5 (vsub (five 4) (five 0)) < 0.
Proof.
  destruct n5_b as ([A A'] & [B B'] & [C C']). unfold dot. set (n := n5) in *. clearbody n. unfold five, vsub. cbn [vx vy vz INR].
  destruct rr_02 as (-> & _ & ->), az_0 as [-> ->]. destruct az_4 as ([E E'] & [F F']). set (X := azc 4) in *. set (Y := azs 4) in *. clearbody X Y.
  assert (vx n * (6 / 10 * X - 6 / 10 * 1) <= 17763 / 10000 * (-1 * (119 / 100))) by nra. assert (vy n * (6 / 10 * Y - 6 / 10 * 0) <= 5825 / 10000 * (1059 / 10000)) by nra.
  lra.
Qed.

Lemma n5_face : proper_face (hyper_points 5 1 1) n5 (five 0) (five 2) (five 3) /\ 0 < norm (cross (vsub (five 2) (five 0)) (vsub (five 3) (five 0))).
Proof.
  assert (P : 0 < dot n5 n5). { destruct n5_b as ([A A'] & [B B'] & [C C']). unfold dot. nra. }
  destruct (cross_perp (vsub (five 2) (five 0)) (vsub (five 3) (five 0))) as [Z1 Z2]. change (cross (vsub (five 2) (five 0)) (vsub (five 3) (five 0))) with n5 in Z1, Z2.
  split; [|change (0 < norm n5); unfold norm; now apply sqrt_lt_R0].
  pose proof n5_1. pose proof n5_4. assert (Z0 : dot n5 (vsub (five 0) (five 0)) = 0) by (unfold dot, vsub; cbn [vx vy vz]; ring).
  rewrite points_five. split.
  - unfold face, perpendicular. cbn [In]. repeat split; auto. intros q Hq. cbn [In] in Hq. destruct Hq as [<-|[<-|[<-|[<-|[<-|[]]]]]]; lra.
  - intros q Hq E. cbn [In] in Hq. destruct Hq as [<-|[<-|[<-|[<-|[<-|[]]]]]]; auto; lra.
Qed.

Lemma five_inward del hull dist f r : (forall p l, hull p = Ok l -> is_hull p l) -> hyperhemisphere del hull 5 1 1 dist = Ok (f, r) ->
  exists T M q, In (T, M) (combine (su_tris f) (su_N f)) /\ In q (su_pts f) /\ 0 < dot M (vsub q (t_P0 T)).
Proof.
  intros HH E. destruct (hyper_run _ _ _ _ _ _ _ _ E) as (tf & tb & Q). destruct n5_face as [F A].
  pose proof (HH _ _ (run_hull _ _ _ _ _ _ _ _ Q)) as [_ HC]. destruct (HC _ _ _ _ F A) as (t & Ht & Cn).
  assert (HF : has_face f (five 0) (five 2) (five 3)).
  { apply (kept_faces _ _ _ _ (front_kept _ _ _ _ _ _ _ _ Q)). exists t. rewrite (run_pts _ _ _ _ _ _ _ _ Q). split; auto. split; auto.
    destruct (bottom_planar 1 (tri_of (hyper_points 5 1 1) t)) eqn:B; auto. exfalso. apply (bottom_iff 1 _ _ _ _ Cn) in B. destruct B as [_ (B & _)].
    unfold five in B. cbn [vz INR] in B. lra. }
  destruct n5_b as (_ & _ & Z). destruct (turned_in _ _ _ _ _ _ _ _ _ _ _ (five 1) Q HF) as (T & M & I & _ & D); [change (0 < vz n5); lra| |lra|apply n5_1|].
  - unfold five. cbn [vz INR]. lra.
  - exists T, M, (five 1). split; auto. split; auto. rewrite (run_pts _ _ _ _ _ _ _ _ Q), points_five. cbn [In]. auto.
Qed.

(* ---------- units ---------- *)

Lemma spiral_scaled l N radius h k : spiral N (l * radius) (l * h) k = scaled l (spiral N radius h k).
Proof. unfold spiral, scaled. cbn [vx vy vz]. f_equal; ring. Qed.

Lemma filter_map_same {A B} (f : A -> B) P Q l : (forall x, Q (f x) = P x) -> filter Q (map f l) = map f (filter P l).
Proof. intros H. induction l; cbn; auto. rewrite H. destruct (P a); cbn; now rewrite IHl. Qed.

Lemma sphere_scaled l N radius h : 0 < l -> sphere_points N (l * radius) (l * h) = map (scaled l) (sphere_points N radius h).
Proof.
  intros Hl. unfold sphere_points. rewrite (map_ext _ _ (spiral_scaled l N radius h)), <- (map_map (spiral N radius h) (scaled l)).
  apply filter_map_same. intros v. unfold scaled, Rleb. cbn [vz]. destruct (Rle_dec 0 (l * vz v)), (Rle_dec 0 (vz v)); auto; exfalso; nra.
Qed.

(* the rim has its own scale; with as many points on it, it scales as well *)
Lemma points_scaled l N radius h : 0 < l -> rim_count (l * radius) (l * h) (sphere_points N (l * radius) (l * h)) = rim_count radius h (sphere_points N radius h) ->
  hyper_points N (l * radius) (l * h) = map (scaled l) (hyper_points N radius h).
Proof.
  intros Hl HC. unfold hyper_points. rewrite HC, map_app, <- sphere_scaled by auto. f_equal.
  unfold rim_points, r_cross. replace (l * radius * (l * radius) - l * h * (l * h)) with (l * l * (radius * radius - h * h)) by ring.
  destruct (Rltb (radius * radius - h * h) 0) eqn:Q1, (Rltb (l * l * (radius * radius - h * h)) 0) eqn:Q2; try reflexivity.
  - apply Rltb_true in Q1. apply Rltb_false in Q2. assert (0 < l * l) by nra. exfalso. nra.
  - apply Rltb_false in Q1. apply Rltb_true in Q2. assert (0 < l * l) by nra. exfalso. nra.
  - rewrite map_map. apply map_ext. intros f. unfold scaled. cbn [vx vy vz]. rewrite sqrt_mult_alt by nra. rewrite sqrt_square by lra. f_equal; ring.
Qed.

(* eight points *)
Definition ez (k : nat) : R := INR k * (2 / 8) - 1 + 2 / 8 / 2.

Lemma eight_z radius k : vz (spiral 8 radius 0 k) = radius * ez k.
Proof. unfold spiral, ez. cbn [vz]. replace (INR 8) with 8 by (cbn; lra). ring. Qed.

Lemma eight_rho radius k : 0 < radius -> (k < 8)%nat -> sqrt (vx (spiral 8 radius 0 k) * vx (spiral 8 radius 0 k) + vy (spiral 8 radius 0 k) * vy (spiral 8 radius 0 k)) = radius * sqrt (1 - ez k * ez k).
Proof.
  intros Hr Hk. pose proof (spiral_sphere 8 radius 0 k Hk) as S. unfold on_sphere in S. rewrite eight_z in S.
  replace (vx (spiral 8 radius 0 k) * vx (spiral 8 radius 0 k) + vy (spiral 8 radius 0 k) * vy (spiral 8 radius 0 k)) with (radius * radius * (1 - ez k * ez k)) by lra.
  rewrite sqrt_mult_alt by nra. rewrite sqrt_square by lra. reflexivity.
Qed.

Lemma eight_sphere radius : 0 < radius -> sphere_points 8 radius 0 = map (spiral 8 radius 0) [4; 5; 6; 7]%nat.
Proof.
  intros Hr. unfold sphere_points. cbn [seq map filter]. rewrite !eight_z.
  assert (F : forall x, x < 0 -> Rleb 0 (radius * x) = false) by (intros x Hx; unfold Rleb; destruct (Rle_dec 0 (radius * x)); auto; exfalso; nra).
  assert (T : forall x, 0 <= x -> Rleb 0 (radius * x) = true) by (intros x Hx; unfold Rleb; destruct (Rle_dec 0 (radius * x)) as [|X]; auto; exfalso; apply X; nra).
  unfold ez. cbn [INR]. rewrite !F by lra. rewrite !T by lra. reflexivity.
Qed.

Lemma eight_rim radius : 0 < radius -> r_cross radius 0 = Some radius.
Proof. intros Hr. unfold r_cross. rewrite Rltb_f by nra. f_equal. replace (radius * radius - 0 * 0) with (radius * radius) by ring. apply sqrt_square. lra. Qed.

Lemma eight_big radius : 1 <= radius -> length (hyper_points 8 radius 0) = 4%nat.
Proof.
  intros Hr. unfold hyper_points. rewrite app_length, (eight_sphere radius) by lra. unfold rim_count, rim_points. rewrite eight_rim by lra.
  assert (K : Nat.div (length (filter (near_rim radius) (map (spiral 8 radius 0) [4; 5; 6; 7]%nat))) 2 = 0%nat).
  { cbn [map filter]. unfold near_rim. rewrite !eight_rho by (lra || lia).
    assert (B : forall k, 1 - ez k * ez k <= 98 / 100 -> Rltb (radius - 1 / 100) (radius * sqrt (1 - ez k * ez k)) = false).
    { intros k H. apply Rltb_f. assert (sqrt (1 - ez k * ez k) <= 99 / 100); [|nra].
      replace (99 / 100) with (sqrt ((99 / 100) * (99 / 100))) by (rewrite sqrt_square; lra). apply sqrt_le_1_alt. lra. }
    rewrite (B 5%nat), (B 6%nat), (B 7%nat) by (unfold ez; cbn [INR]; lra). rewrite !andb_false_r.
    destruct (_ && _); reflexivity. }
  rewrite K. reflexivity.
Qed.

Lemma eight_one : length (hyper_points 8 1 0) = 4%nat.
Proof. apply eight_big. lra. Qed.

Lemma eight_small : length (hyper_points 8 (1 / 100) 0) = 6%nat.
Proof.
  unfold hyper_points. rewrite app_length, (eight_sphere (1 / 100)) by lra. unfold rim_count, rim_points. rewrite eight_rim by lra.
  assert (K : Nat.div (length (filter (near_rim (1 / 100)) (map (spiral 8 (1 / 100) 0) [4; 5; 6; 7]%nat))) 2 = 2%nat).
  { cbn [map filter]. unfold near_rim. rewrite !eight_rho by (lra || lia).
    assert (B : forall k, 0 < 1 - ez k * ez k <= 1 -> Rltb (1 / 100 - 1 / 100) (1 / 100 * sqrt (1 - ez k * ez k)) = true /\ Rltb (1 / 100 * sqrt (1 - ez k * ez k)) (1 / 100 + 1 / 100) = true).
    { intros k [H H']. pose proof (sqrt_lt_R0 _ H). assert (sqrt (1 - ez k * ez k) <= 1) by (apply (sqrt_between 0 1); lra). split; apply Rltb_t; lra. }
    destruct (B 4%nat) as [-> ->]; [unfold ez; cbn [INR]; lra|]. destruct (B 5%nat) as [-> ->]; [unfold ez; cbn [INR]; lra|].
    destruct (B 6%nat) as [-> ->]; [unfold ez; cbn [INR]; lra|]. destruct (B 7%nat) as [-> ->]; [unfold ez; cbn [INR]; lra|]. reflexivity. }
  rewrite K. rewrite !map_length. reflexivity.
Qed.
