(* A convex hull by trying all triples, and when hyperhemisphere succeeds. *)
From Coq Require Import Reals List ZArith Bool Lia Lra Permutation.
From Verif Require Import Base Lib Model_Optics Model_RayIface Model_Surface Model_Hyper Spec_Surface Spec_Hyper Proof_Surface2 Proof_Hyper Proof_Hyper2.
Import ListNotations.
Open Scope R_scope.

Definition hull_face (p : list vec) (t : nat * nat * nat) : bool :=
  let T := tri_of p t in
  let n := t_cross T in
  Rltb 0 (dot n n) &&
  (forallb (fun q => Rleb (dot n (vsub q (t_P0 T))) 0) p || forallb (fun q => Rleb 0 (dot n (vsub q (t_P0 T)))) p).

Definition all_triples (n : nat) : triples := list_prod (list_prod (seq 0 n) (seq 0 n)) (seq 0 n).
Definition brute_hull (p : list vec) : triples := filter (hull_face p) (all_triples (length p)).

Lemma all_triples_in n i j k : In (i, j, k) (all_triples n) <-> (i < n)%nat /\ (j < n)%nat /\ (k < n)%nat.
Proof. unfold all_triples. rewrite !in_prod_iff, !in_seq. lia. Qed.

Lemma cross_perp u v : dot (cross u v) u = 0 /\ dot (cross u v) v = 0.
Proof. unfold dot, cross. cbn [vx vy vz]. split; ring. Qed.

Lemma dot_neg_l a b : dot (neg a) b = - dot a b.
Proof. unfold neg. rewrite scale_dot. ring. Qed.

Lemma neg_neg v : dot (neg v) (neg v) = dot v v.
Proof. unfold neg, dot, vscale. cbn [vx vy vz]. ring. Qed.

Lemma hull_face_sound p i j k : (i < length p)%nat -> (j < length p)%nat -> (k < length p)%nat -> hull_face p (i, j, k) = true ->
  exists n, face p n (nth i p v0) (nth j p v0) (nth k p v0).
Proof.
  intros Hi Hj Hk H. unfold hull_face in H. apply andb_prop in H. destruct H as [A B]. apply Rltb_true in A. cbn [tri_of t_P0] in B.
  set (c := t_cross (tri_of p (i, j, k))) in *.
  destruct (cross_perp (vsub (nth j p v0) (nth i p v0)) (vsub (nth k p v0) (nth i p v0))) as [Q1 Q2].
  change (cross (vsub (nth j p v0) (nth i p v0)) (vsub (nth k p v0) (nth i p v0))) with c in Q1, Q2.
  apply orb_true_iff in B. destruct B as [B|B]; rewrite forallb_forall in B.
  - exists c. unfold face, perpendicular. repeat split; auto using nth_In. intros q Hq. apply Rleb_true. exact (B q Hq).
  - exists (neg c). unfold face, perpendicular. rewrite neg_neg, !dot_neg_l, Q1, Q2. repeat split; auto using nth_In; try lra.
    intros q Hq. rewrite dot_neg_l. specialize (B q Hq). apply Rleb_true in B. cbn in B. lra.
Qed.

Lemma norm_sq_pos v : 0 < norm v -> 0 < dot v v.
Proof. intros H. unfold norm in H. destruct (Rle_lt_or_eq_dec _ _ (dot_pos v)) as [|E]; auto. rewrite <- E, sqrt_0 in H. lra. Qed.

Lemma hull_face_complete p n i j k : (i < length p)%nat -> (j < length p)%nat -> (k < length p)%nat ->
  face p n (nth i p v0) (nth j p v0) (nth k p v0) -> 0 < norm (t_cross (tri_of p (i, j, k))) -> hull_face p (i, j, k) = true.
Proof.
  intros Hi Hj Hk (_ & _ & _ & N0 & PP & HF) Hn. destruct (parallel _ _ _ _ PP Hn) as [m Hm].
  change (cross (vsub (nth j p v0) (nth i p v0)) (vsub (nth k p v0) (nth i p v0))) with (t_cross (tri_of p (i, j, k))) in Hm.
  unfold hull_face. cbn [tri_of t_P0]. cbn [fst snd]. set (c := t_cross (tri_of p (i, j, k))) in *.
  rewrite (Rltb_t 0 (dot c c)) by now apply norm_sq_pos. cbn [andb]. apply orb_true_iff.
  assert (M : m <> 0). { intros ->. rewrite Hm in N0. unfold dot, vscale in N0. cbn [vx vy vz] in N0. nra. }
  destruct (Rtotal_order m 0) as [L|[E|L]]; [right|contradiction|left]; apply forallb_forall; intros q Hq; specialize (HF q Hq);
    rewrite Hm, scale_dot in HF; unfold Rleb.
  - destruct (Rle_dec 0 (dot c (vsub q (nth i p v0)))) as [|X]; auto. exfalso. apply X. nra.
  - destruct (Rle_dec (dot c (vsub q (nth i p v0))) 0) as [|X]; auto. exfalso. apply X. nra.
Qed.

Lemma brute_is_hull p : is_hull p (brute_hull p).
Proof.
  split.
  - intros i j k H. apply filter_In in H. destruct H as [H F]. apply all_triples_in in H. destruct H as (Hi & Hj & Hk).
    repeat split; auto. now apply hull_face_sound.
  - intros n a b c [HF _] Hn. pose proof HF as (A & B & C & _). apply In_nth with (d := v0) in A. apply In_nth with (d := v0) in B. apply In_nth with (d := v0) in C.
    destruct A as (i & Hi & EA), B as (j & Hj & EB), C as (k & Hk & EC). exists (i, j, k). split.
    + apply filter_In. split; [apply all_triples_in; auto|]. apply hull_face_complete with (n := n); auto.
      * rewrite EA, EB, EC. exact HF.
      * unfold t_cross. cbn [tri_of t_P0 t_P1 t_P2 fst snd]. now rewrite EA, EB, EC.
    + unfold corners. cbn [tri_of t_P0 t_P1 t_P2 fst snd]. rewrite EA, EB, EC. reflexivity.
Qed.

(* ---------- upside down ---------- *)

Definition zneg (v : vec) : vec := set_z v (- vz v).

Lemma nth_mirror p i : nth i (mirror_z p) v0 = zneg (nth i p v0).
Proof.
  unfold mirror_z. assert (E : v0 = zneg v0) by (unfold zneg, set_z, v0; cbn [vx vy vz]; f_equal; ring).
  rewrite E at 1. change (fun v : vec => set_z v (- vz v)) with zneg. apply map_nth.
Qed.

Lemma zneg_cross p t : t_cross (tri_of (mirror_z p) t) = neg (zneg (t_cross (tri_of p t))).
Proof.
  destruct t as [[i j] k]. unfold t_cross. cbn [tri_of t_P0 t_P1 t_P2 fst snd]. rewrite !nth_mirror.
  unfold neg, zneg, set_z, cross, vsub, vscale. cbn [vx vy vz]. f_equal; ring.
Qed.

Lemma zneg_dot a b : dot (zneg a) (zneg b) = dot a b.
Proof. unfold dot, zneg, set_z. cbn [vx vy vz]. ring. Qed.

Lemma zneg_sub a b : vsub (zneg a) (zneg b) = zneg (vsub a b).
Proof. unfold vsub, zneg, set_z. cbn [vx vy vz]. f_equal; ring. Qed.

Lemma forallb_ext_map {A B} (f : B -> bool) (g : A -> bool) (m : A -> B) l : (forall x, f (m x) = g x) -> forallb f (map m l) = forallb g l.
Proof. intros H. induction l; cbn; auto. now rewrite H, IHl. Qed.

Lemma Rleb_neg_0 x : Rleb (- x) 0 = Rleb 0 x.
Proof. unfold Rleb. destruct (Rle_dec (- x) 0), (Rle_dec 0 x); auto; lra. Qed.
Lemma Rleb_0_neg x : Rleb 0 (- x) = Rleb x 0.
Proof. unfold Rleb. destruct (Rle_dec 0 (- x)), (Rle_dec x 0); auto; lra. Qed.

Lemma brute_mirror p : brute_hull (mirror_z p) = brute_hull p.
Proof.
  unfold brute_hull. replace (length (mirror_z p)) with (length p) by (unfold mirror_z; now rewrite map_length).
  apply filter_ext. intros t. unfold hull_face. rewrite zneg_cross, neg_neg, zneg_dot. f_equal.
  rewrite orb_comm. set (c := t_cross (tri_of p t)). f_equal; unfold mirror_z; apply forallb_ext_map; intros v; change (set_z v (- vz v)) with (zneg v);
    change (map (fun v1 : vec => set_z v1 (- vz v1)) p) with (mirror_z p); destruct t as [[i j] k]; cbn [tri_of t_P0 fst]; rewrite nth_mirror, zneg_sub, dot_neg_l, zneg_dot.
  - apply Rleb_0_neg.
  - apply Rleb_neg_0.
Qed.

Lemma planar_mirror radius p t : top_planar radius (tri_of (mirror_z p) t) = bottom_planar radius (tri_of p t).
Proof.
  unfold top_planar, bottom_planar, is_flat, all_z, t_N. rewrite zneg_cross. set (c := t_cross (tri_of p t)).
  assert (E : norm (neg (zneg c)) = norm c) by (unfold norm; now rewrite neg_neg, zneg_dot).
  rewrite E. f_equal.
  - cbn [vscale vz]. do 2 f_equal. unfold neg, zneg, set_z. cbn [vscale vz]. ring.
  - assert (Z : forall x, Rltb (- (1 / 10) * radius) (- x) = Rltb x (1 / 10 * radius)).
    { intros x. unfold Rltb. destruct (Rlt_dec (- (1 / 10) * radius) (- x)), (Rlt_dec x (1 / 10 * radius)); auto; lra. }
    destruct t as [[i j] k]. cbn [tri_of t_P0 t_P1 t_P2 fst snd]. rewrite !nth_mirror. unfold zneg, set_z. cbn [vz]. now rewrite !Z.
Qed.

(* ---------- success ---------- *)

Lemma argmax_ok l : l <> [] -> exists k, argmax l = Ok k.
Proof. destruct l as [|a l]; [contradiction|]. intros _. unfold argmax, argmin. eauto. Qed.

Lemma surface_ok del p c dist : p <> [] -> exists s, mk_surface del p (Some c) dist = Ok s.
Proof.
  intros H. unfold mk_surface. destruct (argmax_ok (map Rabs (zs_of p))) as [k ->]; [destruct p; [contradiction|discriminate]|]. cbn [rbind]. eauto.
Qed.

Lemma xyz_ok del p c dist : p <> [] -> exists f r, xyz_texture del (xs_of p) (ys_of p) (zs_of p) (Some c) dist = Ok (f, r).
Proof.
  intros H. unfold xyz_texture. rewrite zip3_opp, xy_split.
  destruct (surface_ok del p c dist H) as [f ->]. destruct (surface_ok del (mirror_z p) c dist) as [r ->]; [destruct p; [contradiction|discriminate]|]. cbn [rbind]. eauto.
Qed.

Lemma filter_length_map {A B C} (f : A -> B) (g : A -> C) P Q l : (forall x, P (f x) = Q (g x)) -> length (filter P (map f l)) = length (filter Q (map g l)).
Proof. intros H. induction l; cbn; auto. rewrite H. destruct (Q (g a)); cbn; auto. Qed.

Lemma hyper_succeeds del hull N radius h dist t : hyper_points N radius h <> [] -> hull (hyper_points N radius h) = Ok t ->
  hull (mirror_z (hyper_points N radius h)) = Ok t -> exists f r, hyperhemisphere del hull N radius h dist = Ok (f, r).
Proof.
  intros Hp H1 H2. unfold hyperhemisphere.
  destruct (Nat.eqb_spec N 0) as [E|HN].
  { exfalso. apply Hp. subst N. unfold hyper_points, sphere_points, rim_points, rim_count. cbn [seq map filter length]. destruct (r_cross radius h); reflexivity. }
  set (p := hyper_points N radius h) in *. rewrite H1, H2. cbn [rbind].
  destruct (xyz_ok del p 0 dist Hp) as (f0 & r0 & X). rewrite X. cbn [rbind].
  destruct (xyz_split _ _ _ _ _ _ _ _ X) as [F0 R0]. rewrite zip3_opp in R0. rewrite xy_split in F0, R0. apply mk_pts in F0. apply mk_pts in R0. rewrite F0, R0.
  set (lf := without (bottom_planar radius) (items p t)). set (lb := without (top_planar radius) (items (mirror_z p) t)).
  assert (L : length lb = length lf). { unfold lb, lf, without, items. apply filter_length_map. intros x. cbn [snd]. now rewrite planar_mirror. }
  assert (S : forall n c d l, length l = n -> switch_xy n c d l = Ok (map (switch_one c d) (firstn n l) ++ skipn n l)).
  { intros n c d l E. unfold switch_xy. destruct (Nat.ltb_spec (length l) n); [lia|reflexivity]. }
  assert (SL : forall n c d (l : list item), length l = n -> length (map (switch_one c d) (firstn n l) ++ skipn n l) = n).
  { intros n c d l E. rewrite app_length, map_length, <- app_length, firstn_skipn. exact E. }
  rewrite (S (length lb) vx (-1)%Z lb eq_refl), (S (length lb) vx 1%Z lf (eq_sym L)). cbn [rbind].
  rewrite (S (length lb) vy (-1)%Z), (S (length lb) vy 1%Z) by (apply SL; auto). cbn [rbind]. eauto.
Qed.

Lemma points_ne N radius h : (0 < N)%nat -> 0 < radius -> - radius * (1 - 1 / INR N) <= h -> hyper_points N radius h <> [].
Proof.
  intros HN Hr Hh E. unfold hyper_points in E. apply app_eq_nil in E. destruct E as [_ E].
  assert (K : In (spiral N radius h (N - 1)) (sphere_points N radius h)).
  { apply sphere_in. exists (N - 1)%nat. split; [lia|]. split; auto. unfold spiral. cbn [vz]. rewrite minus_INR by lia.
    pose proof (lt_0_INR N HN). replace ((INR N - INR 1) * (2 / INR N) - 1 + 2 / INR N / 2) with (1 - 1 / INR N) by (cbn [INR]; field; lra). lra. }
  rewrite E in K. destruct K.
Qed.

Lemma hyper_brute del N radius h dist : (0 < N)%nat -> 0 < radius -> - radius * (1 - 1 / INR N) <= h ->
  exists f r, hyperhemisphere del (fun p => Ok (brute_hull p)) N radius h dist = Ok (f, r).
Proof.
  intros. apply hyper_succeeds with (t := brute_hull (hyper_points N radius h)); auto; [now apply points_ne|now rewrite brute_mirror].
Qed.

Lemma spiral_spec N radius h k : 0 <= radius -> (k < N)%nat -> on_spiral N radius h k (spiral N radius h k).
Proof.
  intros Hr Hk. pose proof (lt_0_INR N ltac:(lia)) as HN. exists golden, (radius * sqrt (1 - (INR k * (2 / INR N) - 1 + 2 / INR N / 2) * (INR k * (2 / INR N) - 1 + 2 / INR N / 2))).
  assert (S5 : sqrt 5 * sqrt 5 = 5) by (apply sqrt_sqrt; lra). pose proof (sqrt_pos 5) as P5.
  assert (G : 0 < golden) by (unfold golden; lra).
  assert (A : INR k * long_incr = 2 * PI * INR k / golden) by (unfold long_incr; field; lra).
  split; auto. split. { unfold golden. set (s := sqrt 5) in *. clearbody s. nra. } split; [apply Rmult_le_pos; auto; apply sqrt_pos|].
  split. { unfold spiral. cbn [vz]. field. lra. } rewrite <- A. split; [|split; [|now apply spiral_sphere]]; unfold spiral; cbn [vx vy]; ring.
Qed.
