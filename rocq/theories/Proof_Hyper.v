(* The points of hyperhemisphere and the triangles it keeps. *)
From Coq Require Import Reals List ZArith Bool Lia Lra Permutation.
From Verif Require Import Base Lib Model_Optics Model_RayIface Model_Surface Model_Hyper Spec_Surface Spec_Hyper Proof_Surface2.
Import ListNotations.
Open Scope R_scope.

(* ---------- points ---------- *)

Lemma spiral_z N k : (k < N)%nat -> let z := INR k * (2 / INR N) - 1 + 2 / INR N / 2 in -1 < z < 1.
Proof.
  intros Hk z. assert (HN : 0 < INR N) by (apply lt_0_INR; lia).
  assert (K : INR k + 1 <= INR N) by (rewrite <- S_INR; apply le_INR; lia). pose proof (pos_INR k).
  assert (E : z = (2 * INR k + 1) / INR N - 1) by (unfold z; field; lra).
  rewrite E. assert (0 < (2 * INR k + 1) / INR N) by (apply Rdiv_lt_0_compat; lra).
  assert ((2 * INR k + 1) / INR N < 2). { apply (Rmult_lt_reg_r (INR N)); auto. unfold Rdiv. rewrite Rmult_assoc, Rinv_l; lra. }
  lra.
Qed.

Lemma spiral_sphere N radius h k : (k < N)%nat -> on_sphere radius h (spiral N radius h k).
Proof.
  intros Hk. pose proof (spiral_z N k Hk) as Hz. unfold on_sphere, spiral. cbn [vx vy vz] in *.
  set (z := INR k * (2 / INR N) - 1 + 2 / INR N / 2) in *. clearbody z.
  assert (S : sqrt (1 - z * z) * sqrt (1 - z * z) = 1 - z * z) by (apply sqrt_sqrt; nra).
  set (r := sqrt (1 - z * z)) in *. clearbody r. set (f := INR k * long_incr). pose proof (sin2_cos2 f) as T. unfold Rsqr in T.
  set (c := cos f) in *. set (s := sin f) in *. clearbody c s. clear Hz.
  replace (radius * (r * c) * (radius * (r * c)) + radius * (r * s) * (radius * (r * s)) + (radius * z + h - h) * (radius * z + h - h))
    with (radius * radius * ((r * r) * (s * s + c * c) + z * z)) by ring.
  rewrite T, S. ring.
Qed.

Lemma rim_sphere radius h n v : In v (rim_points radius h n) -> on_sphere radius h v /\ vz v = 0.
Proof.
  unfold rim_points, r_cross. destruct (Rltb (radius * radius - h * h) 0) eqn:Q; [intros []|]. apply Rltb_false in Q.
  intros H. apply in_map_iff in H. destruct H as [f [<- _]]. cbn [vx vy vz]. split; [|reflexivity].
  unfold on_sphere. cbn [vx vy vz]. pose proof (sin2_cos2 f) as T. unfold Rsqr in T.
  assert (S : sqrt (radius * radius - h * h) * sqrt (radius * radius - h * h) = radius * radius - h * h) by (apply sqrt_sqrt; lra).
  set (r := sqrt (radius * radius - h * h)) in *. clearbody r. set (c := cos f) in *. set (s := sin f) in *. clearbody c s.
  replace (r * c * (r * c) + r * s * (r * s) + (0 - h) * (0 - h)) with ((r * r) * (s * s + c * c) + h * h) by ring. rewrite T, S. ring.
Qed.

Lemma sphere_in N radius h v : In v (sphere_points N radius h) <-> exists k, (k < N)%nat /\ v = spiral N radius h k /\ 0 <= vz v.
Proof.
  unfold sphere_points. rewrite filter_In, in_map_iff. split.
  - intros [[k [<- Hk]] Hz]. apply in_seq in Hk. apply Rleb_true in Hz. exists k. split; [lia|]. split; auto.
  - intros [k [Hk [-> Hz]]]. split; [exists k; split; auto; apply in_seq; lia|]. unfold Rleb. destruct (Rle_dec 0 (vz (spiral N radius h k))); auto.
Qed.

Lemma points_sphere N radius h v : In v (hyper_points N radius h) -> on_sphere radius h v /\ 0 <= vz v.
Proof.
  unfold hyper_points. rewrite in_app_iff. intros [H|H].
  - destruct (rim_sphere _ _ _ _ H) as [A B]. split; auto. lra.
  - apply sphere_in in H. destruct H as [k [Hk [-> Hz]]]. split; auto. now apply spiral_sphere.
Qed.

(* ---------- triangles ---------- *)

Definition item_of (p : list vec) (x : item) : Prop := snd x = tri_of p (fst x).
Definition neg (v : vec) : vec := vscale (-1) v.

Lemma switch_item p x : item_of p x -> item_of p (switch_points x).
Proof. destruct x as [[[i j] k] T]. unfold item_of. cbn. intros ->. reflexivity. Qed.

Lemma switch_cross x : t_cross (snd (switch_points x)) = neg (t_cross (snd x)).
Proof. destruct x as [[[i j] k] T]. unfold t_cross, neg, vscale, cross, vsub. cbn. f_equal; ring. Qed.

Lemma switch_middle x : middle (snd (switch_points x)) = middle (snd x).
Proof. destruct x as [[[i j] k] T]. unfold middle. cbn. f_equal; f_equal; ring. Qed.

Definition same_tri (T T' : tri) : Prop := corners T' (t_P0 T) (t_P1 T) (t_P2 T).
Lemma same_refl T : same_tri T T. Proof. apply Permutation_refl. Qed.
Lemma same_corners T T' a b c : same_tri T T' -> (corners T a b c <-> corners T' a b c).
Proof. unfold same_tri, corners. intros H. split; intros K; [eapply Permutation_trans; eauto|eapply Permutation_trans; [apply Permutation_sym|]; eauto]. Qed.

(* y is x, or x with two corners switched *)
Definition switched (x y : item) : Prop := y = x \/ y = switch_points x.

Lemma switch_twice x : switch_points (switch_points x) = x.
Proof. destruct x as [[[i j] k] [A B C]]. reflexivity. Qed.

Lemma switched_trans x y z : switched x y -> switched y z -> switched x z.
Proof. unfold switched. intros [ -> | -> ] [ -> | -> ]; auto. left. apply switch_twice. Qed.

Lemma switched_if b x : switched x (switch_if b x).
Proof. destruct b; [right|left]; reflexivity. Qed.

Lemma switched_one c d x : switched x (switch_one c d x).
Proof. unfold switch_one. destruct (negb _); [right|left]; reflexivity. Qed.

Lemma switched_front h x : switched x (front_z h x).
Proof. unfold front_z. eapply switched_trans; apply switched_if. Qed.

Lemma switched_back h x : switched x (back_z h x).
Proof. unfold back_z. eapply switched_trans; apply switched_if. Qed.

Lemma switched_tri x y : switched x y -> same_tri (snd x) (snd y).
Proof.
  intros [ -> | -> ]; [apply same_refl|]. destruct x as [[[i j] k] [A B C]]. unfold same_tri, corners. cbn. apply perm_skip. apply perm_swap.
Qed.

Lemma switched_item p x y : switched x y -> item_of p x -> item_of p y.
Proof. intros [ -> | -> ]; auto. apply switch_item. Qed.

Lemma switched_middle x y : switched x y -> middle (snd y) = middle (snd x).
Proof. intros [ -> | -> ]; auto. apply switch_middle. Qed.

Lemma switched_cross x y : switched x y -> t_cross (snd y) = t_cross (snd x) \/ t_cross (snd y) = neg (t_cross (snd x)).
Proof. intros [ -> | -> ]; auto. right. apply switch_cross. Qed.

Definition xy_one (d : Z) (x : item) : item := switch_one vy d (switch_one vx d x).

Lemma switch_xy_twice n d l l1 l2 : switch_xy n vx d l = Ok l1 -> switch_xy n vy d l1 = Ok l2 ->
  (n <= length l)%nat /\ l2 = map (xy_one d) (firstn n l) ++ skipn n l.
Proof.
  unfold switch_xy. destruct (Nat.ltb_spec (length l) n) as [|H]; [discriminate|]. intros E1. injection E1 as <-.
  destruct (Nat.ltb _ n); [discriminate|]. intros E2. injection E2 as <-. split; auto.
  assert (L : length (map (switch_one vx d) (firstn n l)) = n) by (rewrite map_length, firstn_length_le; auto).
  rewrite firstn_app, skipn_app, L. rewrite Nat.sub_diag. cbn [firstn skipn]. rewrite app_nil_r.
  rewrite <- L at 1. rewrite firstn_all. rewrite <- L at 2. rewrite skipn_all. cbn [app]. now rewrite map_map.
Qed.

Lemma xy_split p : zip3 (xs_of p) (ys_of p) (zs_of p) = p.
Proof. unfold zip3, xs_of, ys_of, zs_of. induction p as [|[a b c] p IH]; [reflexivity|]. cbn. f_equal. exact IH. Qed.

Lemma mk_pts del p cov dist s : mk_surface del p cov dist = Ok s -> su_pts s = p.
Proof.
  unfold mk_surface. destruct (argmax _); [|discriminate]. cbn [rbind]. destruct cov; [|destruct (find_zcov p); [|discriminate]];
  cbn [rbind]; intros E; injection E as <-; reflexivity.
Qed.

Record run (hull : list vec -> res triples) (N : nat) (radius h : R) (f r : rtsurf) (tf tb : triples) : Prop := {
  run_N : (0 < N)%nat;
  run_hull : hull (hyper_points N radius h) = Ok tf;
  run_hullb : hull (mirror_z (hyper_points N radius h)) = Ok tb;
  run_pts : su_pts f = hyper_points N radius h;
  run_ptsb : su_pts r = mirror_z (hyper_points N radius h);
  run_front : exists f0, let l := without (bottom_planar radius) (items (hyper_points N radius h) tf) in
     let n := length (su_tris r) in (n <= length l)%nat /\
     f = with_items f0 (map (fun x => front_z h (xy_one 1 x)) (firstn n l) ++ map (front_z h) (skipn n l));
  run_back : exists r0, let l := without (top_planar radius) (items (mirror_z (hyper_points N radius h)) tb) in
     r = with_items r0 (map (fun x => back_z h (xy_one (-1) x)) l) }.

Lemma hyper_run del hull N radius h dist f r : hyperhemisphere del hull N radius h dist = Ok (f, r) ->
  exists tf tb, run hull N radius h f r tf tb.
Proof.
  unfold hyperhemisphere. destruct (Nat.eqb_spec N 0) as [|HN]; [discriminate|].
  set (p := hyper_points N radius h). destruct (hull p) as [tf|e] eqn:H1; [|discriminate]. cbn [rbind].
  destruct (hull (mirror_z p)) as [tb|e] eqn:H2; [|discriminate]. cbn [rbind].
  destruct (xyz_texture del (xs_of p) (ys_of p) (zs_of p) (Some 0) dist) as [[f0 r0]|e] eqn:X; [|discriminate]. cbn [rbind].
  destruct (xyz_split _ _ _ _ _ _ _ _ X) as [F0 R0]. rewrite zip3_opp in R0. rewrite xy_split in F0, R0.
  apply mk_pts in F0. apply mk_pts in R0. rewrite F0, R0.
  set (lf := without (bottom_planar radius) (items p tf)). set (lb := without (top_planar radius) (items (mirror_z p) tb)).
  destruct (switch_xy (length lb) vx (-1) lb) as [lb1|e] eqn:B1; [|discriminate]. cbn [rbind].
  destruct (switch_xy (length lb) vx 1 lf) as [lf1|e] eqn:A1; [|discriminate]. cbn [rbind].
  destruct (switch_xy (length lb) vy (-1) lb1) as [lb2|e] eqn:B2; [|discriminate]. cbn [rbind].
  destruct (switch_xy (length lb) vy 1 lf1) as [lf2|e] eqn:A2; [|discriminate]. cbn [rbind].
  intros E. injection E as <- <-. destruct (switch_xy_twice _ _ _ _ _ A1 A2) as [LA EA]. destruct (switch_xy_twice _ _ _ _ _ B1 B2) as [LB EB].
  rewrite firstn_all, skipn_all, app_nil_r in EB.
  exists tf, tb. split; auto; try (cbn [with_items su_pts]; auto; fail); try lia.
  - exists f0. fold p. fold lf. rewrite EA. cbn [with_items su_tris]. rewrite !map_length, EB, map_length. split; auto.
    f_equal. rewrite map_app, map_map. reflexivity.
  - exists r0. fold p. fold lb. rewrite EB, map_map. reflexivity.
Qed.

(* the triangles of the surfaces are those kept of the hull, some with corners switched *)
Definition kept_in (p : list vec) (drop : tri -> bool) (t : triples) (s : rtsurf) : Prop :=
  exists l, Forall2 switched (without drop (items p t)) l /\ su_simp s = map fst l /\ su_tris s = map snd l /\ su_N s = normals (map t_cross (map snd l)).

Lemma Forall2_map_sw f l : (forall x, switched x (f x)) -> Forall2 switched l (map f l).
Proof. intros H. induction l; constructor; auto. Qed.

Lemma front_kept hull N radius h f r tf tb : run hull N radius h f r tf tb -> kept_in (su_pts f) (bottom_planar radius) tf f.
Proof.
  intros [_ _ _ P _ (f0 & L & ->) _]. rewrite P. clear P. unfold kept_in. set (l := without _ _) in *. set (n := length (su_tris r)) in *. clearbody l n.
  exists (map (fun x => front_z h (xy_one 1 x)) (firstn n l) ++ map (front_z h) (skipn n l)). split; [|auto].
  assert (G : Forall2 switched (firstn n l ++ skipn n l) (map (fun x => front_z h (xy_one 1 x)) (firstn n l) ++ map (front_z h) (skipn n l))); [|now rewrite firstn_skipn in G].
  apply Forall2_app; apply Forall2_map_sw; intros x; [|apply switched_front].
  unfold xy_one. eapply switched_trans; [|apply switched_front]. eapply switched_trans; apply switched_one.
Qed.

Lemma back_kept hull N radius h f r tf tb : run hull N radius h f r tf tb -> kept_in (su_pts r) (top_planar radius) tb r.
Proof.
  intros [_ _ _ _ P _ (r0 & ->)]. rewrite P. set (l := without _ _) in *.
  exists (map (fun x => back_z h (xy_one (-1) x)) l). split; [|auto]. apply Forall2_map_sw. intros x.
  unfold xy_one. eapply switched_trans; [|apply switched_back]. eapply switched_trans; apply switched_one.
Qed.

(* ---------- level triangles ---------- *)

Lemma perm3 {A} (x y z a b c : A) : Permutation [x; y; z] [a; b; c] ->
  (x, y, z) = (a, b, c) \/ (x, y, z) = (a, c, b) \/ (x, y, z) = (b, a, c) \/ (x, y, z) = (b, c, a) \/ (x, y, z) = (c, a, b) \/ (x, y, z) = (c, b, a).
Proof.
  intros H. assert (I : In x [a; b; c]) by (eapply Permutation_in; [exact H|now left]).
  destruct I as [<-|[<-|[<-|[]]]].
  - apply Permutation_cons_inv in H. apply Permutation_length_2 in H. destruct H as [[-> ->]|[-> ->]]; auto 8.
  - assert (H' : Permutation (b :: [y; z]) (b :: [a; c])) by (eapply Permutation_trans; [exact H|apply perm_swap]).
    apply Permutation_cons_inv in H'. apply Permutation_length_2 in H'. destruct H' as [[-> ->]|[-> ->]]; auto 8.
  - assert (H' : Permutation (c :: [y; z]) (c :: [a; b])) by (eapply Permutation_trans; [exact H|apply (Permutation_cons_append [a; b] c) || (apply Permutation_sym, (Permutation_cons_append [a; b] c))]).
    apply Permutation_cons_inv in H'. apply Permutation_length_2 in H'. destruct H' as [[-> ->]|[-> ->]]; auto 8.
Qed.

Definition ncross (a b c : vec) : vec := cross (vsub b a) (vsub c a).

Lemma ncross_perm x y z a b c : Permutation [x; y; z] [a; b; c] -> ncross x y z = ncross a b c \/ ncross x y z = neg (ncross a b c).
Proof.
  intros H. destruct (perm3 _ _ _ _ _ _ H) as [E|[E|[E|[E|[E|E]]]]]; injection E as -> -> ->;
  unfold ncross, neg, vscale, cross, vsub; cbn [vx vy vz];
  [left|right|right|left|left|right]; f_equal; ring.
Qed.

Lemma norm_neg v : norm (neg v) = norm v.
Proof. unfold norm, neg, vscale, dot. cbn [vx vy vz]. f_equal. ring. Qed.

Lemma dot_pos v : 0 <= dot v v.
Proof. unfold dot. nra. Qed.

Lemma norm_zero v : norm v = 0 -> vx v = 0 /\ vy v = 0 /\ vz v = 0.
Proof. intros H. unfold norm in H. apply sqrt_eq_0 in H; [|apply dot_pos]. unfold dot in H. repeat split; nra. Qed.

Lemma norm_nonneg v : 0 <= norm v. Proof. apply sqrt_pos. Qed.

Lemma flat_iff T : is_flat T = true <-> nearly_level (t_P0 T) (t_P1 T) (t_P2 T).
Proof.
  unfold is_flat, nearly_level. change (cross (vsub (t_P1 T) (t_P0 T)) (vsub (t_P2 T) (t_P0 T))) with (t_cross T).
  unfold t_N. set (c := t_cross T). cbn [vscale vz]. pose proof (norm_nonneg c) as [P|Z].
  - rewrite Rabs_mult, (Rabs_right (/ norm c)) by (left; now apply Rinv_0_lt_compat). split; intros H.
    + apply Rltb_true in H. apply (Rmult_lt_compat_l (norm c)) in H; auto. rewrite <- Rmult_assoc, Rinv_r in H; lra.
    + unfold Rltb. destruct (Rlt_dec (9 / 10) (/ norm c * Rabs (vz c))) as [|n]; auto. exfalso. apply n.
      apply (Rmult_lt_reg_l (norm c)); auto. rewrite <- Rmult_assoc, Rinv_r; lra.
  - symmetry in Z. destruct (norm_zero c Z) as (_ & _ & E). rewrite E, Rmult_0_r, Rabs_R0, Z. split; intros H; [apply Rltb_true in H; lra|lra].
Qed.

Lemma level_perm x y z a b c : Permutation [x; y; z] [a; b; c] -> nearly_level x y z -> nearly_level a b c.
Proof.
  intros H. unfold nearly_level. fold (ncross x y z) (ncross a b c).
  destruct (ncross_perm _ _ _ _ _ _ H) as [ -> | -> ]; auto. rewrite norm_neg. unfold neg. cbn [vscale vz].
  replace (-1 * vz (ncross a b c)) with (- vz (ncross a b c)) by ring. now rewrite Rabs_Ropp.
Qed.

Lemma below_perm w x y z a b c : Permutation [x; y; z] [a; b; c] -> below w x y z -> below w a b c.
Proof.
  intros H (A & B & C). assert (K : forall v, In v [a; b; c] -> vz v < w).
  { intros v Hv. apply Permutation_sym in H. pose proof (Permutation_in v H Hv) as [<-|[<-|[<-|[]]]]; auto. }
  unfold below. repeat split; apply K; cbn; auto.
Qed.

Lemma all_z_iff f T : all_z f T = true <-> f (vz (t_P0 T)) = true /\ f (vz (t_P1 T)) = true /\ f (vz (t_P2 T)) = true.
Proof. unfold all_z. rewrite !andb_true_iff. tauto. Qed.

Lemma bottom_iff radius T a b c : corners T a b c -> (bottom_planar radius T = true <-> nearly_level a b c /\ below (radius / 10) a b c).
Proof.
  intros H. unfold bottom_planar. rewrite andb_true_iff, flat_iff, all_z_iff.
  assert (E : (Rltb (vz (t_P0 T)) (1 / 10 * radius) = true /\ Rltb (vz (t_P1 T)) (1 / 10 * radius) = true /\ Rltb (vz (t_P2 T)) (1 / 10 * radius) = true)
    <-> below (radius / 10) (t_P0 T) (t_P1 T) (t_P2 T)).
  { unfold below. replace (radius / 10) with (1 / 10 * radius) by field. unfold Rltb.
    destruct (Rlt_dec (vz (t_P0 T)) (1 / 10 * radius)), (Rlt_dec (vz (t_P1 T)) (1 / 10 * radius)), (Rlt_dec (vz (t_P2 T)) (1 / 10 * radius)); intuition congruence. }
  rewrite E. split; intros [A B]; split.
  - eapply level_perm; eauto.
  - eapply below_perm; eauto.
  - eapply level_perm; [apply Permutation_sym|]; eauto.
  - eapply below_perm; [apply Permutation_sym|]; eauto.
Qed.

Lemma in_without f p t x : In x (without f (items p t)) <-> exists s, In s t /\ x = (s, tri_of p s) /\ f (tri_of p s) = false.
Proof.
  unfold without, items. rewrite filter_In, in_map_iff. split.
  - intros [[s [<- Hs]] H]. cbn [snd] in H. exists s. split; auto. split; auto. now apply negb_true_iff in H.
  - intros [s [Hs [-> H]]]. split; [exists s; auto|]. cbn [snd]. now rewrite H.
Qed.

Lemma Forall2_l {A B} (P : A -> B -> Prop) l l' x : Forall2 P l l' -> In x l -> exists y, In y l' /\ P x y.
Proof. induction 1; intros []; [subst; eexists; split; [now left|auto]|]. destruct IHForall2 as [y' [? ?]]; auto. exists y'. split; auto. now right. Qed.
Lemma Forall2_r {A B} (P : A -> B -> Prop) l l' y : Forall2 P l l' -> In y l' -> exists x, In x l /\ P x y.
Proof. induction 1; intros []; [subst; eexists; split; [now left|auto]|]. destruct IHForall2 as [x' [? ?]]; auto. exists x'. split; auto. now right. Qed.

Lemma kept_faces p drop t s : kept_in p drop t s -> forall a b c,
  has_face s a b c <-> exists q, In q t /\ corners (tri_of p q) a b c /\ drop (tri_of p q) = false.
Proof.
  intros (l & F & _ & E & _) a b c. unfold has_face. rewrite E. split.
  - intros [T [HT HC]]. apply in_map_iff in HT. destruct HT as [y [<- Hy]]. destruct (Forall2_r _ _ _ _ F Hy) as [x [Hx Sw]].
    apply in_without in Hx. destruct Hx as [q [Hq [-> D]]]. exists q. split; auto. split; auto.
    apply (same_corners _ _ a b c (switched_tri _ _ Sw)). exact HC.
  - intros [q [Hq [HC D]]]. destruct (Forall2_l _ _ _ (q, tri_of p q) F) as [y [Hy Sw]]; [apply in_without; exists q; auto|].
    exists (snd y). split; [now apply in_map|]. apply (same_corners _ _ a b c (switched_tri _ _ Sw)). exact HC.
Qed.

Lemma kept_vertices p drop t s : kept_in p drop t s -> Forall2 (has_vertices p) (su_simp s) (su_tris s).
Proof.
  intros (l & F & E1 & E2 & _). rewrite E1, E2. 
  assert (H : forall y, In y l -> item_of p y).
  { intros y Hy. destruct (Forall2_r _ _ _ _ F Hy) as [x [Hx Sw]]. apply (switched_item p _ _ Sw). apply in_without in Hx. destruct Hx as [q [_ [-> _]]]. reflexivity. }
  clear F E1 E2. induction l as [|y l IH]; constructor; [|apply IH; intros; apply H; now right].
  pose proof (H y (or_introl eq_refl)) as K. destruct y as [[[i j] k] T]. unfold item_of in K. cbn in K. subst T. cbn. auto.
Qed.

Lemma scale_dot k a b : dot (vscale k a) b = k * dot a b.
Proof. unfold dot, vscale. cbn [vx vy vz]. ring. Qed.

Lemma t_N_right T : right_normal T (t_N T).
Proof.
  intros P. change (cross (vsub (t_P1 T) (t_P0 T)) (vsub (t_P2 T) (t_P0 T))) with (t_cross T) in *. unfold t_N.
  assert (Q : norm (t_cross T) * norm (t_cross T) = dot (t_cross T) (t_cross T)) by (apply sqrt_sqrt, dot_pos).
  pose proof (Rinv_0_lt_compat _ P) as I. rewrite !scale_dot.
  assert (Z1 : dot (t_cross T) (vsub (t_P1 T) (t_P0 T)) = 0) by (unfold t_cross, dot, cross, vsub; cbn [vx vy vz]; ring).
  assert (Z2 : dot (t_cross T) (vsub (t_P2 T) (t_P0 T)) = 0) by (unfold t_cross, dot, cross, vsub; cbn [vx vy vz]; ring).
  rewrite Z1, Z2. split; [|split; [|split; ring]].
  - replace (dot (t_cross T) (vscale (/ norm (t_cross T)) (t_cross T))) with (/ norm (t_cross T) * dot (t_cross T) (t_cross T)) by (unfold dot, vscale; cbn [vx vy vz]; ring).
    rewrite <- Q. field. lra.
  - rewrite <- Q. apply Rmult_lt_0_compat; auto. apply Rmult_lt_0_compat; auto.
Qed.

Lemma kept_normals p drop t s : kept_in p drop t s -> Forall2 right_normal (su_tris s) (su_N s).
Proof.
  intros (l & _ & _ & E2 & E3). rewrite E2, E3. clear E2 E3. generalize (map snd l) as L. induction L as [|T L IH]; [constructor|]. cbn. constructor; [apply t_N_right|exact IH].
Qed.
