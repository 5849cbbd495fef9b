(* Lemmas about RTSurface: consistency, shift and refresh (C40, C84). *)
From Coq Require Import Reals List Bool ZArith Lra Lia.
From Verif Require Import Base Lib Model_Optics Spec_Optics Proof_Optics Model_RayIface Model_Surface Spec_Surface.
Import ListNotations.
Open Scope R_scope.

Lemma fold_min_spec l : forall x, (In (fold_left Rmin l x) (x :: l)) /\ forall y, In y (x :: l) -> fold_left Rmin l x <= y.
Proof.
  induction l as [|a l IH]; intros x; cbn [fold_left].
  - split; [now left | intros y [->|[]]; lra].
  - destruct (IH (Rmin x a)) as [I L]. split.
    + destruct I as [E|I]; [|right; right; exact I].
      rewrite <- E. unfold Rmin. destruct (Rle_dec x a); [now left | right; now left].
    + assert (H0 := L (Rmin x a) (or_introl eq_refl)).
      intros y [->|[->|H]].
      * pose proof (Rmin_l y a); lra.
      * pose proof (Rmin_r x y); lra.
      * apply L. now right.
Qed.

Lemma fold_max_spec l : forall x, (In (fold_left Rmax l x) (x :: l)) /\ forall y, In y (x :: l) -> y <= fold_left Rmax l x.
Proof.
  induction l as [|a l IH]; intros x; cbn [fold_left].
  - split; [now left | intros y [->|[]]; lra].
  - destruct (IH (Rmax x a)) as [I L]. split.
    + destruct I as [E|I]; [|right; right; exact I].
      rewrite <- E. unfold Rmax. destruct (Rle_dec x a); [right; now left | now left].
    + assert (H0 := L (Rmax x a) (or_introl eq_refl)).
      intros y [->|[->|H]].
      * pose proof (Rmax_l y a); lra.
      * pose proof (Rmax_r x y); lra.
      * apply L. now right.
Qed.

Lemma lmin_spec l : l <> [] -> is_min l (lmin l).
Proof. destruct l as [|x l]; [congruence|]. intros _. exact (fold_min_spec l x). Qed.
Lemma lmax_spec l : l <> [] -> is_max l (lmax l).
Proof. destruct l as [|x l]; [congruence|]. intros _. exact (fold_max_spec l x). Qed.

Lemma is_min_unique l a b : is_min l a -> is_min l b -> a = b.
Proof. intros [Ia La] [Ib Lb]. specialize (La b Ib). specialize (Lb a Ia). lra. Qed.
Lemma is_max_unique l a b : is_max l a -> is_max l b -> a = b.
Proof. intros [Ia La] [Ib Lb]. specialize (La b Ib). specialize (Lb a Ia). lra. Qed.
Lemma is_min_eq l a : is_min l a -> lmin l = a.
Proof.
  intros H. apply (is_min_unique l); [|exact H]. apply lmin_spec. destruct H as [I _]. intros ->. destruct I.
Qed.
Lemma is_max_eq l a : is_max l a -> lmax l = a.
Proof.
  intros H. apply (is_max_unique l); [|exact H]. apply lmax_spec. destruct H as [I _]. intros ->. destruct I.
Qed.

(* ---------- argmax ---------- *)

Lemma argmax_go l : forall bi b i d pre, (bi < i)%nat -> length pre = i -> nth bi pre d = b ->
  (forall x, In x pre -> x <= b) ->
  let k := argmin_go (fun a c => Rltb c a) bi b i l in
  (k < length (pre ++ l))%nat /\ forall x, In x (pre ++ l) -> x <= nth k (pre ++ l) d.
Proof.
  induction l as [|a l IH]; intros bi b i d pre Hb Hl Hn Hm; cbn [argmin_go].
  - rewrite app_nil_r. split; [lia|]. rewrite Hn. exact Hm.
  - assert (E : pre ++ a :: l = (pre ++ [a]) ++ l) by (rewrite <- app_assoc; reflexivity). rewrite E.
    destruct (Rltb b a) eqn:C; [apply Rltb_true in C | apply Rltb_false in C].
    + apply IH; [lia | rewrite app_length; cbn; lia | | ].
      * rewrite app_nth2 by lia. rewrite Hl, Nat.sub_diag. reflexivity.
      * intros x H. apply in_app_or in H. destruct H as [H|[<-|[]]]; [specialize (Hm x H); lra | lra].
    + apply IH; [lia | rewrite app_length; cbn; lia | | ].
      * rewrite app_nth1 by lia. exact Hn.
      * intros x H. apply in_app_or in H. destruct H as [H|[<-|[]]]; [exact (Hm x H) | lra].
Qed.

Lemma argmax_spec l d k : argmax l = Ok k -> (k < length l)%nat /\ forall x, In x l -> x <= nth k l d.
Proof.
  unfold argmax, argmin. destruct l as [|a l]; [discriminate|]. intros E. injection E as <-.
  apply (argmax_go l 0%nat a 1%nat d [a]); [lia | reflexivity | reflexivity | intros x [->|[]]; lra].
Qed.

(* ---------- normals ---------- *)

Lemma norm_pos a : vz a <> 0 -> 0 < norm a.
Proof.
  intros H. unfold norm. apply sqrt_lt_R0. unfold dot.
  assert (0 < vz a * vz a) by (assert (Q := Rsqr_pos_lt _ H); unfold Rsqr in Q; exact Q). nra.
Qed.

Lemma t_cross_z T : vz (t_cross T) = plan_area T.
Proof. unfold t_cross, plan_area, cross, vsub. cbn [vx vy vz]. reflexivity. Qed.

Lemma normal_up T : 0 < plan_area T -> up_normal T (t_N T).
Proof.
  intros H. rewrite <- t_cross_z in H.
  assert (P := norm_pos (t_cross T) ltac:(lra)).
  assert (S := norm_sq (t_cross T)).
  unfold up_normal, t_N. split; [|split; [|split]].
  - rewrite dot_scale_scale, <- S. field. lra.
  - cbn [vscale vz]. apply Rmult_lt_0_compat; [apply Rinv_0_lt_compat; exact P | exact H].
  - rewrite dot_scale_l. unfold t_cross. vexp. ring.
  - rewrite dot_scale_l. unfold t_cross. vexp. ring.
Qed.

(* ---------- the invariant ---------- *)

Definition xy (v : vec) : R * R := (vx v, vy v).

Record inv (p0 : list vec) (s : rtsurf) : Prop := {
  i_ne : p0 <> [];
  i_xy : map xy (su_pts s) = map xy p0;
  i_orig : su_orig s = p0;
  i_ccw : Forall (ccw p0) (su_simp s);
  i_tris : su_tris s = map (tri_of (su_pts s)) (su_simp s);
  i_N : su_N s = map t_N (su_tris s);
  i_zmin : su_zmin s = lmin (zs_of (su_pts s)); i_zmax : su_zmax s = lmax (zs_of (su_pts s));
  i_xmin : su_xmin s = lmin (xs_of p0); i_xmax : su_xmax s = lmax (xs_of p0);
  i_ymin : su_ymin s = lmin (ys_of p0); i_ymax : su_ymax s = lmax (ys_of p0);
  i_Lx : su_Lx s = Rabs (lmin (xs_of p0) - lmax (xs_of p0)); i_Ly : su_Ly s = Rabs (lmin (ys_of p0) - lmax (ys_of p0)) }.

Lemma normals_eq l : normals (map t_cross l) = map t_N l.
Proof. unfold normals. rewrite map_map. reflexivity. Qed.

Lemma xy_length p q : map xy p = map xy q -> length p = length q.
Proof. intros H. apply (f_equal (@length _)) in H. now rewrite !map_length in H. Qed.

Lemma xy_nth p q i : map xy p = map xy q -> vx (nth i p v0) = vx (nth i q v0) /\ vy (nth i p v0) = vy (nth i q v0).
Proof.
  intros H. assert (E : nth i (map xy p) (xy v0) = nth i (map xy q) (xy v0)) by now rewrite H.
  rewrite !map_nth in E. injection E as A B. now split.
Qed.

Lemma xy_cols p q : map xy p = map xy q -> map vx p = map vx q /\ map vy p = map vy q.
Proof.
  intros H. split; [apply (f_equal (map fst)) in H | apply (f_equal (map snd)) in H]; rewrite !map_map in H; exact H.
Qed.

Lemma ccw_xy p q s : map xy p = map xy q -> ccw q s -> ccw p s.
Proof.
  intros H. destruct s as [[i j] k]. unfold ccw. rewrite (xy_length _ _ H).
  destruct (xy_nth p q i H) as [-> ->], (xy_nth p q j H) as [-> ->], (xy_nth p q k H) as [-> ->]. easy.
Qed.

Lemma ccw_plan p s : ccw p s -> 0 < plan_area (tri_of p s).
Proof. destruct s as [[i j] k]. intros (_ & _ & _ & H). exact H. Qed.

Lemma inv_mk del p cov dist s : mk_surface del p cov dist = Ok s -> Forall (ccw p) (su_simp s) -> inv p s.
Proof.
  unfold mk_surface. intros E F.
  destruct (argmax (map Rabs (zs_of p))) as [h|e] eqn:A; [|discriminate]. cbn [rbind] in E.
  destruct (match cov with Some c => Ok c | None => find_zcov p end) as [z|e]; [|discriminate]. cbn [rbind] in E.
  injection E as <-. cbn [su_simp] in F.
  constructor; cbn; try reflexivity; try exact F.
  - intros ->. discriminate A.
  - apply normals_eq.
Qed.

Lemma xy_shift dz p : map xy (map (fun v => set_z v (vz v - dz)) p) = map xy p.
Proof. rewrite map_map. reflexivity. Qed.

Lemma shift_nth dz p i : (i < length p)%nat ->
  nth i (map (fun v => set_z v (vz v - dz)) p) v0 = set_z (nth i p v0) (vz (nth i p v0) - dz).
Proof. intros H. now rewrite nth_map_lt with (da := v0). Qed.

Lemma shift_cross dz p s : ccw p s ->
  t_cross (tri_of (map (fun v => set_z v (vz v - dz)) p) s) = t_cross (tri_of p s).
Proof.
  destruct s as [[i j] k]. intros (Hi & Hj & Hk & _). unfold tri_of, t_cross. cbn [fst snd t_P0 t_P1 t_P2].
  rewrite !shift_nth by assumption. apply vec_ext; unfold cross, vsub, set_z; cbn [vx vy vz]; ring.
Qed.

Lemma inv_shift p0 dz s : inv p0 s -> inv p0 (shift dz s).
Proof.
  intros I. destruct I. constructor; cbn; try assumption; try reflexivity.
  - rewrite xy_shift. assumption.
  - rewrite i_N0, i_tris0, !map_map. apply map_ext_in. intros t H.
    assert (C : ccw (su_pts s) t).
    { apply (ccw_xy _ p0); [assumption|]. rewrite Forall_forall in i_ccw0. now apply i_ccw0. }
    unfold t_N. now rewrite shift_cross.
Qed.

Lemma map2_xy (f : vec -> vec -> R) p : forall q, length p = length q ->
  map xy (map2 (fun v o => set_z v (f v o)) p q) = map xy p.
Proof.
  induction p as [|a p IH]; intros [|b q] H; try discriminate; [reflexivity|]. cbn. f_equal. apply IH. now injection H.
Qed.

Lemma inv_refresh p0 h s : inv p0 s -> inv p0 (refresh h s).
Proof.
  intros I. unfold refresh. destruct (su_dist s); [|exact I].
  destruct I. constructor; cbn; try assumption; try reflexivity.
  - rewrite map2_xy; [assumption|]. rewrite i_orig0. now apply xy_length.
  - apply normals_eq.
Qed.

Lemma inv_ops p0 l : forall s, inv p0 s -> inv p0 (do_ops s l).
Proof.
  induction l as [|o l IH]; intros s I; [exact I|]. apply IH. destruct o; [now apply inv_shift | now apply inv_refresh].
Qed.

Lemma Forall2_map_r {A B} (P : A -> B -> Prop) (f : A -> B) l : (forall x, In x l -> P x (f x)) -> Forall2 P l (map f l).
Proof.
  induction l as [|a l IH]; intros H; [constructor|]. constructor; [apply H; now left | apply IH; intros x Hx; apply H; now right].
Qed.

Lemma map_ne {A B} (f : A -> B) l : l <> [] -> map f l <> [].
Proof. destruct l; [congruence | discriminate]. Qed.

Lemma inv_consistent p0 s : inv p0 s -> consistent s /\ su_N s = map t_N (s_tris (as_surface s)).
Proof.
  intros I. destruct I. split; [|exact i_N0].
  assert (NE : su_pts s <> []).
  { intros E. rewrite E in i_xy0. destruct p0; [congruence | discriminate]. }
  destruct (xy_cols _ _ i_xy0) as [X Y]. unfold consistent.
  assert (LX : is_min (map vx p0) (lmin (xs_of p0))) by (apply lmin_spec, map_ne; assumption).
  assert (MX : is_max (map vx p0) (lmax (xs_of p0))) by (apply lmax_spec, map_ne; assumption).
  assert (LY : is_min (map vy p0) (lmin (ys_of p0))) by (apply lmin_spec, map_ne; assumption).
  assert (MY : is_max (map vy p0) (lmax (ys_of p0))) by (apply lmax_spec, map_ne; assumption).
  rewrite X, Y, i_xmin0, i_xmax0, i_ymin0, i_ymax0, i_zmin0, i_zmax0, i_Lx0, i_Ly0.
  split; [|split; [|split; [|split; [|split; [|split; [|split; [|split; [|split]]]]]]]]; try assumption.
  - rewrite i_tris0. apply Forall2_map_r. intros [[i j] k] _. now split.
  - rewrite i_N0. apply Forall2_map_r. intros T H. apply normal_up. rewrite i_tris0 in H. apply in_map_iff in H.
    destruct H as (t & <- & H). apply ccw_plan. apply (ccw_xy _ p0); [assumption|].
    rewrite Forall_forall in i_ccw0. now apply i_ccw0.
  - apply lmin_spec, map_ne, NE.
  - apply lmax_spec, map_ne, NE.
  - rewrite Rabs_left1; [ring|]. pose proof (proj2 LX _ (proj1 MX)). lra.
  - rewrite Rabs_left1; [ring|]. pose proof (proj2 LY _ (proj1 MY)). lra.
Qed.

Lemma C84_all del p cov dist s ops :
  mk_surface del p cov dist = Ok s -> Forall (ccw p) (su_simp s) ->
  consistent (do_ops s ops) /\ su_N (do_ops s ops) = map t_N (s_tris (as_surface (do_ops s ops))) /\
  map xy (su_pts (do_ops s ops)) = map xy p /\ su_simp (do_ops s ops) = su_simp s.
Proof.
  intros E F. assert (I := inv_ops p ops s (inv_mk _ _ _ _ _ E F)).
  destruct (inv_consistent _ _ I) as [A B]. split; [exact A | split; [exact B|split; [exact (i_xy _ _ I)|]]].
  clear. revert s. induction ops as [|o ops IH]; intros s; [reflexivity|].
  change (su_simp (do_ops (do_op s o) ops) = su_simp s). rewrite IH.
  destruct o; [reflexivity|]. cbn. unfold refresh. now destruct (su_dist s).
Qed.

(* ---------- shifts only ---------- *)

Definition total (l : list R) : R := rsum l.

Lemma fold_min_shift d l : forall x, fold_left Rmin (map (fun z => z - d) l) (x - d) = fold_left Rmin l x - d.
Proof.
  induction l as [|a l IH]; intros x; [reflexivity|]. cbn [map fold_left].
  replace (Rmin (x - d) (a - d)) with (Rmin x a - d); [apply IH|].
  unfold Rmin. destruct (Rle_dec x a), (Rle_dec (x - d) (a - d)); lra.
Qed.
Lemma fold_max_shift d l : forall x, fold_left Rmax (map (fun z => z - d) l) (x - d) = fold_left Rmax l x - d.
Proof.
  induction l as [|a l IH]; intros x; [reflexivity|]. cbn [map fold_left].
  replace (Rmax (x - d) (a - d)) with (Rmax x a - d); [apply IH|].
  unfold Rmax. destruct (Rle_dec x a), (Rle_dec (x - d) (a - d)); lra.
Qed.

Lemma shift_range d p : p <> [] ->
  lmin (zs_of (map (fun v => set_z v (vz v - d)) p)) = lmin (zs_of p) - d /\
  lmax (zs_of (map (fun v => set_z v (vz v - d)) p)) = lmax (zs_of p) - d.
Proof.
  destruct p as [|a p]; [congruence|]. intros _. unfold zs_of, lmin, lmax. cbn [map].
  rewrite map_map. cbn [set_z vz]. rewrite <- (map_map vz (fun z => z - d)).
  split; [apply fold_min_shift | apply fold_max_shift].
Qed.

Lemma shifts_all p0 l : forall s, inv p0 s ->
  let s' := do_ops s (map OShift l) in
  su_pts s' = map (fun v => mkv (vx v) (vy v) (vz v - rsum l)) (su_pts s) /\
  su_zmin s' = su_zmin s - rsum l /\ su_zmax s' = su_zmax s - rsum l /\ su_zcov s' = su_zcov s - rsum l /\
  su_N s' = su_N s.
Proof.
  induction l as [|d l IH]; intros s I.
  - cbn. repeat split; try ring. rewrite <- (map_id (su_pts s)) at 1. apply map_ext. intros v. destruct v; cbn. f_equal; ring.
  - change (do_ops s (map OShift (d :: l))) with (do_ops (shift d s) (map OShift l)). cbn zeta.
    destruct (IH (shift d s) (inv_shift _ _ _ I)) as (A & B & C & D & E).
    rewrite A, B, C, D, E. cbn [su_pts su_zmin su_zmax su_zcov su_N shift].
    assert (NE : su_pts s <> []).
    { intros Q. destruct I. rewrite Q in i_xy0. destruct p0; [congruence | discriminate]. }
    destruct (shift_range d (su_pts s) NE) as [-> ->]. destruct I. rewrite <- i_zmin0, <- i_zmax0.
    change (rsum (d :: l)) with (d + rsum l). split; [|split; [|split; [|split; [|reflexivity]]]]; try ring.
    rewrite map_map. apply map_ext. intros v. cbn. f_equal. ring.
Qed.

(* ---------- refreshes only ---------- *)

Lemma refresh_dist h s : su_dist (refresh h s) = su_dist s.
Proof. unfold refresh. destruct (su_dist s) eqn:E; cbn; congruence. Qed.
Lemma refresh_zcov h s : su_zcov (refresh h s) = su_zcov s.
Proof. unfold refresh. destruct (su_dist s); reflexivity. Qed.
Lemma refresh_orig h s : su_orig (refresh h s) = su_orig s.
Proof. unfold refresh. destruct (su_dist s); reflexivity. Qed.
Lemma refresh_hind h s : su_hind (refresh h s) = su_hind s.
Proof. unfold refresh. destruct (su_dist s); reflexivity. Qed.

Definition scale_of (h : R) (s : rtsurf) : R := Rabs (h / (vz (nth (su_hind s) (su_orig s) v0) - su_zcov s)).

Lemma refresh_nth h s p0 d i : inv p0 s -> su_dist s = Some d -> (i < length p0)%nat ->
  nth i (su_pts (refresh h s)) v0 =
  mkv (vx (nth i p0 v0)) (vy (nth i p0 v0)) (su_zcov s + scale_of h s * (vz (nth i p0 v0) - su_zcov s)).
Proof.
  intros I D Hi. unfold refresh. rewrite D. cbn [su_pts].
  assert (L := xy_length _ _ (i_xy _ _ I)). assert (O := i_orig _ _ I).
  rewrite map2_nth with (da := v0) (db := v0) by (try rewrite O; lia).
  destruct (xy_nth _ _ i (i_xy _ _ I)) as [X Y]. unfold set_z. rewrite X, Y, O. unfold scale_of. rewrite O. f_equal. ring.
Qed.

Lemma refreshes_keep l : forall s, su_zcov (do_ops s (map ORefresh l)) = su_zcov s /\
  su_dist (do_ops s (map ORefresh l)) = su_dist s /\ su_orig (do_ops s (map ORefresh l)) = su_orig s /\
  su_hind (do_ops s (map ORefresh l)) = su_hind s.
Proof.
  induction l as [|h l IH]; intros s; [now repeat split|]. cbn [map]. change (do_ops s (ORefresh h :: map ORefresh l)) with (do_ops (refresh h s) (map ORefresh l)).
  destruct (IH (refresh h s)) as (A & B & C & D). now rewrite A, B, C, D, refresh_zcov, refresh_dist, refresh_orig, refresh_hind.
Qed.

Lemma mk_fields del p cov dist s : mk_surface del p cov dist = Ok s ->
  argmax (map Rabs (zs_of p)) = Ok (su_hind s) /\ su_orig s = p /\ su_pts s = p /\ su_dist s = dist /\
  match cov with Some c => su_zcov s = c | None => find_zcov p = Ok (su_zcov s) end /\
  su_simp s = del (map xy p).
Proof.
  unfold mk_surface. intros E.
  destruct (argmax (map Rabs (zs_of p))) as [h|e] eqn:A; [|discriminate]. cbn [rbind] in E.
  destruct cov as [c|]; [|destruct (find_zcov p) as [z|e] eqn:Z; [|discriminate]]; cbn [rbind] in E; injection E as <-; cbn; now repeat split.
Qed.

Lemma refreshes_all del p cov d s hs h :
  mk_surface del p cov (Some d) = Ok s -> Forall (ccw p) (su_simp s) ->
  let s' := do_ops s (map ORefresh (hs ++ [h])) in
  su_zcov s' = su_zcov s /\
  exists c k, 0 <= c /\ (k < length p)%nat /\
    (forall v, In v p -> Rabs (vz v) <= Rabs (vz (nth k p v0))) /\
    (vz (nth k p v0) <> su_zcov s -> c * Rabs (vz (nth k p v0) - su_zcov s) = Rabs h) /\
    length (su_pts s') = length p /\
    forall i, (i < length p)%nat ->
      nth i (su_pts s') v0 =
      mkv (vx (nth i p v0)) (vy (nth i p v0)) (su_zcov s + c * (vz (nth i p v0) - su_zcov s)).
Proof.
  intros E F. assert (I := inv_mk _ _ _ _ _ E F). destruct (mk_fields _ _ _ _ _ E) as (H & O & _ & D & _ & _).
  cbn zeta. rewrite map_app. cbn [map]. unfold do_ops. rewrite fold_left_app. cbn [fold_left do_op].
  change (fold_left do_op (map ORefresh hs) s) with (do_ops s (map ORefresh hs)).
  set (t := do_ops s (map ORefresh hs)).
  destruct (refreshes_keep hs s) as (Z & D' & O' & K). fold t in Z, D', O', K.
  assert (It : inv p t) by (apply inv_ops; exact I).
  rewrite refresh_zcov, Z. split; [reflexivity|].
  assert (S : scale_of h t = Rabs (h / (vz (nth (su_hind s) p v0) - su_zcov s))).
  { unfold scale_of. now rewrite K, O', Z, O. }
  exists (scale_of h t), (su_hind s).
  destruct (argmax_spec _ (Rabs (vz v0)) _ H) as [Hk Hm]. unfold zs_of in Hk, Hm. rewrite !map_length in Hk.
  split; [rewrite S; apply Rabs_pos|]. split; [exact Hk|]. split; [|split; [|split]].
  - intros v Hv. rewrite map_map in Hm. specialize (Hm (Rabs (vz v)) ltac:(apply in_map_iff; now exists v)).
    rewrite (map_nth (fun x => Rabs (vz x))) in Hm. exact Hm.
  - intros Ne. rewrite S, <- Rabs_mult. f_equal. field. lra.
  - apply xy_length. apply (i_xy p). apply inv_refresh. exact It.
  - intros i Hi. rewrite (refresh_nth h t p d) by (try assumption; congruence). now rewrite Z.
Qed.

(* refresh after a shift: the points of the base leave the coverage height *)
Lemma shift_refresh del p cov d s dz h i :
  mk_surface del p cov (Some d) = Ok s -> Forall (ccw p) (su_simp s) -> (i < length p)%nat ->
  vz (nth i p v0) = su_zcov s ->
  su_zcov (refresh h (shift dz s)) = su_zcov s - dz /\
  vz (nth i (su_pts (refresh h (shift dz s))) v0) - (su_zcov s - dz) =
    Rabs (h / (vz (nth (su_hind s) p v0) - (su_zcov s - dz))) * dz.
Proof.
  intros E F Hi B. assert (I := inv_shift _ dz _ (inv_mk _ _ _ _ _ E F)).
  destruct (mk_fields _ _ _ _ _ E) as (_ & O & _ & D & _ & _).
  rewrite refresh_zcov. split; [reflexivity|].
  rewrite (refresh_nth h (shift dz s) p d) by (try assumption; exact D).
  unfold scale_of. cbn [vz su_zcov shift su_hind su_orig]. rewrite O, B. ring.
Qed.
