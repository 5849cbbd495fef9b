(* Lemmas about surface area, pyramids, grooves, height maps and mirrored textures (C41-C45, C85). *)
From Coq Require Import Reals List Bool ZArith Lra Lia Psatz.
From Verif Require Import Base Lib Model_Optics Spec_Optics Proof_Optics Model_RayIface Model_Surface Spec_Surface Proof_Surface.
Import ListNotations.
Open Scope R_scope.

(* ---------- area ---------- *)

Lemma sin_acos_eq c : -1 <= c <= 1 -> sin (acos c) = sqrt (1 - c * c).
Proof. intros H. rewrite sin_acos by lra. reflexivity. Qed.

Lemma lagrange a b : dot (cross a b) (cross a b) = dot a a * dot b b - dot a b * dot a b.
Proof. vexp. ring. Qed.

Definition ea (T : tri) := vsub (t_P0 T) (t_P1 T).
Definition eb (T : tri) := vsub (t_P2 T) (t_P1 T).

Lemma tri_area_p1 T : tri_area T = sqrt (dot (ea T) (ea T) * dot (eb T) (eb T) - dot (ea T) (eb T) * dot (ea T) (eb T)) / 2.
Proof.
  unfold tri_area, norm. do 2 f_equal. rewrite <- lagrange. unfold ea, eb. vexp. ring.
Qed.

Lemma area_iff T : area_term T = Some (tri_area T) <-> dot (ea T) (eb T) = 0 \/ norm (ea T) * norm (eb T) = 1.
Proof.
  assert (Q : 0 <= dot (ea T) (ea T) * dot (eb T) (eb T) - dot (ea T) (eb T) * dot (ea T) (eb T)) by (rewrite <- lagrange; apply dot_nonneg).
  assert (NN : norm (ea T) * norm (eb T) * (norm (ea T) * norm (eb T)) = dot (ea T) (ea T) * dot (eb T) (eb T)).
  { rewrite <- (norm_sq (ea T)), <- (norm_sq (eb T)). ring. }
  assert (N0 : 0 <= norm (ea T) * norm (eb T)) by (apply Rmult_le_pos; apply norm_nonneg).
  unfold area_term. fold (ea T) (eb T). rewrite tri_area_p1.
  set (c := dot (ea T) (eb T)) in *. set (m := norm (ea T) * norm (eb T)) in *.
  replace (5 / 10 * norm (ea T) * norm (eb T)) with (m / 2) by (unfold m; field).
  rewrite <- NN in Q. rewrite <- NN.
  destruct (Rleb (-1) c) eqn:A; [apply Rleb_true in A | apply Rleb_false in A]; cbn [andb].
  2:{ split; [discriminate|]. intros [H|H]; [lra|]. rewrite H in Q. nra. }
  destruct (Rleb c 1) eqn:B; [apply Rleb_true in B | apply Rleb_false in B].
  2:{ split; [discriminate|]. intros [H|H]; [lra|]. rewrite H in Q. nra. }
  rewrite sin_acos_eq by lra.
  assert (S0 : 0 <= 1 - c * c) by nra.
  assert (E1 : m / 2 * sqrt (1 - c * c) = sqrt (m * m * (1 - c * c)) / 2).
  { rewrite sqrt_mult by nra. rewrite sqrt_square by exact N0. field. }
  rewrite E1. split.
  - intros E. injection E as E.
    assert (E2 : sqrt (m * m * (1 - c * c)) = sqrt (m * m - c * c)) by lra.
    apply sqrt_inj in E2; [|apply Rmult_le_pos; nra|exact Q].
    assert (E3 : c * c * ((m - 1) * (m + 1)) = 0) by nra.
    apply Rmult_integral in E3. destruct E3 as [E3|E3].
    + left. apply Rmult_integral in E3. tauto.
    + right. apply Rmult_integral in E3. lra.
  - intros H. do 2 f_equal. f_equal. destruct H as [-> | ->]; ring.
Qed.

Lemma osum_some l : osum (map (fun x => Some x) l) = Some (rsum l).
Proof. induction l as [|a l IH]; [reflexivity|]. cbn. rewrite IH. reflexivity. Qed.

Lemma area_ok s : (forall T, In T (su_tris s) -> dot (ea T) (eb T) = 0 \/ norm (ea T) * norm (eb T) = 1) ->
  find_area s = Some (rsum (map tri_area (su_tris s)) / (su_Lx s * su_Ly s)).
Proof.
  intros H. unfold find_area.
  replace (map area_term (su_tris s)) with (map (fun x => Some x) (map tri_area (su_tris s))); [now rewrite osum_some|].
  rewrite map_map. apply map_ext_in. intros T I. symmetry. apply area_iff. now apply H.
Qed.

Lemma osum_none l : In None l -> osum l = None.
Proof.
  induction l as [|[x|] l IH]; intros H; [destruct H | | reflexivity].
  destruct H as [H|H]; [discriminate|]. cbn. now rewrite IH.
Qed.

(* ---------- inclined planes ---------- *)

Lemma inclined_of T a : 0 < cos a -> plan_area T <> 0 ->
  vx (t_cross T) * vx (t_cross T) + vy (t_cross T) * vy (t_cross T) = tan a * tan a * (plan_area T * plan_area T) ->
  inclined T a.
Proof.
  intros C P E. unfold inclined. change (cross (vsub (t_P1 T) (t_P0 T)) (vsub (t_P2 T) (t_P0 T))) with (t_cross T).
  assert (N := norm_pos (t_cross T)). rewrite t_cross_z in N. specialize (N P). split; [exact N|].
  rewrite t_cross_z.
  assert (S := norm_sq (t_cross T)). unfold dot in S. rewrite t_cross_z in S. rewrite E in S.
  assert (CS := cos_sin_sq a).
  assert (K : (norm (t_cross T) * cos a) * (norm (t_cross T) * cos a) = plan_area T * plan_area T).
  { replace (norm (t_cross T) * cos a * (norm (t_cross T) * cos a)) with (norm (t_cross T) * norm (t_cross T) * (cos a * cos a)) by ring.
    rewrite S. unfold tan.
    replace ((sin a / cos a * (sin a / cos a) * (plan_area T * plan_area T) + plan_area T * plan_area T) * (cos a * cos a))
      with (plan_area T * plan_area T * (cos a * cos a + sin a * sin a)) by (field; lra).
    rewrite CS. ring. }
  assert (A : Rabs (plan_area T) = norm (t_cross T) * cos a).
  { rewrite <- (Rabs_right (norm (t_cross T) * cos a)) by (apply Rle_ge, Rmult_le_pos; lra).
    apply Rsqr_eq_abs_0. unfold Rsqr. now rewrite K. }
  rewrite A. field. lra.
Qed.

Definition pyr (L w : R) : list vec := zip3 [0; L / 2; L; 0; L] [0; L / 2; 0; L; L] [0; w; 0; 0; 0].
Definition apex (L w : R) : vec := mkv (L / 2) (L / 2) w.

Lemma pyr_points L w : pyr L w = [mkv 0 0 0; apex L w; mkv L 0 0; mkv 0 L 0; mkv L L 0].
Proof. reflexivity. Qed.

Ltac pyr_cases H := cbn [pyr zip3 combine map2 fst snd In] in H;
  destruct H as [H|[H|[H|[H|[H|[]]]]]].

Lemma pyr_facet L w T : 0 < L -> spanned_by (pyr L w) T -> vertex_of T (apex L w) -> plan_area T <> 0 ->
  L * L * (vx (t_cross T) * vx (t_cross T) + vy (t_cross T) * vy (t_cross T)) = 4 * (w * w) * (plan_area T * plan_area T).
Proof.
  intros HL (H0 & H1 & H2) V P. destruct T as [P0 P1 P2]. unfold vertex_of, plan_area, t_cross in *. cbn [t_P0 t_P1 t_P2] in *.
  pyr_cases H0; pyr_cases H1; pyr_cases H2; subst P0 P1 P2; unfold cross, vsub in *; cbn [vx vy vz] in *;
    first [ exfalso; apply P; field
          | (exfalso; unfold apex in V; destruct V as [V|[V|V]]; injection V; intros; lra)
          | field ].
Qed.

Lemma pyr_inclined L w a T : 0 < L -> 0 < cos a -> w * w = L * tan a / 2 * (L * tan a / 2) ->
  spanned_by (pyr L w) T -> vertex_of T (apex L w) -> plan_area T <> 0 -> inclined T a.
Proof.
  intros HL C W S V P. apply inclined_of; [exact C | exact P|].
  assert (E := pyr_facet L w T HL S V P). rewrite W in E.
  apply (Rmult_eq_reg_l (L * L)); [|nra]. rewrite E. field.
Qed.

Lemma pyr_fills L w : 0 < L -> fills_cell (pyr L w) L L.
Proof.
  intros H. rewrite pyr_points. unfold fills_cell, is_min, is_max. cbn [map vx vy apex].
  repeat match goal with |- _ /\ _ => split end; try (cbn; tauto);
    intros x I; cbn in I; repeat (destruct I as [<-|I]); try lra; destruct I.
Qed.

Lemma pyramid_points_eq angle size upright hd :
  pyramid_points angle size upright hd = pyr (size * 1) (if upright then pyramid_height angle size hd else - pyramid_height angle size hd).
Proof. unfold pyramid_points, pyr. destruct upright; reflexivity. Qed.

Lemma mirror_pyr L w : mirror_z (pyr L w) = pyr L (- w).
Proof. rewrite !pyr_points. unfold mirror_z, apex, set_z. cbn. rewrite !Ropp_0. reflexivity. Qed.

Lemma mk_cell del p cov dist s a b : mk_surface del p cov dist = Ok s -> 0 <= a -> 0 <= b -> fills_cell p a b ->
  su_Lx s = a /\ su_Ly s = b /\ su_xmin s = 0 /\ su_xmax s = a /\ su_ymin s = 0 /\ su_ymax s = b.
Proof.
  intros E Ha Hb (A & B & C & D). unfold mk_surface in E.
  destruct (argmax (map Rabs (zs_of p))) as [h|e]; [|discriminate]. cbn [rbind] in E.
  destruct (match cov with Some c => Ok c | None => find_zcov p end) as [z|e]; [|discriminate]. cbn [rbind] in E.
  injection E as <-. cbn. unfold xs_of, ys_of.
  rewrite (is_min_eq _ _ A), (is_max_eq _ _ B), (is_min_eq _ _ C), (is_max_eq _ _ D).
  rewrite !Rabs_left1 by lra. repeat split; ring.
Qed.

Lemma tri_pts del p cov dist s T : mk_surface del p cov dist = Ok s -> Forall (ccw p) (su_simp s) -> In T (su_tris s) ->
  spanned_by p T /\ plan_area T <> 0.
Proof.
  intros E F I. assert (V := inv_mk _ _ _ _ _ E F). destruct (mk_fields _ _ _ _ _ E) as (_ & _ & Q & _).
  rewrite (i_tris _ _ V), Q in I. apply in_map_iff in I. destruct I as (t & <- & I).
  rewrite Forall_forall in F. specialize (F t I). split.
  - destruct t as [[i j] k]. destruct F as (Hi & Hj & Hk & _). repeat split; apply nth_In; assumption.
  - pose proof (ccw_plan _ _ F). lra.
Qed.

Lemma regular_split del angle size upright cov dist drawn f r :
  regular_pyramids del angle size upright cov dist drawn = Ok (f, r) ->
  let p := pyramid_points angle size upright (match dist with Some _ => Some drawn | None => None end) in
  mk_surface del p cov dist = Ok f /\ mk_surface del (mirror_z p) None None = Ok r.
Proof.
  unfold regular_pyramids. intros E. cbn zeta.
  destruct (mk_surface del _ cov dist) as [f'|e]; [|discriminate]. cbn [rbind] in E.
  destruct (mk_surface del _ None None) as [r'|e]; [|discriminate]. cbn [rbind] in E. injection E as -> ->. now split.
Qed.

Lemma mirror_mirrored p : Forall2 mirrored p (mirror_z p).
Proof. apply Forall2_map_r. intros v _. unfold mirrored, set_z. cbn. tauto. Qed.

Lemma radians_cos angle : 0 < angle < 90 -> 0 < cos (radians angle).
Proof. intros H. apply cos_gt_0; unfold radians; pose proof PI_RGT_0; nra. Qed.
Lemma radians_tan angle : 0 < angle < 90 -> 0 < tan (radians angle).
Proof. intros H. apply tan_gt_0; unfold radians; pose proof PI_RGT_0; nra. Qed.

Lemma C43_all del angle size upright cov f r :
  0 < angle < 90 -> 0 < size ->
  regular_pyramids del angle size upright cov None 0 = Ok (f, r) ->
  let h := size / 2 * tan (angle * PI / 180) in
  let top s := mkv (size / 2) (size / 2) s in
  let w := if upright then h else - h in
  (forall s a, (s = f /\ a = top w) \/ (s = r /\ a = top (- w)) ->
     fills_cell (su_pts s) size size /\ su_Lx s = size /\ su_Ly s = size /\
     In a (su_pts s) /\ (forall v, In v (su_pts s) -> v = a \/ vz v = 0) /\
     forall T, spanned_by (su_pts s) T -> vertex_of T a -> plan_area T <> 0 -> inclined T (angle * PI / 180)) /\
  Forall2 mirrored (su_pts f) (su_pts r).
Proof.
  intros HA HS E. destruct (regular_split _ _ _ _ _ _ _ _ _ E) as [Ef Er]. cbn zeta in Ef, Er.
  rewrite pyramid_points_eq in Ef, Er. rewrite mirror_pyr in Er. rewrite Rmult_1_r in Ef, Er.
  unfold pyramid_height in Ef, Er. rewrite Rmult_1_r in Ef, Er. cbn zeta.
  change (angle * PI / 180) with (radians angle).
  assert (G : forall cov dist s w, mk_surface del (pyr size w) cov dist = Ok s -> w * w = size * tan (radians angle) / 2 * (size * tan (radians angle) / 2) ->
     fills_cell (su_pts s) size size /\ su_Lx s = size /\ su_Ly s = size /\
     In (mkv (size / 2) (size / 2) w) (su_pts s) /\ (forall v, In v (su_pts s) -> v = mkv (size / 2) (size / 2) w \/ vz v = 0) /\
     forall T, spanned_by (su_pts s) T -> vertex_of T (mkv (size / 2) (size / 2) w) -> plan_area T <> 0 -> inclined T (radians angle)).
  { intros c d s w Es W. destruct (mk_fields _ _ _ _ _ Es) as (_ & _ & Q & _). rewrite Q.
    destruct (mk_cell _ _ _ _ _ size size Es ltac:(lra) ltac:(lra) (pyr_fills size w HS)) as (L1 & L2 & _).
    split; [now apply pyr_fills|]. split; [exact L1|]. split; [exact L2|]. split; [right; left; reflexivity|]. split.
    - intros v I. rewrite pyr_points in I. destruct I as [<-|[<-|[<-|[<-|[<-|[]]]]]]; (right; reflexivity) || (left; reflexivity).
    - intros T S V P. apply (pyr_inclined size w); try assumption. now apply radians_cos. }
  set (t := tan (radians angle)) in *.
  replace (size / 2 * t) with (size * t / 2) by field.
  split.
  - intros s a [[-> ->]|[-> ->]].
    + apply (G cov None f); [exact Ef | destruct upright; ring].
    + apply (G None None r); [exact Er | destruct upright; ring].
  - destruct (mk_fields _ _ _ _ _ Ef) as (_ & _ & -> & _). destruct (mk_fields _ _ _ _ _ Er) as (_ & _ & -> & _).
    rewrite <- mirror_pyr. apply mirror_mirrored.
Qed.

(* every facet of the pyramid has an edge product larger than 1 when the pyramid is large *)
Lemma pyr_area_nan L w T : 2 < L * L -> 1 < w * w ->
  spanned_by (pyr L w) T -> vertex_of T (apex L w) -> plan_area T <> 0 -> area_term T = None.
Proof.
  intros HL HW (H0 & H1 & H2) V P.
  assert (1 < dot (ea T) (eb T)).
  { destruct T as [P0 P1 P2]. unfold vertex_of, plan_area, ea, eb in *. cbn [t_P0 t_P1 t_P2] in *.
    pyr_cases H0; pyr_cases H1; pyr_cases H2; subst P0 P1 P2; unfold dot, vsub in *; cbn [vx vy vz] in *;
    first [ exfalso; apply P; field
          | (exfalso; unfold apex in V; destruct V as [V|[V|V]]; injection V; intros; nra)
          | nra ]. }
  unfold area_term. fold (ea T) (eb T).
  destruct (Rleb (dot (ea T) (eb T)) 1) eqn:B; [apply Rleb_true in B; lra|]. now rewrite andb_false_r.
Qed.

(* ---------- V grooves ---------- *)

Definition swap (v : vec) : vec := mkv (vy v) (vx v) (vz v).

(* a plane z = k * x + m *)
Lemma slope_x T k m : vz (t_P0 T) = k * vx (t_P0 T) + m -> vz (t_P1 T) = k * vx (t_P1 T) + m -> vz (t_P2 T) = k * vx (t_P2 T) + m ->
  vx (t_cross T) * vx (t_cross T) + vy (t_cross T) * vy (t_cross T) = k * k * (plan_area T * plan_area T).
Proof. intros A B C. unfold t_cross, plan_area. vexp. rewrite A, B, C. ring. Qed.
Lemma slope_y T k m : vz (t_P0 T) = k * vy (t_P0 T) + m -> vz (t_P1 T) = k * vy (t_P1 T) + m -> vz (t_P2 T) = k * vy (t_P2 T) + m ->
  vx (t_cross T) * vx (t_cross T) + vy (t_cross T) * vy (t_cross T) = k * k * (plan_area T * plan_area T).
Proof. intros A B C. unfold t_cross, plan_area. vexp. rewrite A, B, C. ring. Qed.


Lemma groove_in angle w d p v : groove_points angle w d = Ok p -> In v p ->
  let h := w * tan (radians angle) / 2 in
  (vz v = 0 /\ (across d v = 0 \/ across d v = w) /\ (along d v = 0 \/ along d v = w)) \/
  (vz v = h /\ across d v = w / 2 /\ (along d v = 0 \/ along d v = 1)).
Proof.
  unfold groove_points. destruct d; intros E; try discriminate; injection E as <-; cbn [zip3 combine map2 fst snd In];
    intros I; repeat (destruct I as [<-|I]); try (now destruct I); cbn; auto 10.
Qed.

Lemma groove_profile angle w d p : 0 < w -> groove_points angle w d = Ok p ->
  forall v, In v p -> vz v = tan (radians angle) * Rmin (across d v) (w - across d v).
Proof.
  intros HW E v I. destruct (groove_in _ _ _ _ _ E I) as [(-> & [->| ->] & _)|(-> & -> & _)].
  - rewrite Rmin_left by lra. ring.
  - rewrite Rmin_right by lra. ring.
  - rewrite Rmin_left by lra. field.
Qed.

Lemma groove_facets angle w d p T : 0 < angle < 90 -> 0 < w -> groove_points angle w d = Ok p ->
  spanned_by p T -> plan_area T <> 0 ->
  (forall v, vertex_of T v -> across d v <= w / 2) \/ (forall v, vertex_of T v -> w / 2 <= across d v) ->
  inclined T (radians angle).
Proof.
  intros HA HW E (S0 & S1 & S2) P H. apply inclined_of; [now apply radians_cos | exact P|].
  assert (Pr := groove_profile _ _ _ _ HW E).
  set (t := tan (radians angle)) in *.
  destruct H as [H|H].
  - assert (L : forall v, In v p -> vertex_of T v -> vz v = t * across d v + 0).
    { intros v I V. rewrite (Pr v I). specialize (H v V). rewrite Rmin_left by lra. ring. }
    assert (A0 := L _ S0 (or_introl eq_refl)). assert (A1 := L _ S1 (or_intror (or_introl eq_refl))). assert (A2 := L _ S2 (or_intror (or_intror eq_refl))).
    destruct d; cbn [across] in *; [eapply slope_y | eapply slope_x | eapply slope_x]; eassumption.
  - assert (L : forall v, In v p -> vertex_of T v -> vz v = - t * across d v + t * w).
    { intros v I V. rewrite (Pr v I). specialize (H v V). rewrite Rmin_right by lra. ring. }
    assert (A0 := L _ S0 (or_introl eq_refl)). assert (A1 := L _ S1 (or_intror (or_introl eq_refl))). assert (A2 := L _ S2 (or_intror (or_intror eq_refl))).
    replace (t * t) with (- t * - t) by ring.
    destruct d; cbn [across] in *; [eapply slope_y | eapply slope_x | eapply slope_x]; eassumption.
Qed.


Lemma groove_max angle w d p : 0 < w -> groove_points angle w d = Ok p -> is_max (map (along d) p) (Rmax w 1).
Proof.
  intros HW E. split.
  - unfold groove_points in E. destruct d; try discriminate; injection E as <-; cbn;
      unfold Rmax; destruct (Rle_dec w 1); auto 10.
  - intros x I. apply in_map_iff in I. destruct I as (v & <- & I). pose proof (Rmax_l w 1). pose proof (Rmax_r w 1).
    destruct (groove_in _ _ _ _ _ E I) as [(_ & _ & [->| ->])|(_ & _ & [->| ->])]; lra.
Qed.

Lemma groove_list angle w d p : groove_points angle w d = Ok p ->
  forall a l z, (exists v, In v p /\ across d v = a /\ along d v = l /\ vz v = z) <->
    In (a, l, z) [(0, 0, 0); (w, 0, 0); (0, w, 0); (w, w, 0); (w / 2, 0, w * tan (radians angle) / 2); (w / 2, 1, w * tan (radians angle) / 2)].
Proof.
  intros E a l z. unfold groove_points in E. destruct d; try discriminate; injection E as <-; cbn [zip3 combine map2 fst snd]; split.
  - intros (v & I & <- & <- & <-). cbn [In] in I. repeat (destruct I as [<-|I]); try (now destruct I); cbn; auto 10.
  - intros I. exists (mkv l a z). split; [|now repeat split]. cbn [In] in *. repeat (destruct I as [I|I]); try (now destruct I); injection I as <- <- <-; auto 10.
  - intros (v & I & <- & <- & <-). cbn [In] in I. repeat (destruct I as [<-|I]); try (now destruct I); cbn; auto 10.
  - intros I. exists (mkv a l z). split; [|now repeat split]. cbn [In] in *. repeat (destruct I as [I|I]); try (now destruct I); injection I as <- <- <-; auto 10.
Qed.

Lemma groove_extruded_iff angle w d p : 0 < w -> groove_points angle w d = Ok p -> (extruded d p <-> w = 1).
Proof.
  intros HW E. assert (M := groove_max _ _ _ _ HW E). assert (G := groove_list _ _ _ _ E).
  set (h := w * tan (radians angle) / 2) in *. split.
  - intros X. specialize (X _ M).
    assert (K : forall a z, In (a, 0, z) [(0, 0, 0); (w, 0, 0); (w / 2, 0, h)] -> exists a' z', In (a', Rmax w 1, z') [(0, 0, 0); (w, 0, 0); (0, w, 0); (w, w, 0); (w / 2, 0, h); (w / 2, 1, h)] /\ a' = a /\ z' = z).
    { intros a z I. destruct (proj2 (G a 0 z)) as (v & Iv & A & L & Z); [cbn [In] in *; tauto|].
      destruct (X v Iv L) as (v' & Iv' & L' & A' & Z'). exists a, z. split; [|now split].
      apply G. exists v'. repeat split; congruence. }
    destruct (Rtotal_order w 1) as [H|[H|H]]; [|exact H|]; exfalso.
    + destruct (K 0 0) as (a' & z' & I & -> & ->); [now left|]. rewrite Rmax_right in I by lra.
      cbn [In] in I. repeat (destruct I as [I|I]); try (now destruct I); injection I; intros; lra.
    + destruct (K (w / 2) h) as (a' & z' & I & -> & ->); [cbn; tauto|]. rewrite Rmax_left in I by lra.
      cbn [In] in I. repeat (destruct I as [I|I]); try (now destruct I); injection I; intros; lra.
  - intros W e Me v I L. rewrite (is_max_unique _ _ _ Me M), W, Rmax_left by lra.
    assert (Q : In (across d v, 0, vz v) [(0, 0, 0); (w, 0, 0); (0, w, 0); (w, w, 0); (w / 2, 0, h); (w / 2, 1, h)]).
    { apply G. exists v. now repeat split. }
    assert (R : In (across d v, 1, vz v) [(0, 0, 0); (w, 0, 0); (0, w, 0); (w, w, 0); (w / 2, 0, h); (w / 2, 1, h)]).
    { cbn [In] in Q. repeat (destruct Q as [Q|Q]); try (now destruct Q); assert (Q1 := f_equal snd Q); assert (Q2 := f_equal (fun q => snd (fst q)) Q); assert (Q3 := f_equal (fun q => fst (fst q)) Q); cbn [fst snd] in Q1, Q2, Q3; try (exfalso; lra);
        rewrite <- Q1, <- Q3; cbn [In]; rewrite W; auto 10. }
    apply G in R. destruct R as (v' & Iv' & A & L' & Z). exists v'. now repeat split.
Qed.

(* ---------- height maps ---------- *)

Lemma mesh_nth x y i j : (i < length x)%nat -> (j < length y)%nat ->
  nth (j * length x + i) (mesh_x x y) 0 = nth i x 0 /\ nth (j * length x + i) (mesh_y x y) 0 = nth j y 0.
Proof.
  intros Hi. revert j. induction y as [|b y IH]; intros j Hj; [cbn in Hj; lia|].
  unfold mesh_x, mesh_y in *. cbn [flat_map]. destruct j as [|j].
  - cbn [Nat.mul Nat.add]. rewrite !app_nth1 by (try rewrite map_length; lia).
    split; [reflexivity|]. rewrite nth_map_lt with (da := 0) by lia. reflexivity.
  - rewrite !app_nth2 by (try rewrite map_length; cbn; lia). rewrite map_length.
    replace (S j * length x + i - length x)%nat with (j * length x + i)%nat by (cbn; lia).
    cbn [nth]. apply IH. cbn in Hj. lia.
Qed.

Lemma mesh_length x y : length (mesh_x x y) = (length y * length x)%nat /\ length (mesh_y x y) = (length y * length x)%nat.
Proof.
  unfold mesh_x, mesh_y. induction y as [|b y [A B]]; [now split|]. cbn [flat_map]. rewrite !app_length, A, B, map_length. now split.
Qed.

Lemma concat_nth (z : list (list R)) n r c : (forall row, In row z -> length row = n) -> (r < length z)%nat -> (c < n)%nat ->
  nth (r * n + c) (concat z) 0 = nth c (nth r z []) 0.
Proof.
  revert r. induction z as [|a z IH]; intros r H Hr Hc; [cbn in Hr; lia|]. cbn [concat].
  assert (La := H a (or_introl eq_refl)). destruct r as [|r].
  - cbn [Nat.mul Nat.add nth]. now rewrite app_nth1 by lia.
  - rewrite app_nth2 by (cbn; lia). rewrite La. replace (S r * n + c - n)%nat with (r * n + c)%nat by (cbn; lia).
    cbn [nth]. apply IH; [intros row I; apply H; now right | cbn in Hr; lia | exact Hc].
Qed.

Lemma concat_len (z : list (list R)) n : (forall row, In row z -> length row = n) -> length (concat z) = (length z * n)%nat.
Proof.
  induction z as [|a z IH]; intros H; [reflexivity|]. cbn. rewrite app_length, (H a (or_introl eq_refl)), IH; [reflexivity|].
  intros row I. apply H. now right.
Qed.

Lemma zip3_nth x : forall y z k, (k < length x)%nat -> length y = length x -> length z = length x ->
  nth k (zip3 x y z) v0 = mkv (nth k x 0) (nth k y 0) (nth k z 0).
Proof.
  induction x as [|a x IH]; intros [|b y] [|c z] k Hk Hy Hz; try discriminate; [cbn in Hk; lia|].
  unfold zip3 in *. destruct k as [|k]; [reflexivity|]. cbn [combine map2 nth]. apply IH; cbn in *; lia.
Qed.
Lemma zip3_length x : forall y z, length y = length x -> length z = length x -> length (zip3 x y z) = length x.
Proof.
  induction x as [|a x IH]; intros [|b y] [|c z] Hy Hz; try discriminate; [reflexivity|].
  unfold zip3 in *. cbn. f_equal. apply IH; cbn in *; lia.
Qed.


Lemma heights_nth z nx ny xw yw i j : length z = nx -> (forall row, In row z -> length row = ny) ->
  (i < nx)%nat -> (j < ny)%nat ->
  nth (j * nx + i) (heights_points z nx ny xw yw) v0 =
  mkv (nth i (linspace 0 xw nx) 0) (nth j (linspace 0 yw ny) 0) (nth ((j * nx + i) mod ny) (nth ((j * nx + i) / ny) z []) 0).
Proof.
  intros Hz Hr Hi Hj. unfold heights_points, heights_coords.
  assert (LX : length (linspace 0 xw nx) = nx) by apply linspace_length.
  assert (LY : length (linspace 0 yw ny) = ny) by apply linspace_length.
  destruct (mesh_length (linspace 0 xw nx) (linspace 0 yw ny)) as [L1 L2].
  assert (LC := concat_len z ny Hr). rewrite LX, LY in *.
  rewrite zip3_nth by nia.
  destruct (mesh_nth (linspace 0 xw nx) (linspace 0 yw ny) i j ltac:(lia) ltac:(lia)) as [A B]. rewrite LX in A, B. rewrite A, B.
  f_equal. assert (Hn : ny <> 0%nat) by lia.
  rewrite (Nat.div_mod (j * nx + i) ny Hn) at 1. rewrite (Nat.mul_comm ny). apply concat_nth; [exact Hr| |].
  - rewrite Hz. apply Nat.div_lt_upper_bound; [exact Hn | nia].
  - now apply Nat.mod_upper_bound.
Qed.

Lemma heights_square z n xw yw i j : length z = n -> (forall row, In row z -> length row = n) ->
  (i < n)%nat -> (j < n)%nat ->
  nth (j * n + i) (heights_points z n n xw yw) v0 =
  mkv (nth i (linspace 0 xw n) 0) (nth j (linspace 0 yw n) 0) (nth i (nth j z []) 0).
Proof.
  intros Hz Hr Hi Hj. rewrite heights_nth by assumption. f_equal.
  rewrite Nat.add_comm, Nat.mod_add, Nat.div_add, Nat.mod_small, Nat.div_small by lia. reflexivity.
Qed.

(* ---------- mirrored textures ---------- *)

Lemma xyz_split del x y z cov dist f r : xyz_texture del x y z cov dist = Ok (f, r) ->
  mk_surface del (zip3 x y z) cov dist = Ok f /\ mk_surface del (zip3 x y (map Ropp z)) cov dist = Ok r.
Proof.
  unfold xyz_texture. intros E.
  destruct (mk_surface del (zip3 x y z) cov dist) as [f'|e]; [|discriminate]. cbn [rbind] in E.
  destruct (mk_surface del (zip3 x y (map Ropp z)) cov dist) as [r'|e]; [|discriminate]. cbn [rbind] in E.
  injection E as -> ->. now split.
Qed.

Lemma zip3_opp x : forall y z, zip3 x y (map Ropp z) = mirror_z (zip3 x y z).
Proof.
  induction x as [|a x IH]; intros [|b y] [|c z]; try reflexivity.
  unfold zip3, mirror_z in *. cbn. f_equal. apply IH.
Qed.

Lemma mirror_xy p : map xy (mirror_z p) = map xy p.
Proof. unfold mirror_z. rewrite map_map. reflexivity. Qed.

Lemma filter_map_comm {A B} (f : A -> B) (g : B -> bool) l : filter g (map f l) = map f (filter (fun x => g (f x)) l).
Proof. induction l as [|a l IH]; [reflexivity|]. cbn. rewrite IH. now destruct (g (f a)). Qed.

Lemma find_zcov_mirror p z : find_zcov p = Ok z -> find_zcov (mirror_z p) = Ok (- z).
Proof.
  unfold find_zcov. destruct (xy_cols _ _ (mirror_xy p)) as [X Y]. unfold xs_of, ys_of. rewrite X, Y.
  unfold mirror_z. rewrite filter_map_comm. cbn [set_z vx vy].
  destruct (filter _ p) as [|v l]; [discriminate|]. intros E. injection E as <-. reflexivity.
Qed.
