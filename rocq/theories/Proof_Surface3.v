(* Mirrored surfaces, rough and hemispherical textures, unit cells (C45, C86-C89). *)
From Coq Require Import Reals List Bool ZArith Lra Lia Psatz Permutation.
From Verif Require Import Base Lib Model_Optics Spec_Optics Proof_Optics Model_RayIface Model_Surface Spec_Surface Proof_Surface Proof_Surface2.
Import ListNotations.
Open Scope R_scope.

(* ---------- C45 ---------- *)

Lemma mirror_zs p : zs_of (mirror_z p) = map Ropp (zs_of p).
Proof. unfold zs_of, mirror_z. rewrite !map_map. reflexivity. Qed.

Lemma opp_min l m : is_max l m -> is_min (map Ropp l) (- m).
Proof.
  intros [I L]. split; [now apply in_map|]. intros x H. apply in_map_iff in H. destruct H as (y & <- & H).
  specialize (L y H). lra.
Qed.
Lemma opp_max l m : is_min l m -> is_max (map Ropp l) (- m).
Proof.
  intros [I L]. split; [now apply in_map|]. intros x H. apply in_map_iff in H. destruct H as (y & <- & H).
  specialize (L y H). lra.
Qed.

Lemma mk_range del p cov dist s : mk_surface del p cov dist = Ok s ->
  is_min (zs_of p) (su_zmin s) /\ is_max (zs_of p) (su_zmax s).
Proof.
  unfold mk_surface. intros E.
  destruct (argmax (map Rabs (zs_of p))) as [h|e] eqn:A; [|discriminate]. cbn [rbind] in E.
  destruct (match cov with Some c => Ok c | None => find_zcov p end) as [z|e]; [|discriminate]. cbn [rbind] in E.
  injection E as <-. cbn. assert (zs_of p <> []) by (intros H; rewrite H in A; discriminate).
  split; [now apply lmin_spec | now apply lmax_spec].
Qed.

Lemma C45_all del x y z cov dist f r : xyz_texture del x y z cov dist = Ok (f, r) ->
  Forall2 mirrored (su_pts f) (su_pts r) /\ su_simp r = su_simp f /\
  su_zmin r = - su_zmax f /\ su_zmax r = - su_zmin f /\ su_dist r = su_dist f /\
  (cov = None -> su_zcov r = - su_zcov f) /\ (forall c, cov = Some c -> su_zcov r = c /\ su_zcov f = c).
Proof.
  intros E. destruct (xyz_split _ _ _ _ _ _ _ _ E) as [F R]. rewrite zip3_opp in R.
  destruct (mk_fields _ _ _ _ _ F) as (_ & _ & PF & DF & CF & SF).
  destruct (mk_fields _ _ _ _ _ R) as (_ & _ & PR & DR & CR & SR).
  destruct (mk_range _ _ _ _ _ F) as [F1 F2]. destruct (mk_range _ _ _ _ _ R) as [R1 R2].
  rewrite mirror_zs in R1, R2.
  rewrite PF, PR, SF, SR, mirror_xy, DF, DR.
  split; [apply mirror_mirrored|]. split; [reflexivity|].
  split; [exact (is_min_unique _ _ _ R1 (opp_min _ _ F2))|]. split; [exact (is_max_unique _ _ _ R2 (opp_max _ _ F1))|].
  split; [reflexivity|]. split.
  - intros ->. apply find_zcov_mirror in CF. congruence.
  - intros c ->. now split.
Qed.

(* ---------- rough pyramids ---------- *)

Lemma filter_split {A} (f : A -> bool) l : Permutation l (filter f l ++ filter (fun x => negb (f x)) l).
Proof.
  induction l as [|a l IH]; [constructor|]. cbn. destruct (f a); cbn; [now constructor|].
  eapply perm_trans; [apply perm_skip, IH | apply Permutation_middle].
Qed.

Lemma perm4 {A} (a b c d : list A) : Permutation ((a ++ b) ++ (c ++ d)) (c ++ b ++ d ++ a).
Proof.
  eapply perm_trans; [apply Permutation_app_comm|]. rewrite <- app_assoc. apply Permutation_app_head.
  rewrite (app_assoc d a b). apply Permutation_app_comm.
Qed.

Lemma enumerate_in {A} (l : list A) i x : In (i, x) (enumerate l) -> In x l.
Proof. unfold enumerate. intros H. apply in_combine_r in H. exact H. Qed.

Lemma enumerate_snd {A} (l : list A) : map snd (enumerate l) = l.
Proof.
  unfold enumerate. generalize 0%nat. induction l as [|a l IH]; intros n; [reflexivity|]. cbn. f_equal. apply IH.
Qed.

Lemma quadrant_xy f sg nh rnd c : map xy (quadrant f sg nh rnd c) = c.
Proof.
  unfold quadrant. rewrite map_map. rewrite <- (enumerate_snd c) at 2. apply map_ext. intros [i [a b]]. reflexivity.
Qed.

Lemma quadrant_in f sg nh rnd c v : (forall i, 0 <= rnd i < 1) -> In v (quadrant f sg nh rnd c) ->
  In (vx v, vy v) c /\ exists e, 0 <= e < 1 /\ vz v = sg * (f (vx v, vy v) + nh * e).
Proof.
  intros HR H. unfold quadrant in H. apply in_map_iff in H. destruct H as ([i [a b]] & <- & I). cbn.
  split; [exact (enumerate_in c i _ I)|]. exists (rnd i). split; [apply HR | reflexivity].
Qed.

Lemma flatten_xy size p : map xy (flatten_edges size p) = map xy p.
Proof. unfold flatten_edges. rewrite map_map. apply map_ext. intros v. now destruct (on_edge size v). Qed.

Lemma on_edge_spec size v : on_edge size v = true <-> edge size v.
Proof.
  unfold on_edge, edge. rewrite !orb_true_iff.
  assert (G : forall a b, Reqb a b = true <-> a = b).
  { intros a b. split; [apply Reqb_true|]. intros ->. destruct (Reqb b b) eqn:E; [reflexivity|]. apply Reqb_false in E. congruence. }
  rewrite !G. tauto.
Qed.


Lemma rough_pyramid_all angle size nh upright coords regular rnd :
  (forall k i, 0 <= rnd k i < 1) ->
  let p := rough_pyramid_points angle size nh upright coords regular rnd in
  Permutation (map xy p) (coords ++ (if regular then [] else [(0, 0); (0, size); (size, size); (size, 0)])) /\
  forall v, In v p ->
    (edge size v /\ vz v = 0) \/
    (~ edge size v /\ exists e, 0 <= e < 1 /\
       vz v = (if upright then 1 else -1) * (tan (radians angle) * min4 size v + nh * e)).
Proof.
  intros HR. cbn zeta. unfold rough_pyramid_points. cbn zeta.
  set (D := fun c : R * R => Rleb (fst c) (snd c)). set (A := fun c : R * R => Rleb (snd c) (- fst c + size)).
  set (sg := if upright then 1 else -1).
  set (all := quadrant _ _ _ (rnd 0%nat) _ ++ _).
  assert (PX : Permutation (map xy all) coords).
  { unfold all. rewrite !map_app, !quadrant_xy. symmetry.
    eapply perm_trans; [apply (filter_split D)|].
    eapply perm_trans; [apply Permutation_app; [apply (filter_split A) | apply (filter_split A)]|].
    apply perm4. }
  assert (IN : forall v, In v all -> exists e, 0 <= e < 1 /\ vz v = sg * (tan (radians angle) * min4 size v + nh * e)).
  { intros v I. unfold all in I.
    apply in_app_or in I; destruct I as [I|I]; [|apply in_app_or in I; destruct I as [I|I]; [|apply in_app_or in I; destruct I as [I|I]]];
    apply quadrant_in in I; try apply HR; destruct I as (I & e & He & Z); exists e; (split; [exact He|]); rewrite Z; cbn [fst snd];
    repeat (apply filter_In in I; destruct I as [I ?]); unfold D, A in *; cbn [fst snd] in *; unfold min4;
    repeat match goal with
    | H : negb _ = true |- _ => apply negb_true_iff in H; apply Rleb_false in H
    | H : Rleb _ _ = true |- _ => apply Rleb_true in H
    end.
    - rewrite (Rmin_right (vx v)), (Rmin_left (vy v)) by (try apply Rmin_glb; lra). ring.
    - rewrite (Rmin_right (size - vx v)), (Rmin_right _ (size - vy v)) by (try apply Rmin_glb; lra). ring.
    - rewrite (Rmin_left (size - vx v)), (Rmin_right _ (size - vx v)) by (try apply Rmin_glb; lra). ring.
    - rewrite (Rmin_left (vx v)), (Rmin_left (vx v)) by (try apply Rmin_glb; lra). ring. }
  assert (FL : forall q, (forall v, In v q -> edge size v \/ exists e, 0 <= e < 1 /\ vz v = sg * (tan (radians angle) * min4 size v + nh * e)) ->
     forall v, In v (flatten_edges size q) -> (edge size v /\ vz v = 0) \/
       (~ edge size v /\ exists e, 0 <= e < 1 /\ vz v = sg * (tan (radians angle) * min4 size v + nh * e))).
  { intros q H v I. unfold flatten_edges in I. apply in_map_iff in I. destruct I as (u & E & I).
    destruct (on_edge size u) eqn:O.
    - apply on_edge_spec in O. subst v. left. split; [exact O | reflexivity].
    - subst v. assert (~ edge size u) by (intros Q; apply on_edge_spec in Q; congruence).
      right. split; [assumption|]. destruct (H u I) as [Q|Q]; [contradiction | exact Q]. }
  rewrite flatten_xy. split.
  - destruct regular; [now rewrite app_nil_r|]. rewrite map_app. apply Permutation_app; [exact PX | apply Permutation_refl].
  - apply FL. intros v I. destruct regular; [right; now apply IN|].
    apply in_app_or in I. destruct I as [I|I]; [right; now apply IN|]. left.
    unfold corners in I. cbn [In] in I. unfold edge. repeat (destruct I as [<-|I]); try (now destruct I); cbn; tauto.
Qed.

Lemma rough_planar_all size nh coords regular rnd :
  (forall i, 0 <= rnd i < 1) ->
  let p := rough_planar_points size nh coords regular rnd in
  map xy p = coords ++ (if regular then [] else [(0, 0); (0, size); (size, size); (size, 0)]) /\
  forall v, In v p ->
    (edge size v /\ vz v = 0) \/ (~ edge size v /\ exists e, 0 <= e < 1 /\ vz v = nh * e).
Proof.
  intros HR. cbn zeta. unfold rough_planar_points. cbn zeta. rewrite flatten_xy.
  set (all := map _ (enumerate coords)).
  assert (X : map xy all = coords).
  { unfold all. rewrite map_map. rewrite <- (enumerate_snd coords) at 2. apply map_ext. intros [i [a b]]. reflexivity. }
  split.
  - destruct regular; [now rewrite app_nil_r|]. rewrite map_app, X. reflexivity.
  - intros v I. unfold flatten_edges in I. apply in_map_iff in I. destruct I as (u & E & I).
    destruct (on_edge size u) eqn:O.
    + apply on_edge_spec in O. subst v. left. split; [exact O | reflexivity].
    + subst v. assert (N : ~ edge size u) by (intros Q; apply on_edge_spec in Q; congruence). right. split; [exact N|].
      assert (J : In u all \/ edge size u).
      { destruct regular; [now left|]. apply in_app_or in I. destruct I as [I|I]; [now left|]. right.
        unfold corners in I. cbn [In] in I. unfold edge. repeat (destruct I as [<-|I]); try (now destruct I); cbn; tauto. }
      destruct J as [J|J]; [|contradiction]. unfold all in J. apply in_map_iff in J. destruct J as ([i c] & <- & J).
      exists (rnd i). split; [apply HR | reflexivity].
Qed.

(* ---------- unit cells ---------- *)

Lemma fills_xy p q a b : (forall c, In c (map xy p) <-> In c (map xy q)) -> fills_cell q a b -> fills_cell p a b.
Proof.
  intros H.
  assert (X : forall x, In x (map vx p) <-> In x (map vx q)).
  { intros x. split; intros I; apply in_map_iff in I; destruct I as (v & <- & I); apply (in_map xy), H in I;
      apply in_map_iff in I; destruct I as (u & E & I); injection E as E1 E2; rewrite <- E1; now apply in_map. }
  assert (Y : forall x, In x (map vy p) <-> In x (map vy q)).
  { intros x. split; intros I; apply in_map_iff in I; destruct I as (v & <- & I); apply (in_map xy), H in I;
      apply in_map_iff in I; destruct I as (u & E & I); injection E as E1 E2; rewrite <- E2; now apply in_map. }
  unfold fills_cell, is_min, is_max. rewrite !X, !Y. intros ((A1 & A2) & (B1 & B2) & (C1 & C2) & (D1 & D2)).
  repeat split; try assumption; intros x I; (apply X in I || apply Y in I); auto.
Qed.

Lemma fills_of p a b :
  (forall v, In v p -> 0 <= vx v <= a /\ 0 <= vy v <= b) ->
  (exists v, In v p /\ xy v = (0, 0)) -> (exists v, In v p /\ xy v = (a, b)) -> fills_cell p a b.
Proof.
  intros H (v & Iv & V) (u & Iu & U). injection V as V1 V2. injection U as U1 U2.
  unfold fills_cell, is_min, is_max. repeat split.
  - rewrite <- V1. now apply in_map.
  - intros x I. apply in_map_iff in I. destruct I as (q & <- & I). apply H in I. lra.
  - rewrite <- U1. now apply in_map.
  - intros x I. apply in_map_iff in I. destruct I as (q & <- & I). apply H in I. lra.
  - rewrite <- V2. now apply in_map.
  - intros x I. apply in_map_iff in I. destruct I as (q & <- & I). apply H in I. lra.
  - rewrite <- U2. now apply in_map.
  - intros x I. apply in_map_iff in I. destruct I as (q & <- & I). apply H in I. lra.
Qed.

Lemma fills_coords p (c : list (R * R)) a : (forall q, In q (map xy p) <-> In q c) ->
  (forall q, In q c -> 0 <= fst q <= a /\ 0 <= snd q <= a) -> In (0, 0) c -> In (a, a) c -> fills_cell p a a.
Proof.
  intros H B Z M. apply fills_of.
  - intros v I. apply (in_map xy), H, B in I. exact I.
  - apply H, in_map_iff in Z. destruct Z as (v & E & I). now exists v.
  - apply H, in_map_iff in M. destruct M as (v & E & I). now exists v.
Qed.

Lemma linspace_in a b n x : (2 <= n)%nat -> a <= b -> In x (linspace a b n) -> a <= x <= b.
Proof.
  intros Hn Hab I. apply (In_nth _ _ 0) in I. destruct I as (k & Hk & <-). rewrite linspace_length in Hk.
  rewrite linspace_nth by assumption.
  assert (Q : 0 < INR (n - 1)) by (apply lt_0_INR; lia).
  assert (K : 0 <= INR k <= INR (n - 1)) by (split; [apply pos_INR | apply le_INR; lia]).
  replace (a + INR k * ((b - a) / INR (n - 1))) with (a + (b - a) * (INR k / INR (n - 1))) by (field; lra).
  assert (0 <= INR k / INR (n - 1) <= 1).
  { split; [apply Rmult_le_pos; [lra | apply Rlt_le, Rinv_0_lt_compat, Q]|].
    apply (Rmult_le_reg_r (INR (n - 1))); [exact Q|]. unfold Rdiv. rewrite Rmult_assoc, Rinv_l by lra. lra. }
  nra.
Qed.

Lemma mesh_in x y c : In c (combine (mesh_x x y) (mesh_y x y)) <-> In (fst c) x /\ In (snd c) y.
Proof.
  unfold mesh_x, mesh_y. induction y as [|b y IH]; [cbn; tauto|]. cbn [flat_map].
  assert (CA : forall (l1 l2 : list R) (m1 m2 : list R), length l1 = length m1 -> combine (l1 ++ l2) (m1 ++ m2) = combine l1 m1 ++ combine l2 m2).
  { induction l1 as [|u l1 IHl]; intros l2 [|w m1] m2 L; try discriminate; [reflexivity|]. cbn. f_equal. apply IHl. now injection L. }
  rewrite CA by (now rewrite map_length). rewrite in_app_iff, IH. cbn [In].
  assert (CB : In c (combine x (map (fun _ => b) x)) <-> In (fst c) x /\ b = snd c).
  { clear. induction x as [|a x IH]; [cbn; tauto|]. cbn. rewrite IH. destruct c as [c1 c2]. cbn. split.
    - intros [E|[A B]]; [injection E as <- <-; tauto | tauto].
    - intros [[<-|A] <-]; tauto. }
  rewrite CB. tauto.
Qed.

Lemma grid_in size k c : In c (grid_coords size k) <-> In (fst c) (linspace 0 size k) /\ In (snd c) (linspace 0 size k).
Proof. apply mesh_in. Qed.

Lemma linspace_ends a b n : (2 <= n)%nat -> In a (linspace a b n) /\ In b (linspace a b n).
Proof.
  intros Hn. assert (L := linspace_length a b n). split.
  - assert (I := nth_In (linspace a b n) 0 (n := 0)). rewrite linspace_first in I by lia. apply I. lia.
  - assert (I := nth_In (linspace a b n) 0 (n := n - 1)). rewrite linspace_last in I by lia. apply I. lia.
Qed.

Lemma first_step_ok size k ds : first_step size k = Ok ds -> (2 <= k)%nat /\ ds = size / INR (k - 1).
Proof.
  unfold first_step. intros E.
  assert (L := linspace_length 0 size k).
  destruct (linspace 0 size k) as [|a [|b l]] eqn:Q; try discriminate. cbn in L. split; [lia|].
  injection E as <-.
  assert (A := linspace_nth 0 size k 0 0 ltac:(lia)). assert (B := linspace_nth 0 size k 1 0 ltac:(lia)).
  rewrite Q in A, B. cbn [nth] in A, B. rewrite A, B. cbn [INR]. unfold Rdiv. ring.
Qed.

Lemma grid_bounds size k q : 0 < size -> (2 <= k)%nat -> In q (grid_coords size k) -> 0 <= fst q <= size /\ 0 <= snd q <= size.
Proof. intros HS Hk I. apply grid_in in I. destruct I as [A B]. split; eapply linspace_in; try eassumption; lra. Qed.

Lemma grid_corners size k : (2 <= k)%nat -> In (0, 0) (grid_coords size k) /\ In (size, size) (grid_coords size k).
Proof. intros Hk. destruct (linspace_ends 0 size k Hk). split; apply grid_in; now split. Qed.

Lemma rough_pyramids_cell angle size na n upright regular coords rnd p :
  0 < size -> (forall k i, 0 <= rnd k i < 1) -> (forall q, In q coords -> 0 <= fst q <= size /\ 0 <= snd q <= size) ->
  rough_pyramids angle size na n upright regular coords rnd = Ok p -> fills_cell p size size.
Proof.
  intros HS HR B E. unfold rough_pyramids in E. destruct regular.
  - destruct (first_step size (n_per_side n)) as [ds|e] eqn:F; [|discriminate]. cbn [rbind] in E. injection E as <-.
    destruct (first_step_ok _ _ _ F) as [Hk _]. destruct (grid_corners size _ Hk) as [Z M].
    destruct (rough_pyramid_all angle size (ds * tan na) upright (grid_coords size (n_per_side n)) true rnd HR) as [P _].
    rewrite app_nil_r in P.
    apply (fills_coords _ (grid_coords size (n_per_side n))); try assumption.
    + intros q. split; apply Permutation_in; [exact P | now symmetry].
    + intros q. now apply grid_bounds.
  - injection E as <-.
    destruct (rough_pyramid_all angle size (size / sqrt (INR n) * tan na) upright coords false rnd HR) as [P _].
    eapply fills_coords.
    + intros q. split; apply Permutation_in; [exact P | symmetry; exact P].
    + intros q I. apply in_app_or in I. destruct I as [I|I]; [now apply B|].
      cbn [In] in I. repeat (destruct I as [<-|I]); try (now destruct I); cbn; lra.
    + apply in_or_app. right. cbn. tauto.
    + apply in_or_app. right. cbn. tauto.
Qed.

Lemma rough_planar_cell size na n regular coords rnd p :
  0 < size -> (forall i, 0 <= rnd i < 1) -> (forall q, In q coords -> 0 <= fst q <= size /\ 0 <= snd q <= size) ->
  rough_planar_surface size na n regular coords rnd = Ok p -> fills_cell p size size.
Proof.
  intros HS HR B E. unfold rough_planar_surface in E. destruct regular.
  - destruct (first_step size (n_per_side n)) as [ds|e] eqn:F; [|discriminate]. cbn [rbind] in E. injection E as <-.
    destruct (first_step_ok _ _ _ F) as [Hk _]. destruct (grid_corners size _ Hk) as [Z M].
    destruct (rough_planar_all size (ds * tan na) (grid_coords size (n_per_side n)) true rnd HR) as [P _].
    rewrite app_nil_r in P.
    apply (fills_coords _ (grid_coords size (n_per_side n))); try assumption.
    + intros q. rewrite P. tauto.
    + intros q. now apply grid_bounds.
  - injection E as <-.
    destruct (rough_planar_all size (size / sqrt (INR n) * tan na) coords false rnd HR) as [P _].
    eapply fills_coords.
    + intros q. rewrite P. reflexivity.
    + intros q I. apply in_app_or in I. destruct I as [I|I]; [now apply B|].
      cbn [In] in I. repeat (destruct I as [<-|I]); try (now destruct I); cbn; lra.
    + apply in_or_app. right. cbn. tauto.
    + apply in_or_app. right. cbn. tauto.
Qed.

Lemma planar_cell size : 0 < size -> fills_cell (planar_points size) size size.
Proof.
  intros H. unfold planar_points. rewrite Rmult_1_l. apply fills_of.
  - intros v I. cbn in I. repeat (destruct I as [<-|I]); try (now destruct I); cbn; lra.
  - exists (mkv 0 0 0). split; [now left | reflexivity].
  - exists (mkv size size 0). split; [right; now left | reflexivity].
Qed.
