(* A ray reported as leaving a steep texture can have a pyramid ahead of it (C193). *)
From Coq Require Import Reals List ZArith Bool Lia Lra Psatz.
From Verif Require Import Base Lib Model_Optics Spec_Optics Proof_Optics Proof_Geom Proof_OpticsProps Proof_OpticsEx
  Model_RayIface Spec_RayIface Spec_Shallow Model_Surface Proof_Surface Proof_Surface2 Proof_Surface4 Proof_Shallow Proof_Pyramid Prop_Surface.
Import ListNotations.
Open Scope R_scope.

(* upright pyramids of size 1 and slope 4/3 *)
Definition steep_top : vec := apex 1 (2 / 3).
Definition steep_tris : list tri :=
  [ {| t_P0 := mkv 0 0 0; t_P1 := mkv 1 0 0; t_P2 := steep_top |};
    {| t_P0 := mkv 1 0 0; t_P1 := mkv 1 1 0; t_P2 := steep_top |};
    {| t_P0 := mkv 1 1 0; t_P1 := mkv 0 1 0; t_P2 := steep_top |};
    {| t_P0 := mkv 0 1 0; t_P1 := mkv 0 0 0; t_P2 := steep_top |} ].

Definition leak_from : vec := mkv (91 / 100) (2 / 5) (211 / 300).
Definition leak_d : vec := mkv (- 32 / 90) (4 / 9) (- 74 / 90).
Definition leak_at : vec := mkv (3 / 4) (3 / 5) (1 / 3).
Definition leak_out : vec := mkv (8 / 9) (4 / 9) (1 / 9).
Definition leak_q : vec := vadd leak_at (vscale (1 / 10 ^ 9) leak_out).

Ltac tri_coords H :=
  destruct H as (Ht & (u & v & Hu & Hv & Huv & Ep) & _);
  pose proof (f_equal vx Ep) as Ex; pose proof (f_equal vy Ep) as Ey; pose proof (f_equal vz Ep) as Ez;
  unfold leak_q, leak_at, leak_out, leak_from, leak_d, steep_top, apex, translation, tol, vadd, vsub, vscale in *;
  cbn [t_P0 t_P1 t_P2 vx vy vz nth] in *.

Lemma leak_misses w : check_intersect (vadd leak_q (translation 1 1 w)) leak_out steep_tris = None.
Proof.
  rewrite check_intersect_none. intros T t HT HM.
  destruct w as [|[|[|[|w]]]]; [| | | |replace (translation 1 1 (Datatypes.S (Datatypes.S (Datatypes.S (Datatypes.S w))))) with (mkv 0 0 0) in HM by (unfold translation; destruct w; reflexivity)];
    destruct HT as [<-|[<-|[<-|[<-|[]]]]]; tri_coords HM; lra.
Qed.

Lemma leak_misses0 : check_intersect leak_q leak_out steep_tris = None.
Proof.
  replace leak_q with (vadd leak_q (translation 1 1 4)) by (apply vec_ext; unfold vadd, translation; cbn; ring). apply leak_misses.
Qed.

Lemma leak_hit : exists h, check_intersect leak_from leak_d steep_tris = Some h /\ h_point h = leak_at /\
  h_N h = mkv (4 / 5) 0 (3 / 5) /\ 0 <= Rabs (h_theta h) < PI / 2 /\ cos (Rabs (h_theta h)) = 7 / 9.
Proof.
  assert (Ud : unit leak_d) by (unfold unit, dot, leak_d; cbn; field).
  destruct (check_intersect leak_from leak_d steep_tris) as [h|] eqn:Hh.
  2:{ exfalso. rewrite check_intersect_none in Hh.
      apply (Hh {| t_P0 := mkv 1 0 0; t_P1 := mkv 1 1 0; t_P2 := steep_top |} (9 / 20)); [cbn; tauto|].
      split; [lra|]. split; [|unfold dot, cross, vsub, steep_top, apex, leak_d; cbn; lra].
      exists (7 / 20), (1 / 2). unfold tol. split; [lra|]. split; [lra|]. split; [lra|].
      apply vec_ext; unfold vadd, vsub, vscale, leak_from, leak_d, steep_top, apex; cbn [vx vy vz t_P0 t_P1 t_P2]; field. }
  exists h. split; [reflexivity|].
  destruct (sound_nearest _ _ _ _ Ud Hh) as (T & t & HT & Hm & _ & Hp & UN & O1 & O2 & O3 & TH & CT & _).
  assert (K : T = {| t_P0 := mkv 1 0 0; t_P1 := mkv 1 1 0; t_P2 := steep_top |} /\ t = 9 / 20).
  { destruct HT as [<-|[<-|[<-|[<-|[]]]]]; [exfalso|split; [reflexivity|]|exfalso|exfalso]; tri_coords Hm; lra. }
  destruct K as [-> ->]. split.
  { rewrite Hp. apply vec_ext; unfold vadd, vscale, leak_from, leak_d, leak_at; cbn [vx vy vz]; field. }
  assert (EN : h_N h = mkv (4 / 5) 0 (3 / 5)).
  { destruct (h_N h) as [x y z]. unfold unit, dot, cross, vsub, steep_top, apex in *. cbn [vx vy vz t_P0 t_P1 t_P2] in *.
    assert (Y : y = 0) by lra. subst y. assert (X : x = 4 / 3 * z) by lra. subst x.
    assert (Z : 0 < z) by lra. assert (z = 3 / 5) by nra. apply vec_ext; cbn [vx vy vz]; lra. }
  split; [exact EN|]. rewrite EN in CT. unfold dot, leak_d in CT. cbn [vx vy vz] in CT.
  split; [split; [apply Rabs_pos|apply Rabs_def1; lra]|].
  replace (cos (Rabs (h_theta h))) with (cos (h_theta h)) by (unfold Rabs; destruct (Rcase_abs (h_theta h)); [now rewrite cos_neg|reflexivity]).
  rewrite CT, Rabs_left; lra.
Qed.

Definition leak_env (s : rtsurf) : env :=
  {| e_surf := fun _ => as_surface s; e_rnd := fun _ => 0; e_xy := fun _ => (0, 0); e_Lx := 1; e_Ly := 1;
     e_dec := fresnel_decision 1 4 PolU |}.

Lemma leak s : su_tris s = steep_tris -> exists res, single_interface_check 3 (leak_env s) (Some leak_from) leak_d 1 0 = Some (Ok res) /\
  r_out res = OReflected (polar leak_out) /\ r_dir res = leak_out /\ r_nint res = 1%nat /\ ~ free_path (leak_env s) res.
Proof.
  intros Hs. pose proof PI_RGT_0. destruct leak_hit as (h & Hh & Hp & HN & TH & CT).
  assert (Ud : unit leak_d) by (unfold unit, dot, leak_d; cbn; field).
  assert (E1 : vscale (IZR 1) (h_N h) = mkv (4 / 5) 0 (3 / 5)) by (rewrite HN; apply vec_ext; unfold vscale; cbn; ring).
  assert (Ed : e_dec (leak_env s) 1%Z (h_theta h) leak_d (vscale (IZR 1) (h_N h)) (e_rnd (leak_env s) 0) = (leak_out, 1%Z, None)).
  { rewrite E1. set (N := mkv (4 / 5) 0 (3 / 5)). cbn [leak_env e_dec e_rnd]. unfold fresnel_decision. cbn [Z.eqb Pos.eqb].
    rewrite decide_abs.
    assert (UN : unit N) by (unfold unit, dot, N; cbn; field).
    assert (DN : dot leak_d N = - cos (Rabs (h_theta h))) by (rewrite CT; unfold dot, leak_d, N; cbn; field).
    assert (P4 : 0 < 4) by lra.
    pose proof (decide_cases 1 4 (Rabs (h_theta h)) leak_d N 1%Z PolU 0 Rlt_0_1 P4 TH Ud UN DN Rlt_0_1) as K.
    destruct (decide_RT_Fresnel 1 4 (Rabs (h_theta h)) leak_d N 1%Z PolU 0) as [[d' s'] A].
    destruct K as (-> & Hu' & [(_ & -> & [M1 M2])|(X & _)]).
    - f_equal. f_equal. unfold tang in M2. rewrite M1, DN, CT in M2.
      pose proof (f_equal vx M2) as X. pose proof (f_equal vy M2) as Y. pose proof (f_equal vz M2) as Z.
      unfold vsub, vscale, leak_d, N in X, Y, Z. cbn [vx vy vz] in X, Y, Z.
      apply vec_ext; unfold leak_out; cbn [vx vy vz]; lra.
    - exfalso. assert (S1 : 1 * sin (Rabs (h_theta h)) <= 4) by (pose proof (SIN_bound (Rabs (h_theta h))); lra).
      rewrite (proj2 (fresnel_R_cases 1 4 _ PolU Rlt_0_1 P4 TH) S1) in X.
      assert (0 <= calc_R 1 4 (Rabs (h_theta h)) PolU) by (apply calc_R_range; auto; lra). lra. }
  assert (Hm : first_met (leak_env s) (Some leak_from) leak_d 0 h).
  { split; [lia|]. split; [|intros; lia]. cbn. rewrite Hs. exact Hh. }
  change 3%nat with (0 + Datatypes.S 2)%nat.
  rewrite (hits (leak_env s) (Some leak_from) leak_d 1%Z 0 0 h 2 leak_out 1%Z None Hm Ed).
  rewrite Hp. fold leak_q.
  cbn [irun]. unfold istep at 1. cbn [i_r i_d i_side i_checked i_misses i_i1 i_theta i_nint i_ref].
  replace (check_pos (Some leak_q) leak_out (e_surf (leak_env s) 0)) with (@None hit)
    by (cbn [check_pos leak_env e_surf as_surface s_tris]; rewrite Hs; symmetry; apply leak_misses0).
  cbn [negb Nat.ltb Nat.leb]. unfold istep at 1. cbn [i_r i_d i_side i_checked i_misses i_i1 i_theta i_nint i_ref].
  cbn [leak_env e_Lx e_Ly]. set (w := fst (exit_side leak_q leak_out 1 1)).
  replace (check_pos (Some (vadd leak_q (translation 1 1 w))) leak_out (e_surf (leak_env s) 1)) with (@None hit)
    by (cbn [check_pos leak_env e_surf as_surface s_tris]; rewrite Hs; symmetry; apply leak_misses).
  cbn [negb still_inside Z.eqb Pos.eqb andb orb]. rewrite (proj2 (Rltb_false (vz leak_out) 0)) by (unfold leak_out; cbn; lra).
  cbn [andb orb]. eexists. split; [reflexivity|]. cbn [r_out r_dir r_nint r_pos option_map].
  replace (Z.eqb (sgn (vz leak_d)) (sgn (vz leak_out))) with false by (symmetry; apply sgn_opp; unfold leak_d, leak_out; cbn; lra).
  split; [reflexivity|]. split; [reflexivity|]. split; [reflexivity|]. intros F.
  destruct (by_cells_trans 1 1 leak_q _ _ (translation_cells 1 1 leak_q w) (wrap_cells 1 1 _)) as (i & j & Eq).
  apply (F _ (-2 - i)%Z (-1 - j)%Z 0%nat {| t_P0 := mkv 0 1 0; t_P1 := mkv 0 0 0; t_P2 := steep_top |} (54 / 29 - 1 / 10 ^ 9) eq_refl).
  { cbn [leak_env e_surf as_surface s_tris]. rewrite Hs. cbn. tauto. }
  cbn [r_dir leak_env e_Lx e_Ly]. rewrite Eq. split; [lra|]. split.
  - exists (97 / 580), (47 / 58). unfold tol. split; [lra|]. split; [lra|]. split; [lra|]. rewrite !minus_IZR.
    apply vec_ext; unfold leak_q, leak_at, leak_out, vadd, vsub, vscale, steep_top, apex; cbn [vx vy vz t_P0 t_P1 t_P2]; field.
  - unfold dot, cross, vsub, steep_top, apex, leak_out. cbn. lra.
Qed.

Lemma leak_made : exists angle f r, 0 < angle < 90 /\ regular_pyramids del4 angle 1 true None None 0 = Ok (f, r) /\
  su_tris f = steep_tris /\ (forall v, In v (su_pts f) -> vz v < vz leak_from) /\ su_zmin f = 0.
Proof.
  pose proof PI_RGT_0. set (a := atan (4 / 3)). set (ang := a * 180 / PI).
  assert (Ea : ang * PI / 180 = a) by (unfold ang; field; lra).
  assert (A : 0 < a < PI / 2) by (unfold a; split; [rewrite <- atan_0; apply atan_increasing; lra|pose proof (atan_bound (4 / 3)); lra]).
  assert (H90 : 0 < ang < 90).
  { unfold ang. split; [apply Rdiv_lt_0_compat; lra|]. apply (Rmult_lt_reg_r PI); [lra|].
    replace (a * 180 / PI * PI) with (a * 180) by (field; lra). lra. }
  destruct (regular_ok del4 ang 1 true None None 0 Rlt_0_1) as (f & r & E). exists ang, f, r.
  split; [exact H90|]. split; [exact E|].
  destruct (made_simp _ _ _ _ _ _ _ Rlt_0_1 E) as [[l Hl] _].
  pose proof (made_upright _ _ _ _ _ _ E) as HP. rewrite Ea in HP. unfold a in HP. rewrite tan_atan in HP.
  replace (1 * (4 / 3) / 2) with (2 / 3) in HP by field. split.
  - rewrite HP, Hl. unfold tri_of. rewrite pyr_points. reflexivity.
  - destruct (regular_split _ _ _ _ _ _ _ _ _ E) as [Ef _]. cbn zeta in Ef. rewrite pyramid_points_eq, Rmult_1_r in Ef.
    unfold pyramid_height, radians in Ef. rewrite Rmult_1_r, Ea in Ef. unfold a in Ef. rewrite tan_atan in Ef.
    replace (1 * (4 / 3) / 2) with (2 / 3) in Ef by field.
    destruct (mk_tris _ _ _ _ _ Ef) as [Hp _]. split.
    + rewrite Hp, pyr_points. intros v [<-|[<-|[<-|[<-|[<-|[]]]]]]; unfold leak_from, apex; cbn [vz]; lra.
    + unfold mk_surface in Ef. destruct (argmax _) as [hi|]; [|discriminate]. cbn [rbind] in Ef.
      destruct (find_zcov _) as [zc|]; [|discriminate]. cbn [rbind] in Ef. apply (f_equal (fun x => match x with Ok y => su_zmin y | Err _ => 0 end)) in Ef. cbn beta iota in Ef. rewrite <- Ef. cbn [su_zmin]. rewrite pyr_points.
      unfold lmin, zs_of, apex. cbn [map vz fold_left]. repeat (unfold Rmin; destruct Rle_dec); lra.
Qed.

(* ---------- a reflected ray that is reported as transmitted (C195) ---------- *)

Definition edge_from : vec := mkv (1 - 2 / 10 ^ 10) (1 / 2) 1.
Definition edge_out : vec := mkv (24 / 25) 0 (- 7 / 25).
Definition edge_q : vec := vadd (mkv (1 - 2 / 10 ^ 10) (1 / 2) (8 / 3 / 10 ^ 10)) (vscale (1 / 10 ^ 9) edge_out).

Ltac edge_coords H :=
  destruct H as (Ht & (u & v & Hu & Hv & Huv & Ep) & _);
  pose proof (f_equal vx Ep) as Ex; pose proof (f_equal vy Ep) as Ey; pose proof (f_equal vz Ep) as Ez;
  unfold edge_q, edge_out, edge_from, steep_top, apex, translation, tol, vadd, vsub, vscale in *;
  cbn [t_P0 t_P1 t_P2 vx vy vz nth] in *.

Lemma edge_misses w : check_intersect (vadd edge_q (translation 1 1 w)) edge_out steep_tris = None.
Proof.
  rewrite check_intersect_none. intros T t HT HM.
  destruct w as [|[|[|[|w]]]]; [| | | |replace (translation 1 1 (Datatypes.S (Datatypes.S (Datatypes.S (Datatypes.S w))))) with (mkv 0 0 0) in HM by (unfold translation; destruct w; reflexivity)];
    destruct HT as [<-|[<-|[<-|[<-|[]]]]]; edge_coords HM; lra.
Qed.

Lemma edge_misses0 : check_intersect edge_q edge_out steep_tris = None.
Proof.
  replace edge_q with (vadd edge_q (translation 1 1 4)) by (apply vec_ext; unfold vadd, translation; cbn; ring). apply edge_misses.
Qed.

Lemma edge_hit : exists h, check_intersect edge_from (mkv 0 0 (-1)) steep_tris = Some h /\
  h_point h = mkv (1 - 2 / 10 ^ 10) (1 / 2) (8 / 3 / 10 ^ 10) /\
  h_N h = mkv (4 / 5) 0 (3 / 5) /\ 0 <= Rabs (h_theta h) < PI / 2 /\ cos (Rabs (h_theta h)) = 3 / 5.
Proof.
  assert (Ud : unit (mkv 0 0 (-1))) by (unfold unit, dot; cbn; field).
  destruct (check_intersect edge_from (mkv 0 0 (-1)) steep_tris) as [h|] eqn:Hh.
  2:{ exfalso. rewrite check_intersect_none in Hh.
      apply (Hh {| t_P0 := mkv 1 0 0; t_P1 := mkv 1 1 0; t_P2 := steep_top |} (1 - 8 / 3 / 10 ^ 10)); [cbn; tauto|].
      split; [lra|]. split; [|unfold dot, cross, vsub, steep_top, apex; cbn; lra].
      exists (1 / 2 - 2 / 10 ^ 10), (4 / 10 ^ 10). unfold tol. split; [lra|]. split; [lra|]. split; [lra|].
      apply vec_ext; unfold vadd, vsub, vscale, edge_from, steep_top, apex; cbn [vx vy vz t_P0 t_P1 t_P2]; field. }
  exists h. split; [reflexivity|].
  destruct (sound_nearest _ _ _ _ Ud Hh) as (T & t & HT & Hm & _ & Hp & UN & O1 & O2 & O3 & TH & CT & _).
  assert (K : T = {| t_P0 := mkv 1 0 0; t_P1 := mkv 1 1 0; t_P2 := steep_top |} /\ t = 1 - 8 / 3 / 10 ^ 10).
  { destruct HT as [<-|[<-|[<-|[<-|[]]]]]; [exfalso|split; [reflexivity|]|exfalso|exfalso]; edge_coords Hm; lra. }
  destruct K as [-> ->]. split.
  { rewrite Hp. apply vec_ext; unfold vadd, vscale, edge_from; cbn [vx vy vz]; field. }
  assert (EN : h_N h = mkv (4 / 5) 0 (3 / 5)).
  { destruct (h_N h) as [x y z]. unfold unit, dot, cross, vsub, steep_top, apex in *. cbn [vx vy vz t_P0 t_P1 t_P2] in *.
    assert (Y : y = 0) by lra. subst y. assert (X : x = 4 / 3 * z) by lra. subst x.
    assert (Z : 0 < z) by lra. assert (z = 3 / 5) by nra. apply vec_ext; cbn [vx vy vz]; lra. }
  split; [exact EN|]. rewrite EN in CT. unfold dot in CT. cbn [vx vy vz] in CT.
  split; [split; [apply Rabs_pos|apply Rabs_def1; lra]|].
  rewrite cos_Rabs, CT, Rabs_left; lra.
Qed.

Lemma edge s : su_tris s = steep_tris -> su_zmin s = 0 ->
  exists res, single_interface_check 3 (leak_env s) (Some edge_from) (mkv 0 0 (-1)) 1 0 = Some (Ok res) /\
  r_out res = OTransmitted (polar edge_out) /\ r_dir res = edge_out /\ r_nint res = 1%nat /\ r_side res = 1%Z.
Proof.
  intros Hs Hz. pose proof PI_RGT_0. destruct edge_hit as (h & Hh & Hp & HN & TH & CT). set (down := mkv 0 0 (-1)) in *.
  assert (Ud : unit down) by (unfold unit, dot, down; cbn; field).
  assert (E1 : vscale (IZR 1) (h_N h) = mkv (4 / 5) 0 (3 / 5)) by (rewrite HN; apply vec_ext; unfold vscale; cbn; ring).
  assert (Ed : e_dec (leak_env s) 1%Z (h_theta h) down (vscale (IZR 1) (h_N h)) (e_rnd (leak_env s) 0) = (edge_out, 1%Z, None)).
  { rewrite E1. set (N := mkv (4 / 5) 0 (3 / 5)). cbn [leak_env e_dec e_rnd]. unfold fresnel_decision. cbn [Z.eqb Pos.eqb].
    rewrite decide_abs. assert (UN : unit N) by (unfold unit, dot, N; cbn; field). assert (P4 : 0 < 4) by lra.
    assert (S1 : 1 * sin (Rabs (h_theta h)) <= 4) by (pose proof (SIN_bound (Rabs (h_theta h))); lra).
    assert (R0 : 0 <= fresnel_R 1 4 (Rabs (h_theta h)) PolU).
    { rewrite (proj2 (fresnel_R_cases 1 4 _ PolU Rlt_0_1 P4 TH) S1). apply calc_R_range; auto; lra. }
    unfold decide_RT_Fresnel. rewrite (proj2 (Rleb_true _ _) R0). rewrite normalise_unit by (apply reflect_unit; assumption).
    f_equal. f_equal. apply vec_ext; unfold reflect, edge_out, vsub, vscale, dot, down, N; cbn [vx vy vz]; field. }
  assert (Hm : first_met (leak_env s) (Some edge_from) down 0 h).
  { split; [lia|]. split; [|intros; lia]. cbn. rewrite Hs. exact Hh. }
  change 3%nat with (0 + Datatypes.S 2)%nat.
  rewrite (hits (leak_env s) (Some edge_from) down 1%Z 0 0 h 2 edge_out 1%Z None Hm Ed).
  rewrite Hp. fold edge_q.
  cbn [irun]. unfold istep at 1. cbn [i_r i_d i_side i_checked i_misses i_i1 i_theta i_nint i_ref].
  replace (check_pos (Some edge_q) edge_out (e_surf (leak_env s) 0)) with (@None hit)
    by (cbn [check_pos leak_env e_surf as_surface s_tris]; rewrite Hs; symmetry; apply edge_misses0).
  cbn [negb Nat.ltb Nat.leb]. unfold istep at 1. cbn [i_r i_d i_side i_checked i_misses i_i1 i_theta i_nint i_ref].
  cbn [leak_env e_Lx e_Ly]. set (w := fst (exit_side edge_q edge_out 1 1)).
  replace (check_pos (Some (vadd edge_q (translation 1 1 w))) edge_out (e_surf (leak_env s) 1)) with (@None hit)
    by (cbn [check_pos leak_env e_surf as_surface s_tris]; rewrite Hs; symmetry; apply edge_misses).
  assert (Zq : vz (vadd edge_q (translation 1 1 w)) = - 4 / 3 / 10 ^ 11).
  { assert (Z0 : vz (translation 1 1 w) = 0) by (destruct w as [|[|[|[|w']]]]; try reflexivity; destruct w'; reflexivity).
    unfold vadd at 1. cbn [vz]. rewrite Z0. unfold edge_q, edge_out, vadd, vscale. cbn [vz]. field. }
  cbn [negb still_inside Z.eqb Pos.eqb andb orb leak_env e_surf as_surface s_zmin]. rewrite Zq, Hz.
  rewrite (proj2 (Rltb_false 0 (- 4 / 3 / 10 ^ 11))) by lra. rewrite andb_false_r.
  cbn [orb]. eexists. split; [reflexivity|]. cbn [r_out r_dir r_nint r_pos r_side option_map].
  replace (Z.eqb (sgn (vz down)) (sgn (vz edge_out))) with true by (symmetry; apply sgn_same; unfold down, edge_out; cbn; lra).
  repeat split; reflexivity.
Qed.
