(* C194, C195: steep pyramids send the light they reflect to their neighbours; reflected and transmitted. *)
From Coq Require Import Reals List Bool ZArith Lra Lia.
From Verif Require Import Base Lib Model_Optics Spec_Optics Proof_Optics Proof_OpticsProps Model_OpticsC Model_RayIface Spec_RayIface Model_Surface Spec_Shallow
  Proof_Shallow Proof_Surface2 Proof_Surface4 Proof_Pyramid Prop_Surface Prop_Shallow Proof_Leak Proof_Steep.
Import ListNotations.
Open Scope R_scope.

(* ---------- C194 ---------- *)

Lemma decide_abs_c n0 n1 th d N side p rnd :
  decide_RT_Fresnel_c n0 n1 th d N side p rnd = decide_RT_Fresnel_c n0 n1 (Rabs th) d N side p rnd.
Proof. unfold decide_RT_Fresnel_c, fresnel_Rc. now rewrite Rabs_Rabsolu. Qed.

(* Upright pyramids steeper than 45 degrees, light straight from above, not on an edge.  If the first facet reflects the ray, there is
   a second interaction, whichever way the decisions are taken. *)
Theorem C194_twice : forall del angle size cov fr re E q n fuel res,
  45 < angle < 90 -> 0 < size -> regular_pyramids del angle size true cov None 0 = Ok (fr, re) -> pyramid_triangulation (su_simp fr) ->
  (forall k, e_surf E k = as_surface fr) -> e_Lx E = size -> e_Ly E = size ->
  straight_at 1 (su_pts fr) size q (mkv 0 0 (-1)) -> clear_of_edges size q ->
  let a := angle * PI / 180 in
  (exists ni nj p, e_dec E = fresnel_decision ni nj p /\ e_rnd E n <= fresnel_R ni nj a p) \/
  (exists ni nj p, e_dec E = fresnel_decision_c ni nj p /\ e_rnd E n <= fresnel_Rc ni nj a p) \/
  (exists ni nj ent, e_dec E = table_decision ni nj ent /\ e_rnd E n <= te_R (ent 1%Z a)) \/
  (exists ni nj ent, e_dec E = table_decision_c ni nj ent /\ e_rnd E n <= te_R (ent 1%Z a)) ->
  single_interface_check fuel E (Some q) (mkv 0 0 (-1)) 1 n = Some (Ok res) -> (S (S n) <= r_nint res)%nat.
Proof.
  intros del angle size cov fr re E q n fuel res H1 H2 H3 H4 H5 H6 H7 H8 H9 a Hd Hres.
  destruct (steep_two del angle size cov fr re E q n H1 H2 H3 H4 H5 H6 H7 H8 H9)
    as (N1 & N2 & d' & th1 & th2 & h2 & U1 & U2 & U' & V1 & T1 & T2 & R1 & D2 & _ & _ & K). fold a in T1, T2.
  assert (E1 : e_dec E 1%Z th1 (mkv 0 0 (-1)) (vscale (IZR 1) N1) (e_rnd E n) = (d', 1%Z, None)).
  { assert (EN : vscale (IZR 1) N1 = N1) by (apply vec_ext; unfold vscale; cbn; ring). rewrite EN.
    destruct Hd as [(ni & nj & p & Ed & Hr)|[(ni & nj & p & Ed & Hr)|[(ni & nj & ent & Ed & Hr)|(ni & nj & ent & Ed & Hr)]]]; rewrite Ed.
    - unfold fresnel_decision. cbn [Z.eqb Pos.eqb]. rewrite decide_abs, T1. unfold decide_RT_Fresnel.
      rewrite (proj2 (Rleb_true _ _) Hr), R1. reflexivity.
    - unfold fresnel_decision_c. cbn [Z.eqb Pos.eqb]. rewrite decide_abs_c, T1. unfold decide_RT_Fresnel_c.
      rewrite (proj2 (Rleb_true _ _) Hr), R1. reflexivity.
    - unfold table_decision, decide_RT_TMM. cbn [Z.eqb Pos.eqb]. rewrite T1. rewrite (proj2 (Rleb_true _ _) Hr), R1. reflexivity.
    - unfold table_decision_c, decide_RT_TMM_c. cbn [Z.eqb Pos.eqb]. rewrite T1. rewrite (proj2 (Rleb_true _ _) Hr), R1. reflexivity. }
  assert (X : exists d2 s2 A2, e_dec E 1%Z th2 d' (vscale (IZR 1) N2) (e_rnd E (S n)) = (d2, s2, A2))
    by (clear K; destruct (e_dec E 1%Z th2 d' (vscale (IZR 1) N2) (e_rnd E (S n))) as [[d2 s2] A2]; eauto).
  destruct X as (d2 & s2 & A2 & E2).
  assert (M : single_interface_check (S (S (S fuel))) E (Some q) (mkv 0 0 (-1)) 1 n = Some (Ok res)).
  { unfold single_interface_check in *. apply (irun_mono _ _ fuel _ _ _ Hres). lia. }
  rewrite (K fuel d2 s2 A2 E1 E2) in M. destruct A2 as [A|].
  - injection M as <-. cbn. lia.
  - apply nint_grows in M. cbn in M. exact M.
Qed.
Print Assumptions C194_twice.

(* The second facet is met at 180 degrees - 3 a: with lookup tables, a ray reflected at the first facet and absorbed at the next is
   recorded there. *)
Theorem C194_second : forall del angle size cov fr re E q n fuel ni nj ent,
  45 < angle < 90 -> 0 < size -> regular_pyramids del angle size true cov None 0 = Ok (fr, re) -> pyramid_triangulation (su_simp fr) ->
  (forall k, e_surf E k = as_surface fr) -> e_Lx E = size -> e_Ly E = size ->
  straight_at 1 (su_pts fr) size q (mkv 0 0 (-1)) -> clear_of_edges size q -> (3 <= fuel)%nat ->
  let a := angle * PI / 180 in let b := Rabs (PI - 3 * a) in
  e_dec E = table_decision ni nj ent -> e_rnd E n <= te_R (ent 1%Z a) ->
  te_R (ent 1%Z b) < e_rnd E (S n) -> te_R (ent 1%Z b) + te_T (ent 1%Z b) < e_rnd E (S n) ->
  exists res, single_interface_check fuel E (Some q) (mkv 0 0 (-1)) 1 n = Some (Ok res) /\
    r_out res = OAbsorbed (te_A (ent 1%Z b)) /\ Rabs (r_loc res) = b /\ r_nint res = S (S n) /\ r_side res = 1%Z.
Proof.
  intros del angle size cov fr re E q n fuel ni nj ent H1 H2 H3 H4 H5 H6 H7 H8 H9 Hf a b Ed Hr Hr1 Hr2.
  destruct (steep_two del angle size cov fr re E q n H1 H2 H3 H4 H5 H6 H7 H8 H9)
    as (N1 & N2 & d' & th1 & th2 & h2 & U1 & U2 & U' & V1 & T1 & T2 & R1 & D2 & _ & _ & K). fold a in T1, T2. fold b in T2.
  assert (E1 : e_dec E 1%Z th1 (mkv 0 0 (-1)) (vscale (IZR 1) N1) (e_rnd E n) = (d', 1%Z, None)).
  { assert (EN : vscale (IZR 1) N1 = N1) by (apply vec_ext; unfold vscale; cbn; ring). rewrite EN, Ed.
    unfold table_decision, decide_RT_TMM. cbn [Z.eqb Pos.eqb]. rewrite T1. rewrite (proj2 (Rleb_true _ _) Hr), R1. reflexivity. }
  assert (E2 : e_dec E 1%Z th2 d' (vscale (IZR 1) N2) (e_rnd E (S n)) = (d', 1%Z, Some (te_A (ent 1%Z b)))).
  { rewrite Ed. unfold table_decision, decide_RT_TMM. cbn [Z.eqb Pos.eqb]. rewrite T2.
    rewrite (proj2 (Rleb_false _ _) Hr1), (proj2 (Rleb_false _ _) Hr2), andb_false_r. reflexivity. }
  destruct fuel as [|[|[|fuel]]]; try lia. rewrite (K fuel _ _ _ E1 E2). eexists. split; [reflexivity|]. cbn. auto.
Qed.
Print Assumptions C194_second.

(* a coating that reflects or absorbs half *)
Definition half_env (s : rtsurf) : env :=
  {| e_surf := fun _ => as_surface s; e_rnd := fun n => match n with O => 1 / 4 | _ => 3 / 4 end; e_xy := fun _ => (0, 0); e_Lx := 1; e_Ly := 1;
     e_dec := table_decision 1 4 (fun _ _ => {| te_R := 1 / 2; te_T := 0; te_A := [1 / 2] |}) |}.

(* 54 degrees, half-way to the corner: reflected once, absorbed at the next pyramid at 18 degrees *)
Example C194_case : exists f r res, regular_pyramids del4 54 1 true None None 0 = Ok (f, r) /\
  single_interface_check 3 (half_env f) (Some (mkv (1 / 2) (1 / 4) 1)) (mkv 0 0 (-1)) 1 0 = Some (Ok res) /\
  r_out res = OAbsorbed [1 / 2] /\ r_nint res = 2%nat /\ Rabs (r_loc res) = PI / 10.
Proof.
  destruct (regular_ok del4 54 1 true None None 0 Rlt_0_1) as (f & r & E). exists f, r.
  destruct (made_simp _ _ _ _ _ _ _ Rlt_0_1 E) as [[l Hl] _].
  assert (HT : pyramid_triangulation (su_simp f)) by (rewrite Hl; exact del4_faces).
  assert (HA : 45 < 54 < 90) by lra. pose proof PI_RGT_0.
  assert (HR : straight_at 1 (su_pts f) 1 (mkv (1 / 2) (1 / 4) 1) (mkv 0 0 (-1))).
  { assert (HA' : 0 < 54 < 90) by lra.
    destruct (made_pyramid _ _ _ _ _ _ _ _ HA' Rlt_0_1 E (or_introl eq_refl)) as (t & Ht & Hp & _).
    cbn [vx vy vz]. split; [cbn; lra|]. split; [cbn; lra|]. split; [|reflexivity].
    assert (T1 : tan (54 * PI / 180) < 2).
    { assert (T3 : tan (54 * PI / 180) < tan (PI / 3)) by (apply tan_increasing; lra). rewrite tan_PI3 in T3.
      assert (sqrt 3 < 2). { replace 2 with (sqrt 4) by (replace 4 with (2 * 2) by ring; apply sqrt_square; lra). apply sqrt_lt_1; lra. } lra. }
    rewrite <- Ht in T1. destruct (Rabs_def2 _ _ T1) as [T2 T3].
    rewrite Hp, pyr_points. intros v Hv. cbn in Hv. cbn [vz].
    destruct Hv as [<-|[<-|[<-|[<-|[<-|[]]]]]]; cbn; lra. }
  assert (HC : clear_of_edges 1 (mkv (1 / 2) (1 / 4) 1)).
  { unfold clear_of_edges. cbn [vx vy]. split; [lra|]. split; [lra|]. split; [rewrite Rabs_right; lra|rewrite Rabs_left; lra]. }
  destruct (C194_second del4 54 1 None f r (half_env f) (mkv (1 / 2) (1 / 4) 1) 0 3 1 4 _ HA Rlt_0_1 E HT (fun _ => eq_refl) eq_refl eq_refl
    HR HC (le_n 3) eq_refl) as (res & K1 & K2 & K3 & K4 & _); [cbn; lra|cbn; lra|cbn; lra|].
  exists res. split; [exact E|]. split; [exact K1|]. split; [exact K2|]. split; [exact K4|]. rewrite K3.
  replace (PI - 3 * (54 * PI / 180)) with (PI / 10) by field. apply Rabs_right. lra.
Qed.

(* ---------- C195 ---------- *)

(* what is reported agrees with the side on which the ray ends *)
Definition outcome_is_side (side : Z) (res : iresult) : Prop :=
  match r_out res with OReflected _ => r_side res = side | OTransmitted _ => r_side res = (- side)%Z | OAbsorbed _ => True end.

(* Gentle textures.  Missing: steeper textures, see below. *)
Theorem C195_gentle_partial : forall E s eta theta side d r n k h fuel ni nj p res,
  pm1 side -> heads side theta d -> 0 <= theta -> 0 <= s -> theta + 3 * s < PI / 2 ->
  2 * eta * cos s < 1 / 10 ^ 9 * cos (theta + 3 * s) -> shallow E s eta -> 0 < ni -> 0 < nj ->
  first_met E r d k h -> (k + 3 <= fuel)%nat -> e_dec E = fresnel_decision ni nj p -> e_rnd E n < 1 ->
  let n0 := if Z.eqb side 1 then ni else nj in let n1 := if Z.eqb side 1 then nj else ni in
  e_rnd E n <= fresnel_R n0 n1 (Rabs (h_theta h)) p \/ n0 <= n1 ->
  single_interface_check fuel E r d side n = Some (Ok res) -> outcome_is_side side res /\
    (e_rnd E n <= fresnel_R n0 n1 (Rabs (h_theta h)) p <-> r_side res = side).
Proof.
  intros E s eta theta side d r n k h fuel ni nj p res H1 H2 H3 H4 H5 H6 H7 H8 H9 H10 H11 H12 H13 n0 n1 H14 H15.
  destruct (C190_fresnel E s eta theta side d r n k h fuel ni nj p H1 H2 H3 H4 H5 H6 H7 H8 H9 H10 H11 H12 H13) as (_ & K1 & K2).
  fold n0 n1 in K1, K2. unfold outcome_is_side.
  destruct (Rle_lt_dec (e_rnd E n) (fresnel_R n0 n1 (Rabs (h_theta h)) p)) as [C|C].
  - destruct (K1 C) as (u & U1 & _ & _ & U2 & _ & _ & U3). rewrite U1 in H15. injection H15 as <-. rewrite U2. tauto.
  - destruct H14 as [H14|H14]; [lra|]. destruct (K2 C H14) as (u & U1 & _ & _ & U2 & _ & _ & U3). rewrite U1 in H15.
    injection H15 as <-. rewrite U2, U3. split; [reflexivity|]. split; [lra|]. destruct H1 as [-> | ->]; discriminate.
Qed.
Print Assumptions C195_gentle_partial.

(* the run of C191_case *)
Example C195_case : exists f r res, regular_pyramids del4 10 1 true None None 0 = Ok (f, r) /\
  single_interface_check 3 (pyr_env f 0) (Some (mkv (1 / 2) (1 / 4) 1)) (mkv 0 0 (-1)) 1 0 = Some (Ok res) /\
  outcome_is_side 1 res.
Proof.
  destruct C191_case as (f & r & res & E & R1 & _ & _). exists f, r, res. split; [exact E|]. split; [exact R1|].
  destruct (made_simp _ _ _ _ _ _ _ Rlt_0_1 E) as [[l Hl] _].
  assert (HT : pyramid_triangulation (su_simp f)) by (rewrite Hl; exact del4_faces).
  assert (HA : 0 < 10 < 30) by lra. assert (PM : pm1 1) by (left; reflexivity). assert (P4 : 0 < 4) by lra. assert (L4 : 1 <= 4) by lra.
  destruct (pyr_setup del4 10 1 true None f r f (pyr_env f 0) 1 1 4 (mkv (1 / 2) (1 / 4) 1) (mkv 0 0 (-1)) 0 3 _
    HA Rlt_0_1 E (or_introl eq_refl) HT (fun _ => eq_refl) eq_refl eq_refl Rlt_0_1 P4 pyr10 PM (low_ray f r E) (le_n 3))
    as (Ha & H3 & He & Hh & Hs & h & Hm & _). replace (3 * (10 * PI / 180)) with (0 + 3 * (10 * PI / 180)) in He by ring.
  exact (proj1 (C195_gentle_partial (pyr_env f 0) _ _ 0 1 (mkv 0 0 (-1)) _ 0 0 h 3 1 4 PolU res PM Hh (Rle_refl 0) (Rlt_le _ _ Ha) H3 He Hs
    Rlt_0_1 P4 Hm (le_n 3) eq_refl Rlt_0_1 (or_intror L4) R1)).
Qed.

(* Upright pyramids with slope 4/3, light straight from above 2e-10 from the border of the cell.  The facet reflects it, the step of
   1e-9 takes it through the neighbouring pyramid, it is reported as transmitted although it never crossed the surface. *)
Theorem C195_edge_refuted : exists angle f r q h res, 45 < angle < 90 /\ regular_pyramids del4 angle 1 true None None 0 = Ok (f, r) /\
  straight_at 1 (su_pts f) 1 q (mkv 0 0 (-1)) /\
  let E := pyr_env f 0 in first_met E (Some q) (mkv 0 0 (-1)) 0 h /\
  single_interface_check 3 E (Some q) (mkv 0 0 (-1)) 1 0 = Some (Ok res) /\ r_nint res = 1%nat /\
  mirror_law (mkv 0 0 (-1)) (r_dir res) (h_N h) /\ r_side res = 1%Z /\ r_out res = OTransmitted (acos (vz (r_dir res))).
Proof.
  destruct leak_made as (angle & f & r & H90 & E & Ht & Hv & Hz). destruct (edge f Ht Hz) as (res & R1 & R2 & R3 & R4 & R5).
  destruct edge_hit as (h & Hh & _ & HN & _).
  exists angle, f, r, edge_from, h, res. split.
  { split; [|lra]. pose proof PI_RGT_0. destruct (Rlt_le_dec 45 angle) as [|K]; [assumption|exfalso].
    pose proof (made_upright _ _ _ _ _ _ E) as HP. destruct (made_simp _ _ _ _ _ _ _ Rlt_0_1 E) as [[l Hl] _]. rewrite Ht, Hl in HP.
    unfold tri_of in HP. rewrite pyr_points in HP. cbn in HP.
    apply (f_equal (fun l => fold_right (fun T x => vz (t_P0 T) + vz (t_P1 T) + vz (t_P2 T) + x) 0 l)) in HP. unfold steep_tris, steep_top, apex in HP. cbn in HP.
    assert (B : angle * PI / 180 <= PI / 4). { assert (0 <= (45 - angle) * PI) by (apply Rmult_le_pos; lra). lra. }
    assert (B0 : 0 < angle * PI) by (apply Rmult_lt_0_compat; lra).
    assert (tan (angle * PI / 180) <= 1).
    { destruct B as [B|B]; [|rewrite B, tan_PI4; lra]. rewrite <- tan_PI4. left. apply tan_increasing; lra. }
    lra. }
  split; [exact E|]. split.
  { split; [unfold edge_from; cbn; lra|]. split; [unfold edge_from; cbn; lra|]. split; [|apply vec_ext; cbn; lra].
    intros v Hin. specialize (Hv v Hin). unfold leak_from in Hv. unfold edge_from. cbn [vz] in *. lra. }
  cbv zeta. split; [split; [lia|]; split; [cbn; rewrite Ht; exact Hh|intros; lia]|].
  split; [exact R1|]. split; [exact R4|]. split.
  { rewrite R3, HN. unfold mirror_law, tang, dot, edge_out, vsub, vscale. cbn [vx vy vz]. split; [field|]. apply vec_ext; cbn [vx vy vz]; field. }
  split; [exact R5|]. rewrite R2, R3, polar_unit; [reflexivity|]. unfold unit, dot, edge_out. cbn. field.
Qed.
Print Assumptions C195_edge_refuted.
