(* C196: inverted pyramids send the light they reflect to another of their facets. *)
From Coq Require Import Reals List Bool ZArith Lra Lia.
From Verif Require Import Base Lib Model_Optics Spec_Optics Proof_Optics Proof_OpticsProps Model_OpticsC Model_RayIface Spec_RayIface Model_Surface Spec_Shallow
  Proof_Shallow Proof_Surface2 Proof_Surface4 Proof_Pyramid Prop_Surface Prop_Shallow Proof_Steep Prop_Steep Proof_Inverted.
Import ListNotations.
Open Scope R_scope.

(* ---------- C196 ---------- *)

(* Inverted pyramids steeper than 45 degrees, light straight from above anywhere off the diagonals.  If the first facet reflects the
   ray, there is a second interaction, whichever way the decisions are taken. *)
Theorem C196_twice : forall del angle size cov fr re E q n fuel res,
  45 < angle < 90 -> 0 < size -> regular_pyramids del angle size false cov None 0 = Ok (fr, re) -> pyramid_triangulation (su_simp fr) ->
  (forall k, e_surf E k = as_surface fr) ->
  straight_at 1 (su_pts fr) size q (mkv 0 0 (-1)) -> clear_of_creases size q ->
  let a := angle * PI / 180 in
  (exists ni nj p, e_dec E = fresnel_decision ni nj p /\ e_rnd E n <= fresnel_R ni nj a p) \/
  (exists ni nj p, e_dec E = fresnel_decision_c ni nj p /\ e_rnd E n <= fresnel_Rc ni nj a p) \/
  (exists ni nj ent, e_dec E = table_decision ni nj ent /\ e_rnd E n <= te_R (ent 1%Z a)) \/
  (exists ni nj ent, e_dec E = table_decision_c ni nj ent /\ e_rnd E n <= te_R (ent 1%Z a)) ->
  single_interface_check fuel E (Some q) (mkv 0 0 (-1)) 1 n = Some (Ok res) -> (S (S n) <= r_nint res)%nat.
Proof.
  intros del angle size cov fr re E q n fuel res H1 H2 H3 H4 H5 H8 H9 a Hd Hres.
  destruct (pit_two del angle size cov fr re E q n H1 H2 H3 H4 H5 H8 H9) as (N1 & d' & th1 & h2 & U1 & U' & T1 & R1 & K). fold a in T1.
  assert (E1 : e_dec E 1%Z th1 (mkv 0 0 (-1)) (vscale (IZR 1) N1) (e_rnd E n) = (d', 1%Z, None)).
  { assert (EN : vscale (IZR 1) N1 = N1) by (apply vec_ext; unfold vscale; cbn; ring). rewrite EN.
    destruct Hd as [(ni & nj & p & Ed & Hr)|[(ni & nj & p & Ed & Hr)|[(ni & nj & ent & Ed & Hr)|(ni & nj & ent & Ed & Hr)]]]; rewrite Ed.
    - unfold fresnel_decision. cbn [Z.eqb Pos.eqb]. rewrite decide_abs, T1. unfold decide_RT_Fresnel.
      rewrite (proj2 (Rleb_true _ _) Hr), R1. reflexivity.
    - unfold fresnel_decision_c. cbn [Z.eqb Pos.eqb]. rewrite decide_abs_c, T1. unfold decide_RT_Fresnel_c.
      rewrite (proj2 (Rleb_true _ _) Hr), R1. reflexivity.
    - unfold table_decision, decide_RT_TMM. cbn [Z.eqb Pos.eqb]. rewrite T1. rewrite (proj2 (Rleb_true _ _) Hr), R1. reflexivity.
    - unfold table_decision_c, decide_RT_TMM_c. cbn [Z.eqb Pos.eqb]. rewrite T1. rewrite (proj2 (Rleb_true _ _) Hr), R1. reflexivity. }
  assert (X : exists d2 s2 A2, e_dec E 1%Z (h_theta h2) d' (vscale (IZR 1) (h_N h2)) (e_rnd E (S n)) = (d2, s2, A2))
    by (clear K; destruct (e_dec E 1%Z (h_theta h2) d' (vscale (IZR 1) (h_N h2)) (e_rnd E (S n))) as [[d2 s2] A2]; eauto).
  destruct X as (d2 & s2 & A2 & E2).
  assert (M : single_interface_check (S (S fuel)) E (Some q) (mkv 0 0 (-1)) 1 n = Some (Ok res)).
  { unfold single_interface_check in *. apply (irun_mono _ _ fuel _ _ _ Hres). lia. }
  rewrite (K fuel d2 s2 A2 E1 E2) in M. destruct A2 as [A|].
  - injection M as <-. cbn. lia.
  - apply nint_grows in M. cbn in M. exact M.
Qed.
Print Assumptions C196_twice.

(* With lookup tables: a ray that is reflected at the first facet and then drawn to be absorbed is absorbed, at its second
   interaction. *)
Theorem C196_absorbed : forall del angle size cov fr re E q n fuel ni nj ent,
  45 < angle < 90 -> 0 < size -> regular_pyramids del angle size false cov None 0 = Ok (fr, re) -> pyramid_triangulation (su_simp fr) ->
  (forall k, e_surf E k = as_surface fr) ->
  straight_at 1 (su_pts fr) size q (mkv 0 0 (-1)) -> clear_of_creases size q -> (2 <= fuel)%nat ->
  e_dec E = table_decision ni nj ent -> e_rnd E n <= te_R (ent 1%Z (angle * PI / 180)) ->
  (forall x, te_R (ent 1%Z x) < e_rnd E (S n) /\ te_R (ent 1%Z x) + te_T (ent 1%Z x) < e_rnd E (S n)) ->
  exists res, single_interface_check fuel E (Some q) (mkv 0 0 (-1)) 1 n = Some (Ok res) /\
    r_out res = OAbsorbed (te_A (ent 1%Z (Rabs (r_loc res)))) /\ r_nint res = S (S n) /\ r_side res = 1%Z.
Proof.
  intros del angle size cov fr re E q n fuel ni nj ent H1 H2 H3 H4 H5 H8 H9 Hf Ed Hr Hx.
  destruct (pit_two del angle size cov fr re E q n H1 H2 H3 H4 H5 H8 H9) as (N1 & d' & th1 & h2 & U1 & U' & T1 & R1 & K).
  assert (E1 : e_dec E 1%Z th1 (mkv 0 0 (-1)) (vscale (IZR 1) N1) (e_rnd E n) = (d', 1%Z, None)).
  { assert (EN : vscale (IZR 1) N1 = N1) by (apply vec_ext; unfold vscale; cbn; ring). rewrite EN, Ed.
    unfold table_decision, decide_RT_TMM. cbn [Z.eqb Pos.eqb]. rewrite T1. rewrite (proj2 (Rleb_true _ _) Hr), R1. reflexivity. }
  destruct (Hx (Rabs (h_theta h2))) as [Hx1 Hx2].
  assert (E2 : e_dec E 1%Z (h_theta h2) d' (vscale (IZR 1) (h_N h2)) (e_rnd E (S n)) = (d', 1%Z, Some (te_A (ent 1%Z (Rabs (h_theta h2)))))).
  { rewrite Ed. unfold table_decision, decide_RT_TMM. cbn [Z.eqb Pos.eqb].
    rewrite (proj2 (Rleb_false _ _) Hx1), (proj2 (Rleb_false _ _) Hx2), andb_false_r. reflexivity. }
  destruct fuel as [|[|fuel]]; try lia. rewrite (K fuel _ _ _ E1 E2). eexists. split; [reflexivity|]. cbn. auto.
Qed.
Print Assumptions C196_absorbed.

(* 54 degrees: reflected once, absorbed at the next facet; the point is on the border of the cell *)
Example C196_case : exists f r res, regular_pyramids del4 54 1 false None None 0 = Ok (f, r) /\
  single_interface_check 2 (half_env f) (Some (mkv (1 / 4) 0 1)) (mkv 0 0 (-1)) 1 0 = Some (Ok res) /\
  r_out res = OAbsorbed [1 / 2] /\ r_nint res = 2%nat.
Proof.
  destruct (regular_ok del4 54 1 false None None 0 Rlt_0_1) as (f & r & E). exists f, r.
  destruct (made_simp _ _ _ _ _ _ _ Rlt_0_1 E) as [[l Hl] _].
  assert (HT : pyramid_triangulation (su_simp f)) by (rewrite Hl; exact del4_faces).
  assert (HA : 45 < 54 < 90) by lra. pose proof PI_RGT_0.
  assert (HR : straight_at 1 (su_pts f) 1 (mkv (1 / 4) 0 1) (mkv 0 0 (-1))).
  { destruct (made_inverted _ _ _ _ _ _ E) as [Hp _]. split; [cbn; lra|]. split; [cbn; lra|]. split; [|reflexivity].
    assert (T0 : 0 < tan (54 * PI / 180)) by (apply tan_gt_0; lra).
    rewrite Hp, pyr_points. intros v Hv. cbn in Hv. cbn [vz].
    destruct Hv as [<-|[<-|[<-|[<-|[<-|[]]]]]]; cbn; lra. }
  assert (HC : clear_of_creases 1 (mkv (1 / 4) 0 1)).
  { unfold clear_of_creases. cbn [vx vy]. rewrite (Rabs_right (1 / 4 - 0)), (Rabs_left (1 / 4 + 0 - 1)) by lra. lra. }
  destruct (C196_absorbed del4 54 1 None f r (half_env f) (mkv (1 / 4) 0 1) 0 2 1 4 _ HA Rlt_0_1 E HT (fun _ => eq_refl)
    HR HC (le_n 2) eq_refl) as (res & K1 & K2 & K3 & _); [cbn; lra|intros; cbn; lra|].
  exists res. split; [exact E|]. split; [exact K1|]. split; [exact K2|exact K3].
Qed.
