(* C190-C193: rays meet a gently textured surface once. *)
From Coq Require Import Reals List Bool ZArith Lra Lia.
From Verif Require Import Base Lib Model_Optics Spec_Optics Proof_Optics Model_RayIface Spec_RayIface Model_Surface Spec_Shallow
  Proof_Shallow Proof_Surface2 Proof_Surface4 Proof_Pyramid Prop_Surface Proof_Leak.
Import ListNotations.
Open Scope R_scope.

(* ---------- C190 ---------- *)

(* A ray theta from the vertical, facets tilted by at most s, theta + 3 s below 90 degrees, triangles within eta of a graph with
   slopes up to s: what happens at the facet the ray meets first is all that happens. *)
Theorem C190_fresnel : forall E s eta theta side d r n k h fuel ni nj p,
  pm1 side -> heads side theta d -> 0 <= theta -> 0 <= s -> theta + 3 * s < PI / 2 ->
  2 * eta * cos s < 1 / 10 ^ 9 * cos (theta + 3 * s) -> shallow E s eta -> 0 < ni -> 0 < nj ->
  first_met E r d k h -> (k + 3 <= fuel)%nat -> e_dec E = fresnel_decision ni nj p -> e_rnd E n < 1 ->
  let N := vscale (IZR side) (h_N h) in let x := Rabs (h_theta h) in
  let n0 := if Z.eqb side 1 then ni else nj in let n1 := if Z.eqb side 1 then nj else ni in
  (unit N /\ cos s <= IZR side * vz N /\ dot d N = - cos x /\ 0 <= x < PI / 2) /\
  (e_rnd E n <= fresnel_R n0 n1 x p -> exists res, single_interface_check fuel E r d side n = Some (Ok res) /\
     r_nint res = S n /\ r_loc res = h_theta h /\ bounced side (theta + 2 * s) d N res) /\
  (fresnel_R n0 n1 x p < e_rnd E n -> n0 <= n1 -> exists res, single_interface_check fuel E r d side n = Some (Ok res) /\
     r_nint res = S n /\ r_loc res = h_theta h /\ passed side (theta + 2 * s) n0 n1 d N res).
Proof.
  intros E s eta theta side d r n k h fuel ni nj p H1 H2 H3 H4 H5 H6 H7 H8 H9 H10 H11 H12 H13.
  destruct (once_facet E s eta theta side d r n k h fuel ni nj H1 H2 H3 H4 H5 H6 H7 H8 H9 H10 H11) as (A & B & C & D & _).
  split; [exact (conj A (conj B (conj C D)))|].
  exact (once_fresnel E s eta theta side d r n k h fuel ni nj H1 H2 H3 H4 H5 H6 H7 H8 H9 H10 H11 p H12 H13).
Qed.
Print Assumptions C190_fresnel.

(* the same with looked-up reflection, transmission and absorption *)
Theorem C190_table : forall E s eta theta side d r n k h fuel ni nj ent,
  pm1 side -> heads side theta d -> 0 <= theta -> 0 <= s -> theta + 3 * s < PI / 2 ->
  2 * eta * cos s < 1 / 10 ^ 9 * cos (theta + 3 * s) -> shallow E s eta -> 0 < ni -> 0 < nj ->
  first_met E r d k h -> (k + 3 <= fuel)%nat -> e_dec E = table_decision ni nj ent ->
  let N := vscale (IZR side) (h_N h) in let x := Rabs (h_theta h) in
  let n0 := if Z.eqb side 1 then ni else nj in let n1 := if Z.eqb side 1 then nj else ni in
  n0 <= n1 ->
  let e := ent side x in let u := e_rnd E n in
  exists res, single_interface_check fuel E r d side n = Some (Ok res) /\ r_nint res = S n /\ r_loc res = h_theta h /\
    (u <= te_R e -> bounced side (theta + 2 * s) d N res) /\
    (te_R e < u <= te_R e + te_T e -> passed side (theta + 2 * s) n0 n1 d N res) /\
    (te_R e < u -> te_R e + te_T e < u -> r_out res = OAbsorbed (te_A e)).
Proof.
  intros E s eta theta side d r n k h fuel ni nj ent H1 H2 H3 H4 H5 H6 H7 H8 H9 H10 H11 H12 N x n0 n1 Hn.
  exact (once_table E s eta theta side d r n k h fuel ni nj H1 H2 H3 H4 H5 H6 H7 H8 H9 H10 H11 ent H12 Hn).
Qed.
Print Assumptions C190_table.

(* Transmission into any medium: y bounds the angle of refraction at the facets. *)
Theorem C190_exit : forall E s eta theta y side d r n k h fuel ni nj,
  pm1 side -> heads side theta d -> 0 <= theta -> 0 <= s -> theta + s < PI / 2 -> 0 <= y -> y + 2 * s < PI / 2 ->
  2 * eta * cos s < 1 / 10 ^ 9 * cos (y + 2 * s) -> shallow E s eta -> 0 < ni -> 0 < nj ->
  first_met E r d k h -> (k + 3 <= fuel)%nat ->
  let N := vscale (IZR side) (h_N h) in let x := Rabs (h_theta h) in
  let n0 := if Z.eqb side 1 then ni else nj in let n1 := if Z.eqb side 1 then nj else ni in
  n0 * sin (theta + s) <= n1 * sin y ->
  (exists p, e_dec E = fresnel_decision ni nj p /\ fresnel_R n0 n1 x p < e_rnd E n < 1) \/
  (exists ent, e_dec E = table_decision ni nj ent /\ te_R (ent side x) < e_rnd E n <= te_R (ent side x) + te_T (ent side x)) ->
  exists res, single_interface_check fuel E r d side n = Some (Ok res) /\ r_nint res = S n /\ r_loc res = h_theta h /\
    passed side (y + s) n0 n1 d N res.
Proof.
  intros E s eta theta y side d r n k h fuel ni nj H1 H2 H3 H4 H5 H6 H7 H8 H9 H10 H11 H12 H13 N x n0 n1 H14
    [(p & H15 & H16 & H17)|(ent & H15 & H16)].
  - exact (exit_fresnel E s eta theta y side d r n k h fuel ni nj H1 H2 H3 H4 H5 H6 H7 H8 H9 H10 H11 H12 H13 H14 p H15 H17 H16).
  - exact (exit_table E s eta theta y side d r n k h fuel ni nj H1 H2 H3 H4 H5 H6 H7 H8 H9 H10 H11 H12 H13 H14 ent H15 H16).
Qed.
Print Assumptions C190_exit.

Definition pyr_env (s : rtsurf) (u : R) : env :=
  {| e_surf := fun _ => as_surface s; e_rnd := fun _ => u; e_xy := fun _ => (0, 0); e_Lx := 1; e_Ly := 1;
     e_dec := fresnel_decision 1 4 PolU |}.

Lemma del4_faces : pyramid_triangulation (del4 []).
Proof.
  split.
  - intros t [<-|[<-|[<-|[<-|[]]]]]; [exists (0, 2)%nat|exists (2, 4)%nat|exists (4, 3)%nat|exists (3, 0)%nat]; cbn; tauto.
  - intros ij [<-|[<-|[<-|[<-|[]]]]];
      [exists (0, 2, 1)%nat|exists (2, 4, 1)%nat|exists (4, 3, 1)%nat|exists (3, 0, 1)%nat]; cbn; tauto.
Qed.

Lemma pyr10 : 12 / 10 * 1 * sin (10 * PI / 180) < cos (3 * (10 * PI / 180)).
Proof.
  pose proof PI_RGT_0. pose proof PI_4. assert (sin (10 * PI / 180) < 10 * PI / 180) by (apply sin_lt_x; lra).
  replace (3 * (10 * PI / 180)) with (PI / 6) by field. rewrite cos_PI6.
  assert (1 <= sqrt 3) by (rewrite <- sqrt_1; apply sqrt_le_1; lra). lra.
Qed.

Lemma low_ray f r : regular_pyramids del4 10 1 true None None 0 = Ok (f, r) ->
  straight_at 1 (su_pts f) 1 (mkv (1 / 2) (1 / 4) 1) (mkv 0 0 (-1)).
Proof.
  intros E. assert (HA : 0 < 10 < 90) by lra.
  destruct (made_pyramid _ _ _ _ _ _ _ _ HA Rlt_0_1 E (or_introl eq_refl)) as (t & Ht & Hp & _).
  cbn [vx vy vz]. split; [cbn; lra|]. split; [cbn; lra|]. split; [|reflexivity].
  pose proof PI_RGT_0. assert (T1 : tan (10 * PI / 180) < 1) by (rewrite <- tan_PI4; apply tan_increasing; lra).
  rewrite <- Ht in T1. destruct (Rabs_def2 _ _ T1) as [T2 T3].
  rewrite Hp, pyr_points. intros v Hv. cbn in Hv. cbn [vz].
  destruct Hv as [<-|[<-|[<-|[<-|[<-|[]]]]]]; cbn; lra.
Qed.

(* pyramids of 10 degrees and size 1, a ray from above over a face *)
Example C190_case : exists f r h, regular_pyramids del4 10 1 true None None 0 = Ok (f, r) /\
  let E := pyr_env f (1 / 2) in let s := 10 * PI / 180 in let eta := 6 * tol * 1 * tan s in
  heads 1 0 (mkv 0 0 (-1)) /\ 0 < s /\ 0 + 3 * s < PI / 2 /\ 2 * eta * cos s < 1 / 10 ^ 9 * cos (0 + 3 * s) /\ shallow E s eta /\
  first_met E (Some (mkv (1 / 2) (1 / 4) 1)) (mkv 0 0 (-1)) 0 h /\ vz (h_N h) = cos s.
Proof.
  destruct (regular_ok del4 10 1 true None None 0 Rlt_0_1) as (f & r & E). exists f, r.
  destruct (made_simp _ _ _ _ _ _ _ Rlt_0_1 E) as [[l Hl] _].
  assert (HT : pyramid_triangulation (su_simp f)) by (rewrite Hl; exact del4_faces).
  assert (HA : 0 < 10 < 30) by lra. assert (PM : pm1 1) by (left; reflexivity). assert (P4 : 0 < 4) by lra.
  destruct (pyr_setup del4 10 1 true None f r f (pyr_env f (1 / 2)) 1 1 4 (mkv (1 / 2) (1 / 4) 1) (mkv 0 0 (-1)) 0 3 _
    HA Rlt_0_1 E (or_introl eq_refl) HT (fun _ => eq_refl) eq_refl eq_refl Rlt_0_1 P4 pyr10 PM (low_ray f r E) (le_n 3))
    as (Ha & H3 & He & Hh & Hs & h & Hm & HV). replace (3 * (10 * PI / 180)) with (0 + 3 * (10 * PI / 180)) in He by ring.
  exists h. cbv zeta. do 7 (split; auto). rewrite <- HV. unfold vscale. cbn. ring.
Qed.

(* ---------- C191 ---------- *)

(* Regular pyramids below 30 degrees, not too large in the unit of length, seen from straight above or below: the local angle is
   the angle of the pyramids, a reflected ray leaves at twice that angle, a transmitted ray is turned by Snell's law at the facet. *)
Theorem C191_pyramids : forall del angle size upright cov fr re srf E side ni nj q d n fuel p,
  0 < angle < 30 -> 0 < size ->
  regular_pyramids del angle size upright cov None 0 = Ok (fr, re) -> srf = fr \/ srf = re -> pyramid_triangulation (su_simp srf) ->
  (forall k, e_surf E k = as_surface srf) -> e_Lx E = size -> e_Ly E = size -> 0 < ni -> 0 < nj ->
  let a := angle * PI / 180 in
  12 / 10 * size * sin a < cos (3 * a) -> pm1 side -> straight_at side (su_pts srf) size q d -> (3 <= fuel)%nat ->
  e_dec E = fresnel_decision ni nj p -> e_rnd E n < 1 ->
  let n0 := if Z.eqb side 1 then ni else nj in let n1 := if Z.eqb side 1 then nj else ni in
  (e_rnd E n <= fresnel_R n0 n1 a p -> exists res, single_interface_check fuel E (Some q) d side n = Some (Ok res) /\
     r_nint res = S n /\ Rabs (r_loc res) = a /\ r_out res = OReflected (acos (vz (r_dir res))) /\ r_side res = side /\
     unit (r_dir res) /\ IZR side * vz (r_dir res) = cos (2 * a)) /\
  (fresnel_R n0 n1 a p < e_rnd E n -> n0 <= n1 -> exists res b, single_interface_check fuel E (Some q) d side n = Some (Ok res) /\
     r_nint res = S n /\ Rabs (r_loc res) = a /\ r_out res = OTransmitted (acos (vz (r_dir res))) /\ r_side res = (- side)%Z /\
     unit (r_dir res) /\ n0 * sin a = n1 * sin b /\ 0 <= b <= a /\ IZR side * vz (r_dir res) = - cos (a - b)).
Proof.
  intros del angle size upright cov fr re srf E side ni nj q d n fuel p H1 H2 H3 H4 H5 H6 H7 H8 H9 H10 a H11 H12 H13 H14 H15 H16.
  exact (pyramids_once del angle size upright cov fr re srf E side ni nj q d n fuel _ H1 H2 H3 H4 H5 H6 H7 H8 H9 H10 H11 H12 H13 H14 p eq_refl H15 H16).
Qed.
Print Assumptions C191_pyramids.

(* pyramids of 10 degrees in glass-like material under air, a ray that is sent back *)
Example C191_case : exists f r res, regular_pyramids del4 10 1 true None None 0 = Ok (f, r) /\
  single_interface_check 3 (pyr_env f 0) (Some (mkv (1 / 2) (1 / 4) 1)) (mkv 0 0 (-1)) 1 0 = Some (Ok res) /\
  r_nint res = 1%nat /\ vz (r_dir res) = cos (PI / 9).
Proof.
  destruct (regular_ok del4 10 1 true None None 0 Rlt_0_1) as (f & r & E). exists f, r.
  destruct (made_simp _ _ _ _ _ _ _ Rlt_0_1 E) as [[l Hl] _].
  assert (HT : pyramid_triangulation (su_simp f)) by (rewrite Hl; exact del4_faces).
  assert (HA : 0 < 10 < 30) by lra. assert (PM : pm1 1) by (left; reflexivity). assert (P4 : 0 < 4) by lra.
  destruct (C191_pyramids del4 10 1 true None f r f (pyr_env f 0) 1 1 4 (mkv (1 / 2) (1 / 4) 1) (mkv 0 0 (-1)) 0 3 PolU
    HA Rlt_0_1 E (or_introl eq_refl) HT (fun _ => eq_refl) eq_refl eq_refl Rlt_0_1 P4 pyr10 PM (low_ray f r E) (le_n 3) eq_refl Rlt_0_1)
    as [K _].
  cbn [Z.eqb Pos.eqb] in K. destruct K as (res & R1 & R2 & _ & _ & _ & _ & R3); [|].
  { cbn [pyr_env e_rnd]. pose proof PI_RGT_0. assert (X : 0 <= 10 * PI / 180 < PI / 2) by lra.
    assert (S1 : 1 * sin (10 * PI / 180) <= 4) by (pose proof (SIN_bound (10 * PI / 180)); lra).
    rewrite (proj2 (fresnel_R_cases 1 4 _ PolU Rlt_0_1 P4 X) S1). apply calc_R_range; auto; lra. }
  exists res. split; [exact E|]. split; [exact R1|]. split; [exact R2|]. rewrite Rmult_1_l in R3. rewrite R3. f_equal. field.
Qed.

(* Transmission into a medium of any index, e.g. out of the cell: b is the angle of refraction at the facets. *)
Theorem C191_exit : forall del angle size upright cov fr re srf E side ni nj q d n fuel p b,
  0 < angle < 30 -> 0 < size ->
  regular_pyramids del angle size upright cov None 0 = Ok (fr, re) -> srf = fr \/ srf = re -> pyramid_triangulation (su_simp srf) ->
  (forall k, e_surf E k = as_surface srf) -> e_Lx E = size -> e_Ly E = size -> 0 < ni -> 0 < nj ->
  let a := angle * PI / 180 in
  12 / 10 * size * sin a < cos (b + 2 * a) -> pm1 side -> straight_at side (su_pts srf) size q d -> (3 <= fuel)%nat ->
  let n0 := if Z.eqb side 1 then ni else nj in let n1 := if Z.eqb side 1 then nj else ni in
  0 <= b -> n0 * sin a = n1 * sin b -> b + 2 * a < PI / 2 ->
  e_dec E = fresnel_decision ni nj p -> fresnel_R n0 n1 a p < e_rnd E n < 1 ->
  exists res, single_interface_check fuel E (Some q) d side n = Some (Ok res) /\
    r_nint res = S n /\ Rabs (r_loc res) = a /\ r_out res = OTransmitted (acos (vz (r_dir res))) /\ r_side res = (- side)%Z /\
    unit (r_dir res) /\ IZR side * vz (r_dir res) = - cos (a - b).
Proof.
  intros del angle size upright cov fr re srf E side ni nj q d n fuel p b H1 H2 H3 H4 H5 H6 H7 H8 H9 H10 a H11 H12 H13 H14 n0 n1 H15 H16 H17 H18 [H19 H20].
  exact (pyramids_exit del angle size upright cov fr re srf E side ni nj q d n fuel _ H1 H2 H3 H4 H5 H6 H7 H8 H9 H10 H11 H12 H13 H14
    p b H15 H16 H17 eq_refl H18 H20 H19).
Qed.
Print Assumptions C191_exit.

Definition out_env (s : rtsurf) (n u : R) : env :=
  {| e_surf := fun _ => as_surface s; e_rnd := fun _ => u; e_xy := fun _ => (0, 0); e_Lx := 1; e_Ly := 1;
     e_dec := fresnel_decision 1 n PolU |}.

(* out of a medium of index 2 cos 10 degrees into air, straight up; the light leaves 10 degrees from the vertical *)
Example C191_exit_case : let a := 10 * PI / 180 in let n := 2 * cos a in exists f r u res,
  regular_pyramids del4 10 1 true None None 0 = Ok (f, r) /\
  fresnel_R n 1 a PolU < u < 1 /\
  single_interface_check 3 (out_env f n u) (Some (mkv (1 / 2) (1 / 4) (-1))) (mkv 0 0 1) (-1) 0 = Some (Ok res) /\
  r_nint res = 1%nat /\ r_out res = OTransmitted (acos (cos a)).
Proof.
  intros a n. pose proof PI_RGT_0.
  destruct (regular_ok del4 10 1 true None None 0 Rlt_0_1) as (f & r & E).
  destruct (made_simp _ _ _ _ _ _ _ Rlt_0_1 E) as [[l Hl] _].
  assert (HT : pyramid_triangulation (su_simp f)) by (rewrite Hl; exact del4_faces).
  assert (HA : 0 < 10 < 30) by lra. assert (PM : pm1 (-1)) by (right; reflexivity).
  assert (Ha : 0 < a < PI / 6) by (unfold a; lra).
  assert (Ca : 0 < cos a) by (apply cos_gt_0; lra). assert (Pn : 0 < n) by (unfold n; lra).
  assert (Sn : n * sin a = 1 * sin (2 * a)) by (unfold n; rewrite sin_2a; ring).
  assert (S1 : sin (2 * a) < 1) by (replace 1 with (sin (PI / 2)) by apply sin_PI2; apply sin_increasing_1; lra).
  destruct (fresnel_below_one n 1 a PolU Pn Rlt_0_1 ltac:(lra) ltac:(lra)) as [F0 F1].
  set (u := (fresnel_R n 1 a PolU + 1) / 2). assert (Hu : fresnel_R n 1 a PolU < u < 1) by (unfold u; lra).
  assert (Hsz : 12 / 10 * 1 * sin (10 * PI / 180) < cos (2 * a + 2 * (10 * PI / 180))).
  { fold a. pose proof PI_4. assert (sin a < a) by (apply sin_lt_x; lra).
    assert (cos (PI / 4) < cos (2 * a + 2 * a)) by (apply cos_decreasing_1; unfold a; lra).
    rewrite cos_PI4 in *. assert (S2 : sqrt 2 * sqrt 2 = 2) by (apply sqrt_sqrt; lra).
    assert (0 < sqrt 2) by (apply sqrt_lt_R0; lra). assert (sqrt 2 < 2) by nra.
    assert (1 / 2 < 1 / sqrt 2). { apply Rmult_lt_reg_r with (sqrt 2); auto. unfold Rdiv at 2. rewrite Rmult_assoc, Rinv_l by lra. lra. }
    unfold a in *. lra. }
  assert (Hr : straight_at (-1) (su_pts f) 1 (mkv (1 / 2) (1 / 4) (-1)) (mkv 0 0 1)).
  { assert (H90 : 0 < 10 < 90) by lra.
    destruct (made_pyramid _ _ _ _ _ _ _ _ H90 Rlt_0_1 E (or_introl eq_refl)) as (t & Ht & Hp & _).
    split; [cbn; lra|]. split; [cbn; lra|]. split; [|apply vec_ext; cbn; lra].
    assert (T1 : tan (10 * PI / 180) < 1) by (rewrite <- tan_PI4; apply tan_increasing; lra).
    rewrite <- Ht in T1. destruct (Rabs_def2 _ _ T1) as [T2 T3].
    rewrite Hp, pyr_points. intros v Hv. cbn in Hv. cbn [vz].
    destruct Hv as [<-|[<-|[<-|[<-|[<-|[]]]]]]; cbn; lra. }
  assert (B0 : 0 <= 2 * a) by lra. assert (B2 : 2 * a + 2 * (10 * PI / 180) < PI / 2) by (fold a; unfold a; lra).
  destruct (C191_exit del4 10 1 true None f r f (out_env f n u) (-1) 1 n (mkv (1 / 2) (1 / 4) (-1)) (mkv 0 0 1) 0 3 PolU (2 * a)
    HA Rlt_0_1 E (or_introl eq_refl) HT (fun _ => eq_refl) eq_refl eq_refl Rlt_0_1 Pn Hsz PM Hr (le_n 3) B0 Sn B2 eq_refl Hu)
    as (res & R1 & R2 & _ & R4 & _ & _ & R6).
  exists f, r, u, res. split; [exact E|]. split; [exact Hu|]. split; [exact R1|]. split; [exact R2|]. rewrite R4. f_equal. f_equal.
  fold a in R6. replace (a - 2 * a) with (- a) in R6 by ring. rewrite cos_neg in R6. lra.
Qed.

(* ---------- C192 ---------- *)

(* the texture of 100 um, in um and in units of 100 um *)
Definition unit_env (s : rtsurf) : env :=
  {| e_surf := fun _ => as_surface s; e_rnd := fun n => match n with O => 1 / 4 | _ => 3 / 4 end; e_xy := fun _ => (0, 0);
     e_Lx := 1; e_Ly := 1;
     e_dec := table_decision 1 1 (fun _ _ => {| te_R := 0; te_T := 1 / 2; te_A := [1 / 2] |}) |}.

Lemma quarter : let a := atan (1 / 4) in 0 < a < PI / 6 /\ tan a = 1 / 4 /\ 12 / 10 * 1 * sin a < cos (3 * a).
Proof.
  intros a. pose proof PI_RGT_0. unfold a.
  assert (A0 : 0 < atan (1 / 4)) by (rewrite <- atan_0; apply atan_increasing; lra).
  assert (A3 : atan (1 / 4) < PI / 6).
  { assert (T1 : 0 < tan (PI / 6)) by (apply tan_gt_0; lra).
    assert (T2 : tan (PI / 6) * tan (PI / 6) = 1 / 3).
    { rewrite tan_PI6. replace (1 / sqrt 3 * (1 / sqrt 3)) with (1 / (sqrt 3 * sqrt 3)) by (field; apply Rgt_not_eq, sqrt_lt_R0; lra).
      rewrite sqrt_sqrt; lra. }
    assert (1 / 4 < tan (PI / 6)) by nra.
    assert (atan (1 / 4) < atan (tan (PI / 6))) by (apply atan_increasing; auto). rewrite atan_tan in * by lra. lra. }
  split; [lra|]. split; [apply tan_atan|]. fold a in A0, A3 |- *.
  assert (C : 0 < cos a) by (apply cos_gt_0; lra).
  assert (T : sin a = cos a / 4).
  { assert (X : tan a = 1 / 4) by apply tan_atan. unfold tan in X. apply (Rmult_eq_compat_r (cos a)) in X. field_simplify in X; lra. }
  pose proof (sin2_cos2 a) as Q. unfold Rsqr in Q.
  replace (3 * a) with (2 * a + a) by ring. rewrite cos_plus, cos_2a, sin_2a. rewrite T in *. nra.
Qed.

(* One texture and one ray in two units of length.  Upright pyramids with slope 1/4, indices 1 on both sides, a ray straight down
   10^-10 of the size beside a ridge, the first random number says transmitted.  With size 1 it is transmitted.  With size 100,
   as for 100 um pyramids in um, it is absorbed at a second facet: the intersection test reaches 10^-10 of the size past the ridge,
   more than the 10^-9 by which a ray is moved on. *)
Theorem C192_units_refuted : exists angle f1 r1 f2 r2 q h1 h2 res1 res2,
  regular_pyramids del4 angle 1 true None None 0 = Ok (f1, r1) /\ regular_pyramids del4 angle 100 true None None 0 = Ok (f2, r2) /\
  0 < angle < 30 /\ straight_at 1 (su_pts f1) 1 q (mkv 0 0 (-1)) /\ straight_at 1 (su_pts f2) 100 (vscale 100 q) (mkv 0 0 (-1)) /\
  first_met (unit_env f1) (Some q) (mkv 0 0 (-1)) 0 h1 /\ first_met (ridge_env f2) (Some (vscale 100 q)) (mkv 0 0 (-1)) 0 h2 /\
  single_interface_check 3 (unit_env f1) (Some q) (mkv 0 0 (-1)) 1 0 = Some (Ok res1) /\
  single_interface_check 3 (ridge_env f2) (Some (vscale 100 q)) (mkv 0 0 (-1)) 1 0 = Some (Ok res2) /\
  r_out res1 = OTransmitted (acos (vz (r_dir res1))) /\ r_nint res1 = 1%nat /\
  r_out res2 = OAbsorbed [1 / 2] /\ r_nint res2 = 2%nat.
Proof.
  pose proof PI_RGT_0. destruct quarter as (HA & Ta & Hc). set (a := atan (1 / 4)) in *. set (ang := a * 180 / PI).
  assert (Ea : ang * PI / 180 = a) by (unfold ang; field; lra).
  assert (H30 : 0 < ang < 30).
  { unfold ang. split; [apply Rdiv_lt_0_compat; lra|]. apply (Rmult_lt_reg_r PI); [lra|].
    replace (a * 180 / PI * PI) with (a * 180) by (field; lra). lra. }
  assert (H90 : 0 < ang < 90) by lra.
  assert (HS : 0 < 100) by lra.
  destruct (regular_ok del4 ang 1 true None None 0 Rlt_0_1) as (f1 & r1 & E1).
  destruct (regular_ok del4 ang 100 true None None 0 HS) as (f2 & r2 & E2).
  destruct (made_simp _ _ _ _ _ _ _ Rlt_0_1 E1) as [[l1 Hl1] _].
  destruct (made_simp _ _ _ _ _ _ _ HS E2) as [[l2 Hl2] _].
  assert (HT1 : pyramid_triangulation (su_simp f1)) by (rewrite Hl1; exact del4_faces).
  assert (HT2 : pyramid_triangulation (su_simp f2)) by (rewrite Hl2; exact del4_faces).
  pose proof (made_upright _ _ _ _ _ _ E2) as HP. rewrite Ea, Ta in HP. replace (100 * (1 / 4) / 2) with (25 / 2) in HP by field.
  destruct (ridge f2 HP HT2) as (h2 & Hm2 & res2 & R1 & R2 & R3); [rewrite Hl2; cbn; tauto|rewrite Hl2; cbn; tauto|].
  set (q := mkv (1 / 4 - 1 / 10 ^ 10) (1 / 4) (1 / 5)).
  assert (Q : ridge_q = vscale 100 q) by (apply vec_ext; unfold ridge_q, q, vscale; cbn [vx vy vz]; field).
  assert (S1 : straight_at 1 (su_pts f1) 1 q (mkv 0 0 (-1))).
  { destruct (made_pyramid _ _ _ _ _ _ _ _ H90 Rlt_0_1 E1 (or_introl eq_refl)) as (t & Ht & Hp & _). rewrite Ea, Ta in Ht.
    assert (B : Rabs t < 1 / 3) by lra. destruct (Rabs_def2 _ _ B).
    split; [unfold q; cbn [vx]; lra|]. split; [unfold q; cbn [vy]; lra|]. split; [|reflexivity]. rewrite Hp, pyr_points.
    intros v [<-|[<-|[<-|[<-|[<-|[]]]]]]; unfold q, apex; cbn [vz]; lra. }
  assert (S2 : straight_at 1 (su_pts f2) 100 (vscale 100 q) (mkv 0 0 (-1))).
  { destruct (made_pyramid _ _ _ _ _ _ _ _ H90 HS E2 (or_introl eq_refl)) as (t & Ht & Hp & _). rewrite Ea, Ta in Ht.
    assert (B : Rabs t < 1 / 3) by lra. destruct (Rabs_def2 _ _ B). rewrite <- Q.
    split; [unfold ridge_q; cbn [vx]; lra|]. split; [unfold ridge_q; cbn [vy]; lra|]. split; [|reflexivity]. rewrite Hp, pyr_points.
    intros v [<-|[<-|[<-|[<-|[<-|[]]]]]]; unfold ridge_q, apex; cbn [vz]; lra. }
  assert (PM : pm1 1) by (left; reflexivity). assert (Hc1 : 12 / 10 * 1 * sin (ang * PI / 180) < cos (3 * (ang * PI / 180))) by (rewrite Ea; exact Hc).
  destruct (pyr_setup del4 ang 1 true None f1 r1 f1 (unit_env f1) 1 1 1 q (mkv 0 0 (-1)) 0 3 _
    H30 Rlt_0_1 E1 (or_introl eq_refl) HT1 (fun _ => eq_refl) eq_refl eq_refl Rlt_0_1 Rlt_0_1 Hc1 PM S1 (le_n 3))
    as (Ha & H3 & He & Hh & Hs & h1 & Hm1 & HV). rewrite <- (Rplus_0_l (3 * (ang * PI / 180))) in He.
  destruct (C190_table (unit_env f1) _ _ 0 1 (mkv 0 0 (-1)) (Some q) 0 0 h1 3 1 1 _ PM Hh (Rle_refl 0) (Rlt_le _ _ Ha) H3 He Hs
    Rlt_0_1 Rlt_0_1 Hm1 (le_n 3) eq_refl (Rle_refl 1)) as (res1 & K1 & K2 & _ & _ & K3 & _).
  destruct K3 as (K4 & _); [cbn; lra|].
  exists ang, f1, r1, f2, r2, q, h1, h2, res1, res2. rewrite <- Q in *. repeat (split; [assumption|]). assumption.
Qed.
Print Assumptions C192_units_refuted.

(* In any unit the result is the same as long as the size of the texture stays below the bound of C191.
   Missing: larger sizes. *)
Theorem C192_small_partial : forall del angle upright cov side ni nj p n fuel a s1 f1 r1 E1 q1 s2 f2 r2 E2 q2 d,
  a = angle * PI / 180 -> 0 < angle < 30 -> pm1 side -> 0 < ni -> 0 < nj -> (3 <= fuel)%nat ->
  0 < s1 -> regular_pyramids del angle s1 upright cov None 0 = Ok (f1, r1) -> pyramid_triangulation (su_simp f1) ->
  (forall k, e_surf E1 k = as_surface f1) -> e_Lx E1 = s1 -> e_Ly E1 = s1 -> 12 / 10 * s1 * sin a < cos (3 * a) ->
  straight_at side (su_pts f1) s1 q1 d -> e_dec E1 = fresnel_decision ni nj p ->
  0 < s2 -> regular_pyramids del angle s2 upright cov None 0 = Ok (f2, r2) -> pyramid_triangulation (su_simp f2) ->
  (forall k, e_surf E2 k = as_surface f2) -> e_Lx E2 = s2 -> e_Ly E2 = s2 -> 12 / 10 * s2 * sin a < cos (3 * a) ->
  straight_at side (su_pts f2) s2 q2 d -> e_dec E2 = fresnel_decision ni nj p ->
  e_rnd E1 n = e_rnd E2 n -> e_rnd E1 n < 1 -> (if Z.eqb side 1 then ni <= nj else nj <= ni) ->
  exists res1 res2, single_interface_check fuel E1 (Some q1) d side n = Some (Ok res1) /\
    single_interface_check fuel E2 (Some q2) d side n = Some (Ok res2) /\
    r_out res1 = r_out res2 /\ r_nint res1 = r_nint res2 /\ r_side res1 = r_side res2 /\ Rabs (r_loc res1) = Rabs (r_loc res2).
Proof.
  intros del angle upright cov side ni nj p n fuel a s1 f1 r1 E1 q1 s2 f2 r2 E2 q2 d Ea HA PM Hi Hj Hf
    A1 A2 A3 A4 A5 A6 A7 A8 A9 B1 B2 B3 B4 B5 B6 B7 B8 B9 Hr Hu Hn. subst a.
  destruct (C191_pyramids del angle s1 upright cov f1 r1 f1 E1 side ni nj q1 d n fuel p HA A1 A2 (or_introl eq_refl) A3 A4 A5 A6
    Hi Hj A7 PM A8 Hf A9 Hu) as [K1 K2]. rewrite Hr in Hu, K1, K2.
  destruct (C191_pyramids del angle s2 upright cov f2 r2 f2 E2 side ni nj q2 d n fuel p HA B1 B2 (or_introl eq_refl) B3 B4 B5 B6
    Hi Hj B7 PM B8 Hf B9 Hu) as [L1 L2].
  set (a := angle * PI / 180) in *. set (n0 := if Z.eqb side 1 then ni else nj) in *. set (n1 := if Z.eqb side 1 then nj else ni) in *.
  assert (Hn' : n0 <= n1) by (unfold n0, n1; destruct (Z.eqb side 1); auto).
  assert (P1 : 0 < n1) by (unfold n1; destruct (Z.eqb side 1); auto).
  assert (Hz : forall x y, IZR side * x = IZR side * y -> x = y) by (intros x y; destruct PM as [-> | ->]; lra).
  destruct (Rle_lt_dec (e_rnd E2 n) (fresnel_R n0 n1 a p)) as [C|C].
  - destruct (K1 C) as (u & U1 & U2 & U3 & U4 & U5 & _ & U6). destruct (L1 C) as (v & V1 & V2 & V3 & V4 & V5 & _ & V6).
    exists u, v. rewrite U4, V4, (Hz (vz (r_dir u)) (vz (r_dir v))) by lra. do 2 (split; auto). repeat split; congruence.
  - destruct (K2 C Hn') as (u & b & U1 & U2 & U3 & U4 & U5 & _ & U6 & U7 & U8).
    destruct (L2 C Hn') as (v & c & V1 & V2 & V3 & V4 & V5 & _ & V6 & V7 & V8).
    assert (Hbc : b = c).
    { pose proof PI_RGT_0. assert (a < PI / 2) by (unfold a; nra). assert (X : sin b = sin c) by (apply (Rmult_eq_reg_l n1); lra).
      rewrite <- (asin_sin b), <- (asin_sin c) by lra. now rewrite X. }
    subst c. exists u, v. rewrite U4, V4, (Hz (vz (r_dir u)) (vz (r_dir v))) by lra. do 2 (split; auto). repeat split; congruence.
Qed.
Print Assumptions C192_small_partial.

(* 10 degrees, sizes 1 and 1/2, half-way to the corner *)
Example C192_case : 12 / 10 * 1 * sin (10 * PI / 180) < cos (3 * (10 * PI / 180)) /\
  12 / 10 * (1 / 2) * sin (10 * PI / 180) < cos (3 * (10 * PI / 180)) /\
  exists f r, regular_pyramids del4 10 1 true None None 0 = Ok (f, r) /\ pyramid_triangulation (su_simp f) /\
    straight_at 1 (su_pts f) 1 (mkv (1 / 2) (1 / 4) 1) (mkv 0 0 (-1)).
Proof.
  split; [exact pyr10|]. split.
  { pose proof pyr10. pose proof PI_RGT_0. assert (0 < sin (10 * PI / 180)) by (apply sin_gt_0; lra). lra. }
  destruct (regular_ok del4 10 1 true None None 0 Rlt_0_1) as (f & r & E). exists f, r. split; [exact E|].
  destruct (made_simp _ _ _ _ _ _ _ Rlt_0_1 E) as [[l Hl] _]. split; [rewrite Hl; exact del4_faces|]. exact (low_ray f r E).
Qed.

(* ---------- C193 ---------- *)

(* A ray that has left a gentle texture after one interaction has no part of the periodic surface ahead of it.
   Missing: steeper textures, see below, and transmission into a medium of lower index. *)
Theorem C193_gentle_partial : forall E s eta theta side d r n k h fuel ni nj p res,
  pm1 side -> heads side theta d -> 0 <= theta -> 0 <= s -> theta + 3 * s < PI / 2 ->
  2 * eta * cos s < 1 / 10 ^ 9 * cos (theta + 3 * s) -> shallow E s eta -> 0 < ni -> 0 < nj ->
  first_met E r d k h -> (k + 3 <= fuel)%nat -> e_dec E = fresnel_decision ni nj p -> e_rnd E n < 1 ->
  let n0 := if Z.eqb side 1 then ni else nj in let n1 := if Z.eqb side 1 then nj else ni in
  e_rnd E n <= fresnel_R n0 n1 (Rabs (h_theta h)) p \/ n0 <= n1 ->
  single_interface_check fuel E r d side n = Some (Ok res) -> free_path E res.
Proof.
  intros E s eta theta side d r n k h fuel ni nj p res H1 H2 H3 H4 H5 H6 H7 H8 H9 H10 H11 H12 H13 n0 n1 H14 H15.
  exact (free_fresnel E s eta theta side d r n k h fuel ni nj H1 H2 H3 H4 H5 H6 H7 H8 H9 H10 H11 p res H12 H13 H14 H15).
Qed.
Print Assumptions C193_gentle_partial.

(* the run of C191_case *)
Example C193_case : exists f r res, regular_pyramids del4 10 1 true None None 0 = Ok (f, r) /\
  single_interface_check 3 (pyr_env f 0) (Some (mkv (1 / 2) (1 / 4) 1)) (mkv 0 0 (-1)) 1 0 = Some (Ok res) /\
  free_path (pyr_env f 0) res.
Proof.
  destruct C191_case as (f & r & res & E & R1 & _ & _). exists f, r, res. split; [exact E|]. split; [exact R1|].
  destruct (made_simp _ _ _ _ _ _ _ Rlt_0_1 E) as [[l Hl] _].
  assert (HT : pyramid_triangulation (su_simp f)) by (rewrite Hl; exact del4_faces).
  assert (HA : 0 < 10 < 30) by lra. assert (PM : pm1 1) by (left; reflexivity). assert (P4 : 0 < 4) by lra. assert (L4 : 1 <= 4) by lra.
  destruct (pyr_setup del4 10 1 true None f r f (pyr_env f 0) 1 1 4 (mkv (1 / 2) (1 / 4) 1) (mkv 0 0 (-1)) 0 3 _
    HA Rlt_0_1 E (or_introl eq_refl) HT (fun _ => eq_refl) eq_refl eq_refl Rlt_0_1 P4 pyr10 PM (low_ray f r E) (le_n 3))
    as (Ha & H3 & He & Hh & Hs & h & Hm & _). replace (3 * (10 * PI / 180)) with (0 + 3 * (10 * PI / 180)) in He by ring.
  exact (C193_gentle_partial (pyr_env f 0) _ _ 0 1 (mkv 0 0 (-1)) _ 0 0 h 3 1 4 PolU res PM Hh (Rle_refl 0) (Rlt_le _ _ Ha) H3 He Hs
    Rlt_0_1 P4 Hm (le_n 3) eq_refl Rlt_0_1 (or_intror L4) R1).
Qed.

(* Upright pyramids with slope 4/3 (53 degrees), light from above that is reflected by a facet to (8, 4, 1) / 9.  The next cell is
   crossed between two pyramids, the ray is reported as leaving, and a pyramid two cells further lies in its way. *)
Theorem C193_steep_refuted : exists angle f r q d res, 0 < angle < 90 /\ regular_pyramids del4 angle 1 true None None 0 = Ok (f, r) /\
  unit d /\ vz d < 0 /\ (0 < vx q < 1) /\ (0 < vy q < 1) /\ (forall v, In v (su_pts f) -> vz v < vz q) /\
  let E := pyr_env f 0 in
  single_interface_check 3 E (Some q) d 1 0 = Some (Ok res) /\ r_out res = OReflected (acos (vz (r_dir res))) /\ 0 < vz (r_dir res) /\
  r_nint res = 1%nat /\ ~ free_path E res.
Proof.
  destruct leak_made as (angle & f & r & H90 & E & Ht & Hz & _). destruct (leak f Ht) as (res & R1 & R2 & R3 & R4 & R5).
  exists angle, f, r, leak_from, leak_d, res. split; [exact H90|]. split; [exact E|].
  split; [unfold unit, dot, leak_d; cbn; field|]. split; [unfold leak_d; cbn; lra|].
  split; [unfold leak_from; cbn; lra|]. split; [unfold leak_from; cbn; lra|]. split; [exact Hz|].
  split; [exact R1|]. split; [|split; [rewrite R3; unfold leak_out; cbn; lra|split; [exact R4|exact R5]]].
  rewrite R2, R3, polar_unit; [reflexivity|]. unfold unit, dot, leak_out. cbn. field.
Qed.
Print Assumptions C193_steep_refuted.
