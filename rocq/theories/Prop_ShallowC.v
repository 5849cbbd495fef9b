(* C190, C193 with absorbing media: complex refractive indices. *)
From Coq Require Import Reals List Bool ZArith Lra Lia.
From Verif Require Import Base Lib Model_Optics Spec_Optics Proof_Optics Proof_OpticsProps Model_OpticsC Spec_OpticsC Proof_OpticsC Proof_OpticsC2
  Model_RayIface Spec_RayIface Model_Surface Spec_Shallow Proof_Shallow Proof_Surface2 Proof_Surface4 Proof_Pyramid Prop_Surface
  Prop_Shallow Prop_Steep.
Import ListNotations.
Open Scope R_scope.

(* what the decision does, away from the critical angle *)
Lemma dec_c E side h d n ni nj p : let N := vscale (IZR side) (h_N h) in let x := Rabs (h_theta h) in
  let n0 := if Z.eqb side 1 then ni else nj in let n1 := if Z.eqb side 1 then nj else ni in
  0 < re ni -> 0 < re nj -> e_dec E = fresnel_decision_c ni nj p -> e_rnd E n < 1 -> unit d -> unit N -> dot d N = - cos x ->
  0 <= x < PI / 2 ->
  exists d' s', e_dec E side (h_theta h) d N (e_rnd E n) = (d', s', None) /\ unit d' /\
  ((e_rnd E n <= fresnel_Rc n0 n1 x p /\ s' = side /\ mirror_law d d' N) \/
   (fresnel_Rc n0 n1 x p < e_rnd E n /\ s' = (- side)%Z /\ (re n0 * sin x <> re n1 -> snell_law (re n0) (re n1) d d' N))).
Proof.
  intros N x n0 n1 Hi Hj Hd Hr Hu UN DN TH.
  assert (P0 : 0 < re n0) by (unfold n0; destruct (Z.eqb side 1); auto).
  assert (P1 : 0 < re n1) by (unfold n1; destruct (Z.eqb side 1); auto).
  pose proof (decide_cases_c n0 n1 x d N side p (e_rnd E n) P0 P1 TH Hu UN DN Hr) as K.
  assert (ED : e_dec E side (h_theta h) d N (e_rnd E n) = decide_RT_Fresnel_c n0 n1 x d N side p (e_rnd E n)).
  { rewrite Hd. unfold fresnel_decision_c, n0, n1, x. destruct (Z.eqb side 1); apply decide_abs_c. }
  destruct (decide_RT_Fresnel_c n0 n1 x d N side p (e_rnd E n)) as [[d' s'] A]. destruct K as (-> & Hu' & K).
  exists d', s'. split; [exact ED|]. split; [exact Hu'|]. destruct K as [K|(K1 & K2 & [[_ K]|[K _]])]; [left; exact K| |];
    right; (split; [exact K1|]); (split; [exact K2|]); intros G; [exact K|contradiction].
Qed.

(* ---------- C190 ---------- *)

Theorem C190_absorbing : forall E s eta theta side d r n k h fuel ni nj p,
  pm1 side -> heads side theta d -> 0 <= theta -> 0 <= s -> theta + 3 * s < PI / 2 ->
  2 * eta * cos s < 1 / 10 ^ 9 * cos (theta + 3 * s) -> shallow E s eta -> 0 < re ni -> 0 < re nj ->
  first_met E r d k h -> (k + 3 <= fuel)%nat -> e_dec E = fresnel_decision_c ni nj p -> e_rnd E n < 1 ->
  let N := vscale (IZR side) (h_N h) in let x := Rabs (h_theta h) in
  let n0 := if Z.eqb side 1 then ni else nj in let n1 := if Z.eqb side 1 then nj else ni in
  (e_rnd E n <= fresnel_Rc n0 n1 x p -> exists res, single_interface_check fuel E r d side n = Some (Ok res) /\
     r_nint res = S n /\ r_loc res = h_theta h /\ bounced side (theta + 2 * s) d N res) /\
  (fresnel_Rc n0 n1 x p < e_rnd E n -> re n0 <= re n1 -> exists res, single_interface_check fuel E r d side n = Some (Ok res) /\
     r_nint res = S n /\ r_loc res = h_theta h /\ passed side (theta + 2 * s) (re n0) (re n1) d N res).
Proof.
  intros E s eta theta side d r n k h fuel ni nj p Hs Hh Ht H0 Hsum Heta HE Hi Hj Hk Hf Hd Hr N x n0 n1. pose proof PI_RGT_0.
  destruct (once_facet E s eta theta side d r n k h fuel (re ni) (re nj) Hs Hh Ht H0 Hsum Heta HE Hi Hj Hk Hf) as (UN & VN & DN & TH & TL).
  destruct (dec_c E side h d n ni nj p Hi Hj Hd Hr (proj1 Hh) UN DN TH) as (d' & s' & ED & Hu' & K). fold n0 n1 x N in K, ED.
  assert (P0 : 0 < re n0) by (unfold n0; destruct (Z.eqb side 1); auto).
  split; intros HR.
  - destruct K as [(_ & -> & Hm)|(X & _)]; [|lra].
    apply (bounce E s eta theta side d Hs Hh Ht H0 Hsum Heta HE r n k h fuel d'); auto.
  - intros Hle. destruct K as [(X & _)|(_ & -> & Hm)]; [lra|].
    apply (pass E s eta theta side d Hs Hh Ht H0 Hsum Heta HE r n k h fuel d'); auto. apply Hm.
    assert (sin x < 1) by (replace 1 with (sin (PI / 2)) by apply sin_PI2; apply sin_increasing_1; unfold x; lra). nra.
Qed.
Print Assumptions C190_absorbing.

(* into any medium, y bounds the angle of refraction *)
Theorem C190_absorbing_exit : forall E s eta theta y side d r n k h fuel ni nj p,
  pm1 side -> heads side theta d -> 0 <= theta -> 0 <= s -> theta + s < PI / 2 -> 0 <= y -> y + 2 * s < PI / 2 ->
  2 * eta * cos s < 1 / 10 ^ 9 * cos (y + 2 * s) -> shallow E s eta -> 0 < re ni -> 0 < re nj ->
  first_met E r d k h -> (k + 3 <= fuel)%nat -> e_dec E = fresnel_decision_c ni nj p ->
  let N := vscale (IZR side) (h_N h) in let x := Rabs (h_theta h) in
  let n0 := if Z.eqb side 1 then ni else nj in let n1 := if Z.eqb side 1 then nj else ni in
  re n0 * sin (theta + s) <= re n1 * sin y -> fresnel_Rc n0 n1 x p < e_rnd E n < 1 ->
  exists res, single_interface_check fuel E r d side n = Some (Ok res) /\ r_nint res = S n /\ r_loc res = h_theta h /\
    passed side (y + s) (re n0) (re n1) d N res.
Proof.
  intros E s eta theta y side d r n k h fuel ni nj p Hs Hh Ht H0 Hts Hy Hsum Heta HE Hi Hj Hk Hf Hd N x n0 n1 Hsn [HR Hr].
  assert (E0 : (if Z.eqb side 1 then re ni else re nj) = re n0) by (unfold n0; destruct (Z.eqb side 1); reflexivity).
  assert (E1 : (if Z.eqb side 1 then re nj else re ni) = re n1) by (unfold n1; destruct (Z.eqb side 1); reflexivity).
  rewrite <- E0, <- E1 in Hsn.
  destruct (exit_facts E s eta theta y side d r n k h fuel (re ni) (re nj) Hs Hh Ht H0 Hts Hy Hsum Heta HE Hi Hj Hk Hf Hsn)
    as (UN & VN & DN & TH & P0 & P1 & _ & HL). rewrite E0, E1 in HL.
  destruct (dec_c E side h d n ni nj p Hi Hj Hd Hr (proj1 Hh) UN DN TH) as (d' & s' & ED & Hu' & K). fold n0 n1 x N in K, ED.
  destruct K as [(X & _)|(_ & -> & Hm)]; [lra|]. rewrite <- E0, <- E1 in Hm |- *.
  apply (passes E s eta theta y side d r n k h fuel (re ni) (re nj) Hs Hh Ht H0 Hts Hy Hsum Heta HE Hi Hj Hk Hf Hsn d' ED Hu').
  apply Hm. rewrite E0, E1. unfold x. lra.
Qed.
Print Assumptions C190_absorbing_exit.

(* ---------- C193 ---------- *)

Theorem C193_absorbing_partial : forall E s eta theta side d r n k h fuel ni nj p res,
  pm1 side -> heads side theta d -> 0 <= theta -> 0 <= s -> theta + 3 * s < PI / 2 ->
  2 * eta * cos s < 1 / 10 ^ 9 * cos (theta + 3 * s) -> shallow E s eta -> 0 < re ni -> 0 < re nj ->
  first_met E r d k h -> (k + 3 <= fuel)%nat -> e_dec E = fresnel_decision_c ni nj p -> e_rnd E n < 1 ->
  let n0 := if Z.eqb side 1 then ni else nj in let n1 := if Z.eqb side 1 then nj else ni in
  e_rnd E n <= fresnel_Rc n0 n1 (Rabs (h_theta h)) p \/ re n0 <= re n1 ->
  single_interface_check fuel E r d side n = Some (Ok res) -> free_path E res.
Proof.
  intros E s eta theta side d r n k h fuel ni nj p res Hs Hh Ht H0 Hsum Heta HE Hi Hj Hk Hf Hd Hr n0 n1 Hc Hres. pose proof PI_RGT_0.
  destruct (once_facet E s eta theta side d r n k h fuel (re ni) (re nj) Hs Hh Ht H0 Hsum Heta HE Hi Hj Hk Hf) as (UN & VN & DN & TH & TL).
  destruct (dec_c E side h d n ni nj p Hi Hj Hd Hr (proj1 Hh) UN DN TH) as (d' & s' & ED & Hu' & K). fold n0 n1 in K.
  assert (P0 : 0 < re n0) by (unfold n0; destruct (Z.eqb side 1); auto).
  set (x := Rabs (h_theta h)) in *. set (N := vscale (IZR side) (h_N h)) in *.
  assert (Cx : 0 < cos x) by (apply cos_gt_0; lra).
  assert (L : pm1 s' /\ leaves_within s' (theta + 2 * s) d').
  { destruct K as [(_ & -> & Hm)|(X & -> & Hm)].
    - split; [auto|]. apply (mirrored_within side d d' N theta s Hs Hh UN VN Hu' Hm); lra.
    - destruct Hc as [Hc|Hc]; [lra|]. split; [destruct Hs as [-> | ->]; [right|left]; reflexivity|].
      assert (sin x < 1) by (replace 1 with (sin (PI / 2)) by apply sin_PI2; apply sin_increasing_1; lra).
      apply (refracted_within side d d' N theta s (re n0) (re n1) Hs Hh UN VN Hu'); try lra. apply Hm. nra. }
  destruct L as [L1 L2].
  destruct (leaves_free E s eta r d side n k h fuel d' s' (theta + 2 * s) HE Hk (proj1 Hh) Hf ED) as (res' & R1 & R2); auto; try lra.
  { replace (theta + 2 * s + s) with (theta + 3 * s) by ring. auto. }
  rewrite R1 in Hres. injection Hres as <-. exact R2.
Qed.
Print Assumptions C193_absorbing_partial.

(* ---------- an example ---------- *)

(* silicon-like index 4 + i/2; the draw 0 reflects *)
Definition absorbing_env (s : rtsurf) : env :=
  {| e_surf := fun _ => as_surface s; e_rnd := fun _ => 0; e_xy := fun _ => (0, 0); e_Lx := 1; e_Ly := 1;
     e_dec := fresnel_decision_c (creal 1) (mkc 4 (1 / 2)) PolU |}.

Example C190_absorbing_case : exists f r res, regular_pyramids del4 10 1 true None None 0 = Ok (f, r) /\
  single_interface_check 3 (absorbing_env f) (Some (mkv (1 / 2) (1 / 4) 1)) (mkv 0 0 (-1)) 1 0 = Some (Ok res) /\
  r_out res = OReflected (acos (vz (r_dir res))) /\ r_nint res = 1%nat /\ free_path (absorbing_env f) res.
Proof.
  destruct C191_case as (f & r & _ & E & _ & _). exists f, r.
  destruct (made_simp _ _ _ _ _ _ _ Rlt_0_1 E) as [[l Hl] _].
  assert (HT : pyramid_triangulation (su_simp f)) by (rewrite Hl; exact del4_faces).
  assert (HA : 0 < 10 < 30) by lra. assert (PM : pm1 1) by (left; reflexivity). assert (P4 : 0 < 4) by lra. assert (L4 : 1 <= 4) by lra.
  destruct (pyr_setup del4 10 1 true None f r f (absorbing_env f) 1 1 4 (mkv (1 / 2) (1 / 4) 1) (mkv 0 0 (-1)) 0 3 _
    HA Rlt_0_1 E (or_introl eq_refl) HT (fun _ => eq_refl) eq_refl eq_refl Rlt_0_1 P4 pyr10 PM (low_ray f r E) (le_n 3))
    as (Ha & H3 & He & Hh & Hs & h & Hm & _). replace (3 * (10 * PI / 180)) with (0 + 3 * (10 * PI / 180)) in He by ring.
  assert (R0 : 0 <= fresnel_Rc (creal 1) (mkc 4 (1 / 2)) (Rabs (h_theta h)) PolU).
  { unfold fresnel_Rc. destruct (Rltb _ _); [lra|]. unfold calc_Rc. cbv zeta.
    match goal with |- 0 <= (?a ^ 2 + ?b ^ 2) / 2 => pose proof (pow2_ge_0 a); pose proof (pow2_ge_0 b) end. lra. }
  destruct (C190_absorbing (absorbing_env f) _ _ 0 1 (mkv 0 0 (-1)) _ 0 0 h 3 (creal 1) (mkc 4 (1 / 2)) PolU PM Hh (Rle_refl 0)
    (Rlt_le _ _ Ha) H3 He Hs Rlt_0_1 P4 Hm (le_n 3) eq_refl Rlt_0_1) as [K _]. destruct (K R0) as (res & R1 & R2 & _ & B & _).
  exists res. split; [exact E|]. split; [exact R1|]. split; [exact B|]. split; [exact R2|].
  exact (C193_absorbing_partial (absorbing_env f) _ _ 0 1 (mkv 0 0 (-1)) _ 0 0 h 3 (creal 1) (mkc 4 (1 / 2)) PolU res PM Hh (Rle_refl 0)
    (Rlt_le _ _ Ha) H3 He Hs Rlt_0_1 P4 Hm (le_n 3) eq_refl Rlt_0_1 (or_intror L4) R1).
Qed.
