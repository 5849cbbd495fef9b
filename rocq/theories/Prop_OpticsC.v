(* C169-C172: surfaces between absorbing media (complex refractive indices). *)
From Coq Require Import Reals List Bool ZArith Lia Lra.
From Verif Require Import Base Lib Model_Optics Model_OpticsC Model_RayIface Spec_Optics Spec_OpticsC
  Proof_Optics Proof_OpticsProps Proof_OpticsC Proof_OpticsC2 Proof_OpticsC3.
Import ListNotations.
Open Scope R_scope.

(* the media on the side light comes from and on the other side *)
Definition from_to (side : Z) (ni nj n0 n1 : cplx) : Prop :=
  (side = 1%Z /\ ni = n0 /\ nj = n1) \/ (side = (-1)%Z /\ ni = n1 /\ nj = n0).

Lemma dec_fresnel side ni nj n0 n1 p th d N rnd : from_to side ni nj n0 n1 ->
  fresnel_decision_c ni nj p side th d N rnd = decide_RT_Fresnel_c n0 n1 th d N side p rnd.
Proof. intros [(-> & -> & ->)|(-> & -> & ->)]; reflexivity. Qed.

Lemma dec_table side ni nj n0 n1 ent th d N rnd : from_to side ni nj n0 n1 ->
  table_decision_c ni nj ent side th d N rnd = decide_RT_TMM_c (ent side (Rabs th)) n0 n1 d N side rnd.
Proof. intros [(-> & -> & ->)|(-> & -> & ->)]; reflexivity. Qed.

Lemma stays_iff side ni nj n0 n1 p th d N rnd : from_to side ni nj n0 n1 ->
  snd (fst (fresnel_decision_c ni nj p side th d N rnd)) = side <-> rnd <= fresnel_Rc n0 n1 th p.
Proof.
  intros F. rewrite (dec_fresnel _ _ _ _ _ _ _ _ _ _ F). unfold decide_RT_Fresnel_c.
  assert (S : (- side)%Z <> side) by (destruct F as [(-> & _)|(-> & _)]; lia).
  destruct (Rleb rnd _) eqn:L; cbn [fst snd]; [apply Rleb_true in L|apply Rleb_false in L]; split; intros; auto; try contradiction; lra.
Qed.

Lemma fresnel_Rc_abs n0 n1 th p : fresnel_Rc n0 n1 th p = fresnel_Rc n0 n1 (Rabs th) p.
Proof. unfold fresnel_Rc. now rewrite Rabs_Rabsolu. Qed.

Lemma abs_angle th : - (PI / 2) < th < PI / 2 -> 0 <= Rabs th < PI / 2.
Proof. intros H. split; [apply Rabs_pos|apply Rabs_def1; lra]. Qed.

(* ---------- C169 ---------- *)

(* a ray meeting an absorbing medium from a transparent one, on either side of the surface, is reflected exactly when the random
   number is at most what Fresnel's equations for metals give; u + i v exists and is unique *)
Theorem C169_metal : forall side ni nj n a k th p d N rnd u v, from_to side ni nj (creal n) (mkc a k) -> 0 < n -> 0 < a -> 0 < k ->
  - (PI / 2) < th < PI / 2 -> n * sin (Rabs th) <= a -> normal_wave n a k (Rabs th) u v ->
  (snd (fst (fresnel_decision_c ni nj p side th d N rnd)) = side <-> rnd <= metal_R n a k (Rabs th) u v p).
Proof.
  intros side ni nj n a k th p d N rnd u v F Hn Ha Hk Hth Hs W. rewrite (stays_iff _ _ _ _ _ _ _ _ _ _ F), fresnel_Rc_abs.
  destruct (fresnel_Rc_cases (creal n) (mkc a k) (Rabs th) p Hn Ha (abs_angle th Hth)) as [_ Q]. rewrite Q by exact Hs.
  rewrite (calc_Rc_metal n a k (Rabs th) u v p Hn Ha Hk (abs_angle th Hth) W). reflexivity.
Qed.
Print Assumptions C169_metal.

Theorem C169_wave : forall n a k x, 0 < a -> 0 < k -> exists u v, normal_wave n a k x u v /\ 0 < u /\ 0 < v /\
  forall u' v', normal_wave n a k x u' v' -> u' = u /\ v' = v.
Proof. exact wave_unique. Qed.
Print Assumptions C169_wave.

(* straight on, any two media *)
Theorem C169_normal : forall side ni nj n0 n1 p d N rnd, from_to side ni nj n0 n1 -> optical_medium n0 -> optical_medium n1 ->
  (snd (fst (fresnel_decision_c ni nj p side 0 d N rnd)) = side <->
   rnd <= ((re n0 - re n1) ^ 2 + (im n0 - im n1) ^ 2) / ((re n0 + re n1) ^ 2 + (im n0 + im n1) ^ 2)).
Proof.
  intros side ni nj n0 n1 p d N rnd F H0 H1. rewrite (stays_iff _ _ _ _ _ _ _ _ _ _ F). pose proof PI2_RGT_0.
  destruct (fresnel_Rc_cases n0 n1 0 p (proj1 H0) (proj1 H1) ltac:(lra)) as [_ Q].
  rewrite Q by (rewrite sin_0, Rmult_0_r; destruct H1; lra). pose proof (media_dot n0 n1 H0 H1) as M.
  destruct n0 as [a b], n1 as [c e]. cbn [re im] in *. now rewrite calc_Rc_normal.
Qed.
Print Assumptions C169_normal.

(* reflectances are probabilities for all media and angles *)
Theorem C169_probability : forall n0 n1 th p, optical_medium n0 -> optical_medium n1 -> - (PI / 2) < th < PI / 2 ->
  0 <= fresnel_Rc n0 n1 th p <= 1.
Proof.
  intros n0 n1 th p H0 H1 Hth. rewrite fresnel_Rc_abs. pose proof (abs_angle th Hth) as Hx.
  destruct (fresnel_Rc_cases n0 n1 (Rabs th) p (proj1 H0) (proj1 H1) Hx) as [Q1 Q2].
  destruct (Rle_lt_dec (re n0 * sin (Rabs th)) (re n1)) as [L|L]; [rewrite Q2 by exact L|rewrite Q1 by exact L; lra].
  apply calc_Rc_range; auto. now apply media_dot.
Qed.
Print Assumptions C169_probability.

(* without absorption everything is as C34-C39 say *)
Theorem C169_transparent : forall ni nj p ent side th d N rnd, 0 < ni -> 0 < nj -> - (PI / 2) < th < PI / 2 ->
  fresnel_decision_c (creal ni) (creal nj) p side th d N rnd = fresnel_decision ni nj p side th d N rnd /\
  table_decision_c (creal ni) (creal nj) ent side th d N rnd = table_decision ni nj ent side th d N rnd.
Proof.
  intros ni nj p ent side th d N rnd Hi Hj Hth.
  unfold fresnel_decision_c, table_decision_c, fresnel_decision, table_decision. destruct (Z.eqb side 1);
    rewrite decide_Fresnel_real, decide_TMM_real by (auto; lra); auto.
Qed.
Print Assumptions C169_transparent.

(* silver-like: n = 1/2 + 3 i, straight on, R = 37/45 *)
Example C169_example : snd (fst (fresnel_decision_c (creal 1) (mkc (1 / 2) 3) PolU 1%Z 0 (mkv 0 0 (-1)) (mkv 0 0 1) (8 / 10))) = 1%Z /\
  snd (fst (fresnel_decision_c (creal 1) (mkc (1 / 2) 3) PolU 1%Z 0 (mkv 0 0 (-1)) (mkv 0 0 1) (83 / 100))) <> 1%Z.
Proof.
  assert (F : from_to 1 (creal 1) (mkc (1 / 2) 3) (creal 1) (mkc (1 / 2) 3)) by (left; auto).
  assert (M0 : optical_medium (creal 1)) by (split; cbn; lra). assert (M1 : optical_medium (mkc (1 / 2) 3)) by (split; cbn; lra).
  split.
  - apply (C169_normal _ _ _ _ _ _ _ _ _ F M0 M1). cbn [re im creal]. lra.
  - intros H. apply (C169_normal _ _ _ _ _ _ _ _ _ F M0 M1) in H. cbn [re im creal] in H. lra.
Qed.

(* n = 1, a + i k with u + i v = 2 + i at sin x = 3/5 is possible *)
Example C169_metal_example : exists a k u v, 0 < a /\ 0 < k /\ 1 * sin (asin (3 / 5)) <= a /\ normal_wave 1 a k (asin (3 / 5)) u v.
Proof.
  exists 2, 1. destruct (wave_unique 1 2 1 (asin (3 / 5)) ltac:(lra) ltac:(lra)) as (u & v & W & _). exists u, v.
  rewrite sin_asin in * by lra. repeat split; try lra; apply W.
Qed.

(* ---------- C170 ---------- *)

(* n0 = 1, n1 = 1/2 + 3 i, sin x = 3/5: Fresnel's equations let light in, the program reflects all of it *)
Theorem C170_every_angle_refuted : exists n a k x u v d N rnd, 0 < n /\ 0 < a /\ 0 < k /\ 0 <= x < PI / 2 /\ normal_wave n a k x u v /\
  unit d /\ unit N /\ dot d N = - cos x /\ metal_R n a k x u v PolS < rnd < 1 /\
  snd (fst (fresnel_decision_c (creal n) (mkc a k) PolS 1%Z x d N rnd)) = 1%Z.
Proof. exact metal_total_reflection. Qed.
Print Assumptions C170_every_angle_refuted.

(* the program does so for every such medium: beyond arcsin(Re n1 / Re n0) no light gets in *)
Theorem C170_beyond_refuted : forall side ni nj n0 n1 p th d N rnd, from_to side ni nj n0 n1 -> 0 < re n0 -> 0 < re n1 ->
  - (PI / 2) < th < PI / 2 -> re n1 < re n0 * sin (Rabs th) -> rnd < 1 ->
  snd (fst (fresnel_decision_c ni nj p side th d N rnd)) = side.
Proof.
  intros side ni nj n0 n1 p th d N rnd F H0 H1 Hth Hs Hr. apply (stays_iff _ _ _ _ _ _ _ _ _ _ F). rewrite fresnel_Rc_abs.
  destruct (fresnel_Rc_cases n0 n1 (Rabs th) p H0 H1 (abs_angle th Hth)) as [Q _]. rewrite Q by exact Hs. lra.
Qed.
Print Assumptions C170_beyond_refuted.

(* up to that angle the reflection is Fresnel's *)
Theorem C170_below_partial : forall side ni nj n a k th p d N rnd u v, from_to side ni nj (creal n) (mkc a k) -> 0 < n -> 0 < a -> 0 < k ->
  - (PI / 2) < th < PI / 2 -> n * sin (Rabs th) <= a -> normal_wave n a k (Rabs th) u v ->
  (snd (fst (fresnel_decision_c ni nj p side th d N rnd)) = side <-> rnd <= metal_R n a k (Rabs th) u v p).
Proof. exact C169_metal. Qed.
Print Assumptions C170_below_partial.

(* ---------- C171 ---------- *)

(* light that gets through is refracted by Snell's law with the real parts, whatever the absorption *)
Theorem C171_snell : forall side ni nj n0 n1 p th d N rnd d' s' A, from_to side ni nj n0 n1 -> 0 < re n0 -> 0 < re n1 ->
  - (PI / 2) < th < PI / 2 -> unit d -> unit N -> dot d N = - cos th -> rnd < 1 ->
  fresnel_decision_c ni nj p side th d N rnd = (d', s', A) ->
  A = None /\ unit d' /\
  (s' = side -> mirror_law d d' N) /\
  (s' <> side -> s' = (- side)%Z /\ tang d' N = vscale (re n0 / re n1) (tang d N) /\ dot d' N <= 0 /\
     (re n0 * sin (Rabs th) <> re n1 -> snell_law (re n0) (re n1) d d' N)).
Proof.
  intros side ni nj n0 n1 p th d N rnd d' s' A F H0 H1 Hth Hd HN Hdot Hr E.
  rewrite (dec_fresnel _ _ _ _ _ _ _ _ _ _ F) in E.
  assert (C : cos (Rabs th) = cos th). { unfold Rabs. destruct (Rcase_abs th); [apply cos_neg|reflexivity]. }
  assert (E' : decide_RT_Fresnel_c n0 n1 (Rabs th) d N side p rnd = (d', s', A)).
  { rewrite <- E. unfold decide_RT_Fresnel_c. now rewrite <- fresnel_Rc_abs. }
  pose proof (decide_cases_c n0 n1 (Rabs th) d N side p rnd H0 H1 (abs_angle th Hth) Hd HN ltac:(lra) Hr) as Q. rewrite E' in Q.
  assert (S : (- side)%Z <> side) by (destruct F as [(-> & _)|(-> & _)]; lia).
  destruct Q as (-> & Un & [(Q1 & -> & Q3)|(Q1 & -> & Q3)]); (split; [reflexivity|]); (split; [exact Un|]); split; intros H; try contradiction; auto.
  split; [reflexivity|]. destruct Q3 as [(Q3 & Q4)|(Q3 & Q4 & Q5)].
  - split; [apply Q4|]. split; [destruct Q4 as [_ Q4]; rewrite Hdot in Q4; pose proof (cos_pos (Rabs th) (abs_angle th Hth)); nra|]. auto.
  - split; [exact Q4|]. split; [lra|]. intros Q6. contradiction.
Qed.
Print Assumptions C171_snell.

(* straight from 1 into 2 + i, R = 1/5: the random number 1/2 lets light through *)
Example C171_example : exists d', fresnel_decision_c (creal 1) (mkc 2 1) PolU 1%Z 0 (mkv 0 0 (-1)) (mkv 0 0 1) (1 / 2) = (d', (-1)%Z, None) /\
  snell_law 1 2 (mkv 0 0 (-1)) d' (mkv 0 0 1).
Proof.
  pose proof PI2_RGT_0. assert (F : from_to 1 (creal 1) (mkc 2 1) (creal 1) (mkc 2 1)) by (left; auto).
  assert (M0 : optical_medium (creal 1)) by (split; cbn; lra). assert (M1 : optical_medium (mkc 2 1)) by (split; cbn; lra).
  destruct (fresnel_decision_c (creal 1) (mkc 2 1) PolU 1%Z 0 (mkv 0 0 (-1)) (mkv 0 0 1) (1 / 2)) as [[d' s'] A] eqn:E. exists d'.
  pose proof (C171_snell 1%Z (creal 1) (mkc 2 1) (creal 1) (mkc 2 1) PolU 0 (mkv 0 0 (-1)) (mkv 0 0 1) (1 / 2) d' s' A F (proj1 M0) (proj1 M1) ltac:(lra) ltac:(unfold unit, dot; cbn; lra) ltac:(unfold unit, dot; cbn; lra)
    ltac:(unfold dot; cbn [vx vy vz]; rewrite cos_0; lra) ltac:(lra) E) as (-> & _ & _ & Q).
  assert (S : s' <> 1%Z).
  { intros ->. assert (X : snd (fst (fresnel_decision_c (creal 1) (mkc 2 1) PolU 1%Z 0 (mkv 0 0 (-1)) (mkv 0 0 1) (1 / 2))) = 1%Z) by (rewrite E; reflexivity).
    apply (C169_normal _ _ _ _ _ _ _ _ _ F M0 M1) in X. cbn [re im creal] in X. lra. }
  destruct (Q S) as (-> & _ & _ & Q2). split; [reflexivity|]. apply Q2. cbn [re creal]. rewrite Rabs_R0, sin_0. lra.
Qed.

(* ---------- C172 ---------- *)

(* n0 = 1, n1 = 1 + i at sin x = 3/5: with a lookup table transmitted light goes elsewhere than with the Fresnel option *)
Theorem C172_same_direction_refuted : exists ni nj x d N ent rnd d1 d2, optical_medium ni /\ optical_medium nj /\ 0 <= x < PI / 2 /\
  unit d /\ unit N /\ dot d N = - cos x /\ re ni * sin x < re nj /\
  fresnel_decision_c ni nj PolS 1%Z x d N rnd = (d1, (-1)%Z, None) /\
  table_decision_c ni nj ent 1%Z x d N rnd = (d2, (-1)%Z, None) /\ vx d1 = 3 / 5 /\ vx d2 = 3 / 10 / sqrt (91 / 100) /\ d1 <> d2.
Proof. exact directions_differ. Qed.
Print Assumptions C172_same_direction_refuted.

(* with indices in phase (for example both media transparent) and for light falling straight on, they agree *)
Theorem C172_same_direction_partial : forall side ni nj n0 n1 p ent th d N rnd rnd' d1 d2, from_to side ni nj n0 n1 ->
  optical_medium n0 -> optical_medium n1 -> - (PI / 2) < th < PI / 2 -> unit d -> unit N -> dot d N = - cos th -> rnd < 1 ->
  in_phase n0 n1 \/ th = 0 ->
  fresnel_decision_c ni nj p side th d N rnd = (d1, (- side)%Z, None) ->
  table_decision_c ni nj ent side th d N rnd' = (d2, (- side)%Z, None) -> d1 = d2.
Proof.
  intros side ni nj n0 n1 p ent th d N rnd rnd' d1 d2 F H0 H1 Hth Hd HN Hdot Hr Hp E1 E2.
  assert (S : (- side)%Z <> side) by (destruct F as [(-> & _)|(-> & _)]; lia).
  rewrite (dec_fresnel _ _ _ _ _ _ _ _ _ _ F) in E1. rewrite (dec_table _ _ _ _ _ _ _ _ _ _ F) in E2.
  unfold decide_RT_Fresnel_c in E1. unfold decide_RT_TMM_c in E2.
  destruct (Rleb rnd _); [congruence|]. destruct (Rleb rnd' _); [congruence|]. destruct (_ && _); [|discriminate].
  injection E1 as <-. injection E2 as <-. f_equal. destruct Hp as [Hp| ->].
  - symmetry. apply refract_in_phase; [apply H1|exact Hp].
  - rewrite cos_0 in Hdot. symmetry. now apply refract_c_straight.
Qed.
Print Assumptions C172_same_direction_partial.

Example C172_example : in_phase (mkc 2 1) (mkc 4 2) /\ optical_medium (mkc 2 1) /\ optical_medium (mkc 4 2) /\
  exists d1, table_decision_c (mkc 2 1) (mkc 4 2) (fun _ _ => {| te_R := 0; te_T := 1; te_A := [] |}) 1%Z 0 (mkv 0 0 (-1)) (mkv 0 0 1) (1 / 2) = (d1, (-1)%Z, None).
Proof.
  split; [unfold in_phase; cbn; ring|]. split; [split; cbn; lra|]. split; [split; cbn; lra|]. eexists.
  unfold table_decision_c, decide_RT_TMM_c. cbn [Z.eqb Pos.eqb te_R te_T]. rewrite (proj2 (Rleb_false _ _)) by lra.
  rewrite (proj2 (Rltb_true _ _)) by lra. rewrite (proj2 (Rleb_true _ _)) by lra. reflexivity.
Qed.
