(* Remaining composite lemmas and concrete cases for Prop_Optics.v. *)
From Coq Require Import Reals List Bool ZArith Lra Lia Psatz.
From Verif Require Import Base Lib Model_Optics Spec_Optics Proof_Optics Proof_Geom Proof_OpticsProps.
Import ListNotations.
Open Scope R_scope.

Lemma draw_partition e n0 n1 d N side rnd : 0 <= te_R e -> 0 <= te_T e -> side <> 0%Z -> 0 <= rnd < 1 ->
  let '(_, s', A) := decide_RT_TMM e n0 n1 d N side rnd in
  (rnd <= te_R e <-> s' = side /\ A = None) /\
  (te_R e < rnd <= te_R e + te_T e <-> s' = (- side)%Z /\ A = None) /\
  (te_R e + te_T e < rnd <-> A = Some (te_A e)) /\
  (1 <= te_R e + te_T e -> A = None) /\
  (1 <= te_R e -> s' = side /\ A = None).
Proof.
  intros HR HT Hs Hr. unfold decide_RT_TMM.
  destruct (Rleb rnd (te_R e)) eqn:E; [apply Rleb_true in E|apply Rleb_false in E].
  - split; [split; auto|]. split; [split; [lra|intros [H _]; lia]|].
    split; [split; [lra|discriminate]|]. split; auto.
  - destruct (Rltb (te_R e) rnd) eqn:E1; [|apply Rltb_false in E1; lra].
    destruct (Rleb rnd (te_R e + te_T e)) eqn:E2; cbn [andb];
      [apply Rleb_true in E2|apply Rleb_false in E2].
    + split; [split; [lra|intros [H _]; lia]|]. split; [split; [auto|lra]|].
      split; [split; [lra|discriminate]|]. split; [auto|lra].
    + split; [split; [lra|intros [_ H]; discriminate]|].
      split; [split; [lra|intros [_ H]; discriminate]|].
      split; [split; [reflexivity|lra]|]. split; lra.
Qed.

Lemma sound_nearest r d surf h : unit d -> check_intersect r d surf = Some h ->
  exists T t, In T surf /\ meets r d T t /\
    (forall T' t', In T' surf -> meets r d T' t' -> t <= t') /\
    h_point h = vadd r (vscale t d) /\
    unit (h_N h) /\
    dot (h_N h) (vsub (t_P1 T) (t_P0 T)) = 0 /\ dot (h_N h) (vsub (t_P2 T) (t_P0 T)) = 0 /\
    0 < dot (h_N h) (cross (vsub (t_P1 T) (t_P0 T)) (vsub (t_P2 T) (t_P0 T))) /\
    - (PI / 2) < h_theta h < PI / 2 /\ cos (h_theta h) = Rabs (dot d (h_N h)) /\
    (dot d (h_N h) < 0 -> 0 <= h_theta h) /\ (0 < dot d (h_N h) -> h_theta h <= 0).
Proof.
  intros Hd Hc. destruct (check_intersect_some _ _ _ _ Hc) as (T & t & Hin & Hm & Hp & HN & Hth & Hmin).
  pose proof (meets_cross _ _ _ _ Hm) as Hcr.
  pose proof (t_N_unit T Hcr) as HU. pose proof (meets_N _ _ _ _ Hm) as Hne.
  assert (Eq : dot (t_N T) (vneg d) = - dot d (t_N T)) by (vexp; ring).
  assert (Hq : dot (t_N T) (vneg d) <> 0) by (rewrite Eq; lra).
  destruct (angle_formula (t_N T) d HU Hd Hq) as (Hr & Hcos & Hpos & Hneg).
  rewrite <- Hth in Hr, Hcos, Hpos, Hneg. rewrite <- HN in *.
  exists T, t. split; [exact Hin|]. split; [exact Hm|]. split; [exact Hmin|]. split; [exact Hp|].
  split; [exact HU|]. rewrite HN.
  split; [unfold t_N; rewrite dot_scale_l; unfold t_cross; vexp; ring|].
  split; [unfold t_N; rewrite dot_scale_l; unfold t_cross; vexp; ring|].
  split.
  { unfold t_N. fold (t_cross T). rewrite dot_scale_l.
    assert (Hdp : 0 < dot (t_cross T) (t_cross T)).
    { destruct (dot_nonneg (t_cross T)) as [|Hz]; [assumption|]. exfalso. apply Hcr, dot_zero. lra. }
    apply Rmult_lt_0_compat; [|exact Hdp]. apply Rinv_0_lt_compat. unfold norm. apply sqrt_lt_R0, Hdp. }
  rewrite <- HN. split; [exact Hr|]. split; [exact Hcos|]. split; intros; [apply Hpos|apply Hneg]; lra.
Qed.

Lemma exit_translate Lx Ly r d : in_cell Lx Ly r -> (vx d <> 0 \/ vy d <> 0) ->
  exists w t, exit_side r d Lx Ly = (w, Some t) /\
    let q := vadd (vadd r (vscale t d)) (translation Lx Ly w) in
    on_wall Lx Ly (opposite w) q /\ in_closed_cell Lx Ly q /\ vz q = vz r + t * vz d.
Proof.
  intros Hc Hd. pose proof (exit_side_spec Lx Ly r d Hc Hd) as H.
  destruct (exit_side r d Lx Ly) as [w ot]. destruct H as (Hw & t & -> & Ht & Ho & Hin & _).
  exists w, t. split; [reflexivity|].
  exact (translation_spec Lx Ly w (vadd r (vscale t d)) Hw (Hin t ltac:(lra)) Ho).
Qed.

Lemma calc_R_unpolarised n1 n2 x : 0 < n1 -> 0 < n2 -> 0 <= x < PI / 2 -> n1 * sin x <= n2 -> 0 < x ->
  let t := asin (n1 / n2 * sin x) in
  cos (x + t) <> 0 ->
  calc_R n1 n2 x PolU = ((sin (x - t) / sin (x + t)) ^ 2 + (tan (x - t) / tan (x + t)) ^ 2) / 2.
Proof.
  intros H1 H2 Hx Hs H0 t Ht.
  assert (E : calc_R n1 n2 x PolU = (calc_R n1 n2 x PolS + calc_R n1 n2 x PolP) / 2) by reflexivity.
  rewrite E, (calc_R_sine n1 n2 x H1 H2 Hx Hs H0), (calc_R_tangent n1 n2 x H1 H2 Hx Hs H0 Ht).
  reflexivity.
Qed.

Lemma lookup_reflecting angles entries n0 n1 th d N side rnd i e :
  nearest angles (Rabs th) = Ok i -> nth_error entries i = Some e -> 1 <= te_R e -> rnd < 1 ->
  unit d -> unit N ->
  exists d', decide_RT_lookup angles entries n0 n1 th d N side rnd = Ok (d', side, None) /\
    unit d' /\ mirror_law d d' N /\
    (forall a, In a angles -> Rabs (nth i angles 0 - Rabs th) <= Rabs (a - Rabs th)).
Proof.
  intros Hi He HR Hr Hd HN. unfold decide_RT_lookup. rewrite Hi. cbn [rbind]. rewrite He.
  unfold decide_RT_TMM. rewrite (proj2 (Rleb_true _ _)) by lra.
  exists (normalise (reflect d N)). split; [reflexivity|].
  rewrite normalise_unit by (apply reflect_unit; assumption).
  split; [apply reflect_unit; assumption|]. split; [apply reflect_law, HN|].
  intros a Ha. unfold nearest in Hi. destruct (argmin_Rltb _ _ Hi) as [Hl Hmin].
  rewrite map_length in Hl, Hmin.
  destruct (In_nth _ _ 0 Ha) as (j & Hj & Ej). specialize (Hmin j Hj).
  rewrite !(nth_map_lt _ _ _ 0) in Hmin by assumption. rewrite Ej in Hmin. exact Hmin.
Qed.

(* ---------- concrete cases ---------- *)

Definition ex_T : tri := {| t_P0 := mkv 0 0 0; t_P1 := mkv 1 0 0; t_P2 := mkv 0 1 0 |}.
Definition ex_T2 : tri := {| t_P0 := mkv 0 0 (-1); t_P1 := mkv 1 0 (-1); t_P2 := mkv 0 1 (-1) |}.
Definition ex_d : vec := mkv 0 0 (-1).
Definition ex_r : vec := mkv (1 / 4) (1 / 4) 1.

Ltac rb :=
  repeat match goal with
  | |- context [Rltb ?a ?b] =>
      first [rewrite (proj2 (Rltb_true a b)) by lra | rewrite (proj2 (Rltb_false a b)) by lra]
  | |- context [Rleb ?a ?b] =>
      first [rewrite (proj2 (Rleb_true a b)) by lra | rewrite (proj2 (Rleb_false a b)) by lra]
  | |- context [Reqb ?a ?b] =>
      first [rewrite (proj2 (Reqb_true a b)) by lra | rewrite (proj2 (Reqb_false a b)) by lra]
  end.

Lemma unit_ex_d : unit ex_d.
Proof. unfold unit, dot, ex_d; cbn [vx vy vz]. lra. Qed.

Lemma hit_ex_T : hit_t ex_r ex_d ex_T = Some 1.
Proof.
  apply hit_t_spec. unfold meets, on_tri, ex_r, ex_d, ex_T, tol. cbn [t_P0 t_P1 t_P2].
  split; [lra|]. split.
  - exists (1 / 4), (1 / 4). repeat apply conj; try lra.
    apply vec_ext; vexp; lra.
  - vexp. lra.
Qed.

Lemma hit_ex_T2 : hit_t ex_r ex_d ex_T2 = Some 2.
Proof.
  apply hit_t_spec. unfold meets, on_tri, ex_r, ex_d, ex_T2, tol. cbn [t_P0 t_P1 t_P2].
  split; [lra|]. split.
  - exists (1 / 4), (1 / 4). repeat apply conj; try lra.
    apply vec_ext; vexp; lra.
  - vexp. lra.
Qed.

Lemma t_N_ex_T : t_N ex_T = mkv 0 0 1.
Proof.
  unfold t_N. assert (E : t_cross ex_T = mkv 0 0 1).
  { unfold t_cross, ex_T; cbn [t_P0 t_P1 t_P2]. apply vec_ext; vexp; lra. }
  rewrite E, norm_unit by (unfold unit; vexp; lra). apply vec_ext; vexp; field.
Qed.

Lemma C33_ex : unit ex_d /\ (exists h, check_intersect ex_r ex_d [ex_T] = Some h /\ h_N h = mkv 0 0 1 /\
                          dot ex_d (vscale (IZR 1) (h_N h)) < 0).
Proof.
  split; [exact unit_ex_d|]. unfold check_intersect. cbn [flat_map]. rewrite hit_ex_T.
  cbn [app map fst argmin argmin_go nth_error].
  eexists. split; [reflexivity|]. cbn [h_N]. rewrite t_N_ex_T. split; [reflexivity|].
  unfold ex_d; vexp. lra.
Qed.

Lemma C33_lookup_case : 0 <= ce_x < PI / 2 /\ unit (mkv (5 / 13) 0 (- (12 / 13))) /\
  dot (mkv (5 / 13) 0 (- (12 / 13))) (mkv 0 0 1) = - cos ce_x /\ 1 * sin ce_x < 2.
Proof.
  destruct ce_facts as (Hc & Hs & Hx). pose proof PI_RGT_0. rewrite Hc, Hs.
  unfold unit. vexp. repeat apply conj; lra.
Qed.

Lemma C34_case : - (PI / 2) < ce_x < PI / 2 /\ 1 < 3 * sin (Rabs ce_x).
Proof.
  destruct ce_facts as (Hc & Hs & Hx). pose proof PI_RGT_0. rewrite Rabs_pos_eq by lra. rewrite Hs. lra.
Qed.

Lemma C34_defined_case : fresnel_R 1 3 0 PolU = 1 / 4.
Proof.
  pose proof PI_RGT_0. destruct (fresnel_R_cases 1 3 0 PolU) as [_ H0]; try lra.
  rewrite H0 by (rewrite sin_0; lra). rewrite calc_R_normal by lra. field.
Qed.

Lemma C35_case : 0 <= ce_x < PI / 2 /\ 2 * sin ce_x <= 1.
Proof. destruct ce_facts as (Hc & Hs & Hx). pose proof PI_RGT_0. lra. Qed.
Lemma C35_unpol_case : calc_R 1 3 0 PolU = (1 / 4 + 1 / 4) / 2.
Proof. rewrite calc_R_normal by lra. field. Qed.
Lemma C35_matched_case : calc_R 2 2 ce_x PolS = 0.
Proof. destruct ce_facts as (Hc & Hs & Hx). pose proof PI_RGT_0. apply calc_R_matched; lra. Qed.
Lemma C35_reciprocal_case : 0 <= ce_x < PI / 2 /\ 2 * sin ce_x < 1.
Proof. destruct ce_facts as (Hc & Hs & Hx). pose proof PI_RGT_0. lra. Qed.
Lemma C35_sine_case : 0 < ce_x < PI / 2 /\ 1 * sin ce_x <= 2.
Proof. destruct ce_facts as (Hc & Hs & Hx). pose proof PI_RGT_0. lra. Qed.
Lemma C35_tangent_case : 0 < ce_x < PI / 2 /\ 1 * sin ce_x <= 1 /\ cos (ce_x + asin (1 / 1 * sin ce_x)) <> 0.
Proof.
  destruct ce_facts as (Hc & Hs & Hx). pose proof PI_RGT_0.
  split; [lra|]. split; [lra|].
  replace (1 / 1 * sin ce_x) with (sin ce_x) by field. rewrite asin_sin by lra.
  assert (0 < cos (ce_x + ce_x)) by (apply cos_gt_0; lra). lra.
Qed.
Lemma C35_normal_case : ((1 - 3) / (1 + 3)) ^ 2 = 1 / 4.
Proof. field. Qed.
Lemma C35_brewster_case : calc_R 12 5 ce_x PolP = 0.
Proof. apply calc_R_brewster; lra. Qed.
Lemma C35_critical_case : 13 * sin ce_x = 5.
Proof. destruct ce_facts as (Hc & Hs & Hx). rewrite Hs. field. Qed.

Lemma C36_case : let e := {| te_R := 1 / 4; te_T := 1 / 4; te_A := [1 / 2] |} in
  snd (decide_RT_TMM e 1 2 ex_d (mkv 0 0 1) 1 (3 / 4)) = Some [1 / 2] /\
  snd (fst (decide_RT_TMM e 1 2 ex_d (mkv 0 0 1) 1 (1 / 3))) = (-1)%Z.
Proof.
  intros e. unfold decide_RT_TMM, e. cbn [te_R te_T te_A]. rb. cbn [andb fst snd].
  split; reflexivity.
Qed.

Lemma C37_none_case : check_intersect ex_r (vneg ex_d) [ex_T] = None.
Proof.
  apply check_intersect_none. intros T t [<-|[]] (Ht & (u & v & _ & _ & _ & Hp) & _).
  assert (Hz := f_equal vz Hp). revert Hz. unfold ex_r, ex_d, ex_T. cbn [t_P0 t_P1 t_P2]. vexp. lra.
Qed.

Lemma C37_nearest_case :
  exists h, check_intersect ex_r ex_d [ex_T2; ex_T] = Some h /\ h_point h = mkv (1 / 4) (1 / 4) 0.
Proof.
  unfold check_intersect. cbn [flat_map]. rewrite hit_ex_T, hit_ex_T2.
  cbn [app map fst argmin argmin_go]. rb. cbn [nth_error].
  eexists. split; [reflexivity|]. cbn [h_point]. unfold ex_r, ex_d. apply vec_ext; vexp; lra.
Qed.

Lemma C38_case : in_cell 1 1 (mkv (1 / 2) (1 / 4) 5) /\ vx (mkv 1 (-1) 0) <> 0.
Proof. unfold in_cell; cbn [vx vy vz]. lra. Qed.

Lemma C38_translate_case :
  exit_side (mkv (1 / 2) (1 / 4) 5) (mkv 1 (-1) 0) 1 1 = (2%nat, Some (1 / 4)).
Proof.
  unfold exit_side. rewrite wall_ts_eq. unfold wall_opt. cbn [vx vy vz]. rb.
  replace (- (1 / 4) / -1) with (1 / 4) by field.
  replace ((1 / 2 - 1) / - (1)) with (1 / 2) by field.
  replace ((1 / 4 - 1) / - -1) with (- (3 / 4)) by field.
  replace (- (1 / 2) / 1) with (- (1 / 2)) by field. rb.
  cbn [argmin argmin_go olt]. rb. cbn [nth]. reflexivity.
Qed.

Lemma C76_case : nearest [0; 1] (Rabs (3 / 4)) = Ok 1%nat.
Proof.
  unfold nearest. cbn [map argmin argmin_go]. rewrite (Rabs_pos_eq (3 / 4)) by lra.
  rewrite (Rabs_left (0 - 3 / 4)) by lra. rewrite (Rabs_pos_eq (1 - 3 / 4)) by lra. rb. reflexivity.
Qed.
