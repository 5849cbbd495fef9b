(* hemisphere_surface (C88, C89). *)
From Coq Require Import Reals List Bool ZArith Lra Lia Psatz.
From Verif Require Import Base Lib Model_Optics Spec_Optics Proof_Optics Model_RayIface Model_Surface Spec_Surface Proof_Surface Proof_Surface2 Proof_Surface3.
Import ListNotations.
Open Scope R_scope.

Lemma somes_in {A} (l : list (option A)) x : In x (somes l) <-> In (Some x) l.
Proof.
  induction l as [|[a|] l IH]; cbn; [tauto | |].
  - rewrite IH. split; intros [H|H]; try tauto; left; congruence.
  - rewrite IH. split; [tauto|]. intros [H|H]; [discriminate | exact H].
Qed.

Lemma enumerate_has {A} (l : list A) x : In x l -> exists i, In (i, x) (enumerate l).
Proof.
  intros I. rewrite <- (enumerate_snd l) in I. apply in_map_iff in I. destruct I as ([i y] & <- & I). now exists i.
Qed.

Section Cap.
  Variables (size radius offset stretch na : R) (n : nat) (upright : bool) (rnd : nat -> R) (p : list vec).
  Hypothesis Hsize : 0 < size.
  Hypothesis Hoff : 0 <= offset < radius.
  Hypothesis Hstr : 0 < stretch.
  Hypothesis Hna : 0 <= na < PI / 2.
  Hypothesis Hrnd : forall i, 0 <= rnd i < 1.
  Hypothesis HP : hemisphere_points size radius offset stretch na n upright rnd = Ok p.

  Let g := linspace (- size / 2) (size / 2) n.
  Let nh := size / INR (n - 1) * tan na.
  Let s := if upright then 1 else -1.
  Let rho2 := radius * radius - offset * offset.

  Lemma cap_n : (2 <= n)%nat.
  Proof.
    unfold hemisphere_points in HP. destruct (Rltb offset 0); [discriminate|].
    assert (L := linspace_length (- size / 2) (size / 2) n).
    destruct (linspace (- size / 2) (size / 2) n) as [|a [|b l]]; try discriminate. cbn in L. lia.
  Qed.

  Lemma tan_nonneg : 0 <= tan na.
  Proof.
    destruct (Rle_lt_or_eq_dec 0 na (proj1 Hna)) as [H|H]; [apply Rlt_le, tan_gt_0; lra|]. rewrite <- H, tan_0. lra.
  Qed.

  Lemma nh_nonneg : 0 <= nh.
  Proof.
    unfold nh. assert (N := cap_n). assert (0 < INR (n - 1)) by (apply lt_0_INR; lia).
    apply Rmult_le_pos; [apply Rlt_le, Rdiv_lt_0_compat; lra | apply tan_nonneg].
  Qed.

  Definition raw : list vec :=
    filter (fun v => Rleb 0 (vz v))
      (somes (map (fun ip => cap_point size radius offset stretch nh (rnd (fst ip)) (snd ip)) (enumerate (combine (mesh_x g g) (mesh_y g g))))).
  Definition ring : list vec :=
    map (fun phi => mkv (sqrt (sq radius - sq offset) * cos phi) (sqrt (sq radius - sq offset) * sin phi) 0) (linspace 0 (2 * PI) (5 * n)).

  Lemma cap_eq : p = map (fun v => mkv (vx v + size / 2) (vy v + size / 2) (s * vz v)) (if Reqb nh 0 then raw ++ ring else raw).
  Proof.
    assert (N := cap_n). unfold hemisphere_points in HP. destruct (Rltb offset 0); [discriminate|].
    assert (L := linspace_length (- size / 2) (size / 2) n).
    assert (A0 := linspace_nth (- size / 2) (size / 2) n 0 0 ltac:(lia)).
    assert (A1 := linspace_nth (- size / 2) (size / 2) n 1 0 ltac:(lia)).
    unfold raw, ring. unfold g.
    destruct (linspace (- size / 2) (size / 2) n) as [|a [|b l]] eqn:Q; try discriminate.
    cbn [nth] in A0, A1.
    assert (D : (b - a) * tan na = nh).
    { unfold nh. rewrite A0, A1. cbn [INR]. field. assert (0 < INR (n - 1)) by (apply lt_0_INR; lia). lra. }
    rewrite D in HP. unfold s. destruct upright; injection HP as <-.
    - apply map_ext. intros v. f_equal. ring.
    - unfold mirror_z. rewrite map_map. apply map_ext. intros v. unfold set_z. cbn [vx vy vz]. f_equal. ring.
  Qed.

  Lemma cos_asin_eq q : -1 <= q <= 1 -> cos (asin q) = sqrt (1 - q * q).
  Proof. intros H. rewrite cos_asin by lra. reflexivity. Qed.

  (* the cap, seen from the plane z = 0 *)
  Lemma cap_height r2 : 0 <= r2 < rho2 ->
    let z := stretch * (radius * cos (asin (sqrt r2 / radius)) - offset) in
    0 < z /\ r2 + (z / stretch + offset) * (z / stretch + offset) = radius * radius.
  Proof.
    intros H z. unfold rho2 in H. assert (HR : 0 < radius) by lra.
    assert (Q : sqrt r2 * sqrt r2 = r2) by (apply sqrt_sqrt; lra).
    assert (Q0 := sqrt_pos r2).
    assert (B : sqrt r2 <= radius) by nra.
    assert (B1 : 0 <= sqrt r2 / radius <= 1).
    { split; [apply Rmult_le_pos; [lra | apply Rlt_le, Rinv_0_lt_compat; lra]|].
      apply (Rmult_le_reg_r radius); [lra|]. unfold Rdiv. rewrite Rmult_assoc, Rinv_l by lra. lra. }
    assert (C : radius * cos (asin (sqrt r2 / radius)) * (radius * cos (asin (sqrt r2 / radius))) = radius * radius - r2).
    { rewrite cos_asin_eq by lra. set (w := 1 - _).
      replace (radius * sqrt w * (radius * sqrt w)) with (radius * radius * (sqrt w * sqrt w)) by ring.
      rewrite sqrt_sqrt by (unfold w; nra). unfold w.
      replace (radius * radius * (1 - sqrt r2 / radius * (sqrt r2 / radius))) with (radius * radius - sqrt r2 * sqrt r2) by (field; lra).
      now rewrite Q. }
    assert (C0 : 0 <= radius * cos (asin (sqrt r2 / radius))).
    { apply Rmult_le_pos; [lra|]. rewrite cos_asin_eq by lra. apply sqrt_pos. }
    set (c := radius * cos (asin (sqrt r2 / radius))) in *.
    assert (offset < c) by nra. split.
    - unfold z. apply Rmult_lt_0_compat; lra.
    - replace (z / stretch + offset) with c by (unfold z; field; lra). rewrite C. ring.
  Qed.

  Definition edge0 (v : vec) : Prop := vx v = - size / 2 \/ vx v = size / 2 \/ vy v = - size / 2 \/ vy v = size / 2.

  Definition good (v : vec) : Prop :=
    let r2 := vx v * vx v + vy v * vy v in
    0 <= vz v /\
    (r2 < rho2 -> r2 + (vz v / stretch + offset) * (vz v / stretch + offset) = radius * radius) /\
    (rho2 <= r2 -> vz v <= nh /\ (edge0 v -> vz v = 0)).

  Lemma reqb_iff a b : Reqb a b = true <-> a = b.
  Proof. split; [apply Reqb_true|]. intros ->. destruct (Reqb b b) eqn:E; [reflexivity|]. apply Reqb_false in E. congruence. Qed.

  Lemma cap_point_good q r v : 0 <= r < 1 -> cap_point size radius offset stretch nh r q = Some v -> xy v = q /\ good v.
  Proof.
    intros Hr. destruct q as [a b]. unfold cap_point, sq. cbn [fst snd].
    assert (R0 : 0 <= a * a + b * b) by nra. assert (NH := nh_nonneg).
    destruct (Rltb (a * a + b * b) (radius * radius - offset * offset)) eqn:C; [apply Rltb_true in C | apply Rltb_false in C].
    - intros E. injection E as <-. split; [reflexivity|].
      destruct (cap_height (a * a + b * b)) as [Z S]; [unfold rho2; lra|].
      unfold good. cbn [vx vy vz]. split; [lra|]. split; [intros _; exact S | unfold rho2; intros; lra].
    - destruct (_ || _ || _ || _) eqn:O.
      + intros E. injection E as <-. split; [reflexivity|]. unfold good. cbn [vx vy vz]. split; [lra|].
        split; [unfold rho2; intros; lra|]. intros _. split; [exact NH | reflexivity].
      + destruct (Rltb 0 nh) eqn:H; [apply Rltb_true in H | discriminate]. intros E. injection E as <-. split; [reflexivity|].
        unfold good. cbn [vx vy vz]. split; [nra|]. split; [unfold rho2; intros; lra|]. intros _. split; [nra|].
        intros Ed. exfalso. unfold edge0 in Ed. cbn [vx vy] in Ed. rewrite !orb_false_iff in O. destruct O as [[[O1 O2] O3] O4].
        apply Reqb_false in O1, O2, O3, O4. tauto.
  Qed.

  Lemma raw_good v : In v raw -> good v /\ In (vx v) g /\ In (vy v) g.
  Proof.
    intros I. unfold raw in I. apply filter_In in I. destruct I as [I _]. apply somes_in, in_map_iff in I.
    destruct I as ([i q] & E & I). cbn [fst snd] in E. apply cap_point_good in E; [|apply Hrnd]. destruct E as [X G].
    split; [exact G|]. apply enumerate_in, mesh_in in I. rewrite <- X in I. exact I.
  Qed.

  Lemma rho_sq : sqrt (sq radius - sq offset) * sqrt (sq radius - sq offset) = rho2.
  Proof. unfold rho2, sq. apply sqrt_sqrt. nra. Qed.

  Lemma ring_good v : In v ring -> vx v * vx v + vy v * vy v = rho2 /\ vz v = 0.
  Proof.
    intros I. unfold ring in I. apply in_map_iff in I. destruct I as (phi & <- & _). cbn [vx vy vz]. split; [|reflexivity].
    assert (Q := cos_sin_sq phi). rewrite <- rho_sq. set (k := sqrt _). 
    replace (k * cos phi * (k * cos phi) + k * sin phi * (k * sin phi)) with (k * k * (cos phi * cos phi + sin phi * sin phi)) by ring.
    rewrite Q. ring.
  Qed.

  Lemma all_good v : In v (if Reqb nh 0 then raw ++ ring else raw) -> good v.
  Proof.
    assert (G : In v raw -> good v) by (intros I; now apply raw_good).
    destruct (Reqb nh 0); [|exact G]. intros I. apply in_app_or in I. destruct I as [I|I]; [now apply G|].
    apply ring_good in I. destruct I as [R Z]. unfold good. rewrite R, Z. assert (NH := nh_nonneg).
    split; [lra|]. split; [intros; lra|]. intros _. split; [exact NH | reflexivity].
  Qed.

  (* every grid point inside the cap, and every one on the border of the cell, is kept *)
  Lemma kept a b : In a g -> In b g ->
    a * a + b * b < rho2 \/ edge0 (mkv a b 0) -> exists v, In v raw /\ xy v = (a, b).
  Proof.
    intros Ia Ib H. destruct (enumerate_has (combine (mesh_x g g) (mesh_y g g)) (a, b)) as [i Hi]; [now apply mesh_in|].
    assert (E : exists v, cap_point size radius offset stretch nh (rnd i) (a, b) = Some v).
    { unfold cap_point, sq. cbn [fst snd]. destruct (Rltb (a * a + b * b) (radius * radius - offset * offset)) eqn:C; [eauto|].
      apply Rltb_false in C. destruct H as [H|H]; [unfold rho2 in H; lra|].
      destruct (_ || _ || _ || _) eqn:O; [eauto|]. exfalso. unfold edge0 in H. cbn [vx vy] in H.
      rewrite !orb_false_iff in O. destruct O as [[[O1 O2] O3] O4]. apply Reqb_false in O1, O2, O3, O4. tauto. }
    destruct E as [v E]. destruct (cap_point_good _ _ _ (Hrnd i) E) as [X G]. exists v. split; [|exact X].
    unfold raw. apply filter_In. split.
    - apply somes_in, in_map_iff. exists (i, (a, b)). split; [exact E | exact Hi].
    - destruct G as [G _]. destruct (Rleb 0 (vz v)) eqn:L; [reflexivity | apply Rleb_false in L; lra].
  Qed.

  Lemma hemisphere_all :
    (forall v, In v p ->
       let X := vx v - size / 2 in let Y := vy v - size / 2 in let z := s * vz v in
       0 <= z /\
       (X * X + Y * Y < rho2 -> X * X + Y * Y + (z / stretch + offset) * (z / stretch + offset) = radius * radius) /\
       (rho2 <= X * X + Y * Y -> z <= nh /\ (edge size v -> vz v = 0))) /\
    (forall a b, In a g -> In b g ->
       a * a + b * b < rho2 \/ a = - size / 2 \/ a = size / 2 \/ b = - size / 2 \/ b = size / 2 ->
       exists v, In v p /\ vx v = a + size / 2 /\ vy v = b + size / 2).
  Proof.
    split.
    - intros v I. rewrite cap_eq in I. apply in_map_iff in I. destruct I as (u & <- & I). apply all_good in I.
      destruct I as (G1 & G2 & G3). cbn zeta. cbn [vx vy vz].
      replace (vx u + size / 2 - size / 2) with (vx u) by ring. replace (vy u + size / 2 - size / 2) with (vy u) by ring.
      assert (S : s * s = 1) by (unfold s; destruct upright; ring).
      replace (s * (s * vz u)) with (vz u) by (replace (s * (s * vz u)) with (s * s * vz u) by ring; rewrite S; ring).
      split; [exact G1|]. split; [exact G2|]. intros H. destruct (G3 H) as [G4 G5]. split; [exact G4|].
      intros Ed. rewrite G5; [ring|]. unfold edge in Ed. cbn [vx vy] in Ed. unfold edge0.
      destruct Ed as [Ed|[Ed|[Ed|Ed]]]; [left | right; right; left | right; left | right; right; right]; lra.
    - intros a b Ia Ib H. destruct (kept a b Ia Ib) as (v & I & X); [unfold edge0; cbn [vx vy]; tauto|].
      injection X as X1 X2. exists (mkv (vx v + size / 2) (vy v + size / 2) (s * vz v)). cbn [vx vy]. rewrite X1, X2.
      split; [|now split]. rewrite cap_eq. apply in_map_iff. exists v. rewrite <- X1, <- X2. split; [reflexivity|].
      destruct (Reqb nh 0); [apply in_or_app; now left | exact I].
  Qed.

  Lemma g_ends : In (- size / 2) g /\ In (size / 2) g.
  Proof. apply linspace_ends, cap_n. Qed.

  Lemma hemisphere_cell : rho2 <= size / 2 * (size / 2) -> fills_cell p size size.
  Proof.
    intros Hr. destruct g_ends as [E1 E2]. destruct hemisphere_all as [_ K]. apply fills_of.
    - intros v I. rewrite cap_eq in I. apply in_map_iff in I. destruct I as (u & <- & I). cbn [vx vy].
      assert (G : In u raw -> - size / 2 <= vx u <= size / 2 /\ - size / 2 <= vy u <= size / 2).
      { intros J. apply raw_good in J. destruct J as (_ & A & B).
        split; eapply linspace_in; try eassumption; try apply cap_n; lra. }
      enough (- size / 2 <= vx u <= size / 2 /\ - size / 2 <= vy u <= size / 2) by lra.
      destruct (Reqb nh 0); [|now apply G]. apply in_app_or in I. destruct I as [I|I]; [now apply G|].
      apply ring_good in I. destruct I as [I _]. nra.
    - destruct (K _ _ E1 E1) as (v & I & X & Y); [tauto|]. exists v. split; [exact I|]. unfold xy. f_equal; lra.
    - destruct (K _ _ E2 E2) as (v & I & X & Y); [tauto|]. exists v. split; [exact I|]. unfold xy. f_equal; lra.
  Qed.

  (* a smooth cap that is wider than the cell sticks out of it *)
  Lemma hemisphere_out : na = 0 -> size / 2 * (size / 2) < rho2 -> ~ fills_cell p size size.
  Proof.
    intros Hz Hr (_ & M & _). destruct M as [_ M].
    assert (N := cap_n).
    assert (NH : nh = 0) by (unfold nh; rewrite Hz, tan_0; ring).
    assert (I : In (sqrt (sq radius - sq offset) * cos 0 + size / 2) (map vx p)).
    { rewrite cap_eq. rewrite map_map. cbn [vx].
      apply in_map_iff. exists (mkv (sqrt (sq radius - sq offset) * cos 0) (sqrt (sq radius - sq offset) * sin 0) 0).
      split; [reflexivity|]. rewrite (proj2 (reqb_iff nh 0) NH). apply in_or_app. right. unfold ring. apply in_map_iff.
      exists 0. split; [reflexivity|]. apply linspace_ends. lia. }
    apply M in I. rewrite cos_0 in I. assert (Q := rho_sq). assert (Q0 := sqrt_pos (sq radius - sq offset)). nra.
  Qed.
End Cap.

(* ---------- when a surface can be made ---------- *)

Lemma mk_ok del p cov dist : p <> [] ->
  (cov = None -> exists v, In v p /\ is_min (map vx p) (vx v) /\ is_min (map vy p) (vy v)) ->
  exists s, mk_surface del p cov dist = Ok s.
Proof.
  intros NE H. unfold mk_surface.
  destruct (argmax (map Rabs (zs_of p))) as [h|e] eqn:A.
  2:{ destruct p; [congruence|]. discriminate. }
  cbn [rbind]. destruct cov as [c|]; [cbn [rbind]; eexists; reflexivity|].
  destruct (H eq_refl) as (v & I & X & Y). unfold find_zcov, xs_of, ys_of. rewrite (is_min_eq _ _ X), (is_min_eq _ _ Y).
  destruct (filter _ p) as [|u l] eqn:F; [|cbn [rbind]; eexists; reflexivity].
  assert (J : In v (filter (fun w => Reqb (vx w) (vx v) && Reqb (vy w) (vy v)) p)).
  { apply filter_In. split; [exact I|]. rewrite andb_true_iff. split; now apply reqb_iff. }
  rewrite F in J. destruct J.
Qed.

Lemma mk_ok_cell del p dist cov a b : fills_cell p a b -> (exists v, In v p /\ xy v = (0, 0)) -> exists s, mk_surface del p cov dist = Ok s.
Proof.
  intros (A & _ & B & _) (v & I & V). injection V as V1 V2. apply mk_ok.
  - intros ->. destruct I.
  - intros _. exists v. rewrite V1, V2. now split.
Qed.

Lemma regular_ok del angle size upright cov dist drawn : 0 < size ->
  exists f r, regular_pyramids del angle size upright cov dist drawn = Ok (f, r).
Proof.
  intros HS. unfold regular_pyramids. rewrite pyramid_points_eq, mirror_pyr, Rmult_1_r.
  set (w := if upright then _ else _).
  destruct (mk_ok_cell del (pyr size w) dist cov size size (pyr_fills size w HS)) as [f ->]; [exists (mkv 0 0 0); split; [now left | reflexivity]|].
  destruct (mk_ok_cell del (pyr size (- w)) None None size size (pyr_fills size (- w) HS)) as [r ->]; [exists (mkv 0 0 0); split; [now left | reflexivity]|].
  cbn [rbind]. eauto.
Qed.

(* ---------- number of points per side ---------- *)

Lemma n_per_side_spec n : (1 <= n)%nat -> let k := n_per_side n in (1 <= k)%nat /\ ((k - 1) * (k - 1) < n <= k * k)%nat.
Proof.
  intros Hn. cbn zeta. unfold n_per_side.
  assert (N1 : 1 <= INR n) by (change 1 with (INR 1); apply le_INR; lia).
  assert (Q : sqrt (INR n) * sqrt (INR n) = INR n) by (apply sqrt_sqrt; lra).
  assert (Q0 := sqrt_pos (INR n)). assert (Q1 : 1 <= sqrt (INR n)) by nra.
  destruct (Zceil_bounds (sqrt (INR n))) as [B1 B2].
  set (c := Zceil (sqrt (INR n))) in *.
  assert (C1 : (1 <= c)%Z) by (apply le_IZR; lra).
  set (k := Z.to_nat c).
  assert (K : IZR c = INR k) by (unfold k; rewrite INR_IZR_INZ, Z2Nat.id by lia; reflexivity).
  assert (K1 : (1 <= k)%nat) by (unfold k; lia).
  rewrite K in B1, B2. split; [exact K1|].
  assert (KM : INR (k - 1) = INR k - 1) by (rewrite minus_INR by lia; reflexivity).
  assert (P : 0 <= INR (k - 1)) by apply pos_INR.
  split.
  - apply INR_lt. rewrite mult_INR, <- Q. nra.
  - apply INR_le. rewrite mult_INR, <- Q. nra.
Qed.

Lemma grid_spec size k c : (2 <= k)%nat ->
  In c (grid_coords size k) <-> exists i j, (i < k)%nat /\ (j < k)%nat /\ c = (INR i * (size / INR (k - 1)), INR j * (size / INR (k - 1))).
Proof.
  intros Hk. rewrite grid_in. destruct c as [a b]. cbn [fst snd].
  assert (L : forall x, In x (linspace 0 size k) <-> exists i, (i < k)%nat /\ x = INR i * (size / INR (k - 1))).
  { intros x. split.
    - intros I. apply (In_nth _ _ 0) in I. destruct I as (i & Hi & <-). rewrite linspace_length in Hi. exists i. split; [exact Hi|].
      rewrite linspace_nth by exact Hi. rewrite Rminus_0_r. ring.
    - intros (i & Hi & ->). replace (INR i * (size / INR (k - 1))) with (nth i (linspace 0 size k) 0).
      + apply nth_In. now rewrite linspace_length.
      + rewrite linspace_nth by exact Hi. rewrite Rminus_0_r. ring. }
  rewrite !L. split.
  - intros [(i & Hi & ->) (j & Hj & ->)]. now exists i, j.
  - intros (i & j & Hi & Hj & E). injection E as -> ->. split; [now exists i | now exists j].
Qed.

Lemma grid_length size k : length (grid_coords size k) = (k * k)%nat.
Proof.
  unfold grid_coords. rewrite combine_length. destruct (mesh_length (linspace 0 size k) (linspace 0 size k)) as [-> ->].
  rewrite !linspace_length. apply Nat.min_id.
Qed.

Lemma C86_regular angle size na n upright coords rnd p :
  (1 <= n)%nat -> (forall k i, 0 <= rnd k i < 1) ->
  rough_pyramids angle size na n upright true coords rnd = Ok p ->
  exists k, (2 <= k)%nat /\ ((k - 1) * (k - 1) < n <= k * k)%nat /\ length p = (k * k)%nat /\
    (forall c, In c (map xy p) <-> exists i j, (i < k)%nat /\ (j < k)%nat /\ c = (INR i * (size / INR (k - 1)), INR j * (size / INR (k - 1)))) /\
    forall v, In v p -> (edge size v /\ vz v = 0) \/
      (~ edge size v /\ exists e, 0 <= e < 1 /\
         vz v = (if upright then 1 else -1) * (tan (radians angle) * min4 size v + size / INR (k - 1) * tan na * e)).
Proof.
  intros Hn HR E. unfold rough_pyramids in E.
  destruct (first_step size (n_per_side n)) as [ds|e] eqn:F; [|discriminate]. cbn [rbind] in E. injection E as <-.
  destruct (first_step_ok _ _ _ F) as [Hk ->]. exists (n_per_side n). split; [exact Hk|].
  split; [now apply n_per_side_spec|].
  destruct (rough_pyramid_all angle size (size / INR (n_per_side n - 1) * tan na) upright (grid_coords size (n_per_side n)) true rnd HR) as [P H].
  rewrite app_nil_r in P. split; [|split; [|exact H]].
  - apply Permutation.Permutation_length in P. rewrite map_length, grid_length in P. exact P.
  - intros c. rewrite <- grid_spec by exact Hk. split; apply Permutation.Permutation_in; [exact P | now symmetry].
Qed.

Lemma C87_regular size na n coords rnd p :
  (1 <= n)%nat -> (forall i, 0 <= rnd i < 1) ->
  rough_planar_surface size na n true coords rnd = Ok p ->
  exists k, (2 <= k)%nat /\ ((k - 1) * (k - 1) < n <= k * k)%nat /\ length p = (k * k)%nat /\
    (forall c, In c (map xy p) <-> exists i j, (i < k)%nat /\ (j < k)%nat /\ c = (INR i * (size / INR (k - 1)), INR j * (size / INR (k - 1)))) /\
    forall v, In v p -> (edge size v /\ vz v = 0) \/
      (~ edge size v /\ exists e, 0 <= e < 1 /\ vz v = size / INR (k - 1) * tan na * e).
Proof.
  intros Hn HR E. unfold rough_planar_surface in E.
  destruct (first_step size (n_per_side n)) as [ds|e] eqn:F; [|discriminate]. cbn [rbind] in E. injection E as <-.
  destruct (first_step_ok _ _ _ F) as [Hk ->]. exists (n_per_side n). split; [exact Hk|].
  split; [now apply n_per_side_spec|].
  destruct (rough_planar_all size (size / INR (n_per_side n - 1) * tan na) (grid_coords size (n_per_side n)) true rnd HR) as [P H].
  rewrite app_nil_r in P. split; [|split; [|exact H]].
  - apply (f_equal (@length _)) in P. rewrite map_length, grid_length in P. exact P.
  - intros c. rewrite P. now apply grid_spec.
Qed.
