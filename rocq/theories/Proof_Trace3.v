(* The redistribution matrix of a ray-traced flat surface. *)
From Coq Require Import Reals List ZArith Bool Lia Lra.
From Verif Require Import Base Lib Model_Angles Spec_Angles Model_Ideal Model_MatMul Model_Optics Model_RayIface Model_RT Model_Surface Model_Trace Model_TMM
  Spec_Matrix Spec_TMM Spec_RT Spec_Surface Spec_Trace Proof_Angles Proof_AnglesProps Proof_RT Proof_RT2 Proof_TMM Proof_Slab2 Proof_Trace2 Prop_Angles.
Import ListNotations.
Open Scope R_scope.

Lemma refracts_unique n1 n2 t p q : 0 < n2 -> refracts n1 n2 t p -> refracts n1 n2 t q -> p = q.
Proof.
  intros H [A B] [C D]. assert (E : sin p = sin q). { apply Rmult_eq_reg_l with n2; lra. }
  pose proof PI_RGT_0. destruct (Rtotal_order p q) as [L|[L|L]]; auto; exfalso.
  - assert (sin p < sin q) by (apply sin_increasing_1; lra). lra.
  - assert (sin q < sin p) by (apply sin_increasing_1; lra). lra.
Qed.

Lemma rsum_count (f : R -> bool) l : rsum (map (fun u => if f u then 1 else 0) l) = INR (length (filter f l)).
Proof.
  induction l as [|a l IH]; [reflexivity|]. cbn [map rsum filter]. rewrite IH. destruct (f a).
  - cbn [length]. rewrite S_INR. lra.
  - lra.
Qed.

Lemma in_column_app col k W l l' : in_column col k W (l ++ l') = in_column col k W l + in_column col k W l'.
Proof. unfold in_column. rewrite map_app, rsum_app. reflexivity. Qed.

(* sums over the rays of a column are sums over the shots in its direction *)
Lemma in_column_draws (P : R * R -> shot -> ray -> Prop) col k W w theta phi : forall (l : plan) beams,
  Forall2 (fun q b => b_theta b = fst (fst q) /\ b_phi b = snd (fst q) /\ Forall2 (P (fst q)) (snd q) (b_rays b)) l beams ->
  (forall b, In b beams -> (col b = k <-> b_theta b = theta /\ b_phi b = phi)) ->
  (forall q b sh y, In q l -> In b beams -> In sh (snd q) -> In y (b_rays b) -> fst q = (theta, phi) -> P (theta, phi) sh y -> W y = w (sh_rnd sh 0%nat)) ->
  in_column col k W (pairs beams) = rsum (map w (draws_at l theta phi)).
Proof.
  intros l beams F. induction F as [|q b l beams [E1 [E2 F1]] F IH]; intros Hc HW; [reflexivity|].
  unfold pairs in *. cbn [flat_map]. unfold draws_at. cbn [flat_map]. rewrite in_column_app, map_app, rsum_app.
  rewrite IH; [|intros b' Hb'; apply Hc; now right|intros; eapply HW; eauto; now right].
  unfold draws_at. f_equal.
  assert (HW' : forall sh y, In sh (snd q) -> In y (b_rays b) -> fst q = (theta, phi) -> P (theta, phi) sh y -> W y = w (sh_rnd sh 0%nat)).
  { intros sh y H1 H2. eapply HW; eauto; now left. }
  specialize (Hc b (or_introl eq_refl)). destruct q as [[t f] shots]. cbn [fst snd] in *.
  unfold Reqb. destruct (Req_EM_T t theta) as [Et|Nt]; [destruct (Req_EM_T f phi) as [Ef|Nf]|]; cbn [andb].
  - rewrite Et, Ef in *. clear Et Ef. assert (K : col b = k) by (apply (proj2 Hc); auto). clear - F1 HW' K. revert F1 HW'. generalize (b_rays b). intros ys0 F1 HW'.
    induction F1 as [|sh y shots ys H1 F1 IH]; [reflexivity|]. unfold in_column in *. cbn [map rsum fst snd].
    rewrite K, Nat.eqb_refl. rewrite (HW' sh y (or_introl eq_refl) (or_introl eq_refl) eq_refl H1). f_equal.
    apply IH. intros sh' y' A B. apply HW'; now right.
  - assert (K : col b <> k) by (intros K; destruct (proj1 Hc K); congruence).
    apply in_column_none. intros b' y Hp. apply in_map_iff in Hp. destruct Hp as [y' [Ep _]]. injection Ep as <- _. auto.
  - assert (K : col b <> k) by (intros K; destruct (proj1 Hc K); congruence).
    apply in_column_none. intros b' y Hp. apply in_map_iff in Hp. destruct Hp as [y' [Ep _]]. injection Ep as <- _. auto.
Qed.

Lemma Forall2_in_r {A B} (P : A -> B -> Prop) l l' y : Forall2 P l l' -> In y l' -> exists x, In x l /\ P x y.
Proof.
  intros F. induction F as [|a b l l' H F IH]; intros [].
  - subst. exists a. split; [now left|auto].
  - destruct IH as [x [I K]]; auto. exists x. split; [now right|auto].
Qed.

Section Matrix.
  Variables (n : nat) (phi_sym c : R) (sp : spacing) (g : grid) (h m : nat).
  Hypothesis Hv : valid_request n phi_sym c.
  Hypothesis Hg : make_angle_vector n phi_sym c sp = Ok g.
  Hypothesis Hh : length (g_av g) = (2 * h)%nat.
  Hypothesis Hm : m_fold m phi_sym.
  Hypothesis He : Nat.even m = true.

  Variables (s : side) (tmm : bool) (n_abs : nat) (l : plan) (beams : list beam) (G : garbage) (n1 n2 : R)
            (fR fT fA : R -> R -> bool) (Aof : R -> list R).
  Hypothesis Hn1 : 0 < n1.
  Hypothesis Hn2 : 0 < n2.
  Hypothesis Hdir : forall q, In q l -> exists k r, (k < h)%nat /\ nth_error (g_av g) k = Some r /\ fst q = (a_theta r, a_phi r).
  Hypothesis Hpart : forall t u, (fR t u = true /\ fT t u = false /\ fA t u = false) \/
    (fR t u = false /\ fT t u = true /\ fA t u = false) \/ (fR t u = false /\ fT t u = false /\ fA t u = true).

  Definition behaves (tf : R * R) (sh : shot) (y : ray) : Prop :=
    let '(t, f) := tf in let u := sh_rnd sh 0%nat in
    (fR t u = true -> goes y t (f + PI)) /\
    (fT t u = true -> exists psi, refracts n1 n2 t psi /\ psi < PI / 2 /\ goes y (PI - psi) (f + PI)) /\
    (fA t u = true -> is_absorbed y (Aof t) t /\ tmm = true /\ length (Aof t) = n_abs /\ 0 < rsum (Aof t)).

  Hypothesis Hf : Forall2 (fun q b => b_theta b = fst (fst q) /\ b_phi b = snd (fst q) /\ Forall2 (behaves (fst q)) (snd q) (b_rays b)) l beams.

  Lemma sym_pos : 0 < phi_sym /\ exists mz : Z, IZR mz * phi_sym = 2 * PI.
  Proof.
    destruct Hm as [M1 M2]. assert (0 < INR m) by (apply lt_0_INR; lia). pose proof PI_RGT_0. split.
    - rewrite M2. apply Rdiv_lt_0_compat; lra.
    - exists (Z.of_nat m). rewrite <- INR_IZR_INZ, M2. field. lra.
  Qed.

  Lemma fold_self k r : nth_error (g_av g) k = Some r -> fold_phi (a_phi r) phi_sym = a_phi r.
  Proof.
    intros Hr. destruct sym_pos as [S [mz M]]. destruct (row_range n phi_sym c sp g h Hv Hg Hh k r Hr) as [_ B].
    apply (fold_phi_unique _ _ _ mz 0%Z); auto; lra.
  Qed.

  Lemma fold_turned k r (z : Z) : nth_error (g_av g) k = Some r ->
    fold_phi (a_phi r + PI + IZR z * (2 * PI)) phi_sym = a_phi r.
  Proof.
    intros Hr. destruct sym_pos as [S [mz M]].
    replace (IZR z * (2 * PI)) with (IZR (z * mz) * phi_sym) by (rewrite mult_IZR, Rmult_assoc, M; reflexivity).
    rewrite (fold_phi_periodic _ _ mz) by auto. apply (half_turn n phi_sym c sp g h m Hv Hg Hh Hm He k r Hr).
  Qed.

  Lemma upper k r : (k < h)%nat -> nth_error (g_av g) k = Some r -> 0 < a_theta r < PI / 2.
  Proof.
    intros Hk Hr. destruct (proj1 (C01_rows _ _ _ _ _ Hv Hg)) as [h' [Hh' Q]]. assert (h' = h) by lia. subst h'.
    destruct (Q k r Hr) as [Q1 _]. apply Q1. auto.
  Qed.

  Lemma plan_of b : In b beams -> exists k r, (k < h)%nat /\ nth_error (g_av g) k = Some r /\ b_theta b = a_theta r /\ b_phi b = a_phi r /\
    forall y, In y (b_rays b) -> exists sh, behaves (a_theta r, a_phi r) sh y.
  Proof.
    intros Hb. destruct (Forall2_in_r _ _ _ _ Hf Hb) as [q [Hq [E1 [E2 F]]]].
    destruct (Hdir q Hq) as (k & r & Hk & Hr & Eq). exists k, r. split; auto. split; auto.
    rewrite Eq in E1, E2. split; auto. split; auto. intros y Hy. destruct (Forall2_in_r _ _ _ _ F Hy) as [sh [_ B]]. exists sh.
    now rewrite Eq in B.
  Qed.

  (* what every ray does *)
  Lemma ray_cases k r sh y : (k < h)%nat -> nth_error (g_av g) k = Some r -> behaves (a_theta r, a_phi r) sh y ->
    good_ray tmm phi_sym n_abs y /\
    let u := sh_rnd sh 0%nat in
    (fR (a_theta r) u = true -> leaves y = true /\ ro_theta (y_out y) = a_theta r /\ fold_phi (y_phi y) phi_sym = a_phi r) /\
    (fT (a_theta r) u = true -> leaves y = true /\ fold_phi (y_phi y) phi_sym = a_phi r /\
       exists psi, refracts n1 n2 (a_theta r) psi /\ psi < PI / 2 /\ ro_theta (y_out y) = PI - psi) /\
    (fA (a_theta r) u = true -> leaves y = false).
  Proof.
    intros Hk Hr (B1 & B2 & B3). set (u := sh_rnd sh 0%nat) in *.
    pose proof (upper k r Hk Hr) as Ut. destruct (row_range n phi_sym c sp g h Hv Hg Hh k r Hr) as [_ Bp]. pose proof PI_RGT_0 as HP.
    destruct (Hpart (a_theta r) u) as [(P1 & P2 & P3)|[(P1 & P2 & P3)|(P1 & P2 & P3)]].
    - destruct (B1 P1) as (G1 & G2 & G3 & G4). destruct (G4 ltac:(apply sin_gt_0; lra)) as [z Ez].
      assert (F : fold_phi (y_phi y) phi_sym = a_phi r) by (rewrite Ez; apply (fold_turned k); auto).
      split.
      + unfold good_ray. rewrite G1, G2, F. lra.
      + split; [intros _; unfold leaves; rewrite G1; auto|]. split; intros Q; congruence.
    - destruct (B2 P2) as (psi & [R1 R2] & R3 & G1 & G2 & G3 & G4).
      assert (SP : 0 < psi).
      { destruct (Req_dec psi 0) as [E|NE]; [|lra]. rewrite E, sin_0 in R2. assert (0 < sin (a_theta r)) by (apply sin_gt_0; lra).
        exfalso. assert (0 < n1 * sin (a_theta r)) by (apply Rmult_lt_0_compat; auto). lra. }
      destruct (G4 ltac:(rewrite sin_PI_x; apply sin_gt_0; lra)) as [z Ez].
      assert (F : fold_phi (y_phi y) phi_sym = a_phi r) by (rewrite Ez; apply (fold_turned k); auto).
      split.
      + unfold good_ray. rewrite G1, G2, F. lra.
      + split; [intros; congruence|]. split; [|intros; congruence]. intros _. unfold leaves. rewrite G1. split; auto. split; auto.
        exists psi. split; [split; auto|auto].
    - destruct (B3 P3) as ((G1 & G2 & G3) & T1 & T2 & T3). split.
      + unfold good_ray. rewrite G1. split; auto. split; auto. split; auto. split; auto. rewrite G3, Rabs_pos_eq; lra.
      + split; [intros; congruence|]. split; [intros; congruence|]. intros _. unfold leaves. rewrite G1. auto.
  Qed.

  (* the row of the direction as seen from the side of incidence *)
  Lemma seen_row k r : (k < h)%nat -> nth_error (g_av g) k = Some r -> exists k' r', nth_error (g_av g) k' = Some r' /\
    a_theta r' = as_seen s (a_theta r) /\ a_phi r' = a_phi r.
  Proof.
    intros Hk Hr. destruct s; cbn [as_seen]; [exists k, r; auto|].
    destruct (opposite n phi_sym c sp g h m Hv Hg Hh Hm He) as (u & d & _ & _ & _ & _ & _ & _ & _ & _ & Q).
    destruct (Q k r Hr) as [r' [Q1 [Q2 Q3]]]. exists (opp phi_sym g k), r'. auto.
  Qed.

  Section Column.
    Variables (k : nat) (r : arow).
    Hypothesis Hk : (k < h)%nat.
    Hypothesis Hr : nth_error (g_av g) (channel_row s h k) = Some r.
    Let theta := incoming s (a_theta r).
    Let phi := a_phi r.
    Let kr := channel_row s h k.

    Lemma seen_theta : as_seen s theta = a_theta r.
    Proof. unfold theta. destruct s; cbn [as_seen incoming]; lra. Qed.

    Lemma front_row : exists k0 r0, (k0 < h)%nat /\ nth_error (g_av g) k0 = Some r0 /\ a_theta r0 = theta /\ a_phi r0 = phi.
    Proof.
      unfold theta, phi. destruct s eqn:S; cbn [incoming channel_row] in *; [exists k, r; auto|].
      destruct (opposite n phi_sym c sp g h m Hv Hg Hh Hm He) as (u & d & _ & _ & _ & _ & _ & _ & Q0 & _ & Q).
      destruct (Q (h + k)%nat r Hr) as [r' [Q1 [Q2 Q3]]]. exists (opp phi_sym g (h + k)), r'. split; [apply Q0; lia|]. auto.
    Qed.

    Lemma theta_range : 0 < theta < PI / 2.
    Proof. destruct front_row as (k0 & r0 & K & Q & <- & _). apply (upper k0); auto. Qed.

    Lemma col_iff col row : bins_of_rays s phi_sym g h beams col row -> forall b, In b beams ->
      (col b = k <-> b_theta b = theta /\ b_phi b = phi).
    Proof.
      intros [B _] b Hb. destruct (B b Hb) as [_ C]. destruct (plan_of b Hb) as (kb & rb & Hkb & Hrb & Et & Ep & _).
      rewrite Et, Ep in *. rewrite (fold_self kb rb Hrb) in C.
      destruct (seen_row kb rb Hkb Hrb) as (k' & r' & Hr' & T' & P'). rewrite <- T', <- P' in C.
      assert (C' : channel_row s h (col b) = k') by (apply (same_bin n phi_sym c sp g h Hv Hg Hh k' _ r' Hr'); destruct s; exact C).
      split.
      - intros Ck. rewrite Ck in C'. assert (r' = r) by congruence. subst r'. unfold theta, phi. rewrite T'. split; auto. destruct s; cbn [incoming as_seen]; lra.
      - intros [E1 E2]. assert (kr = k').
        { apply (same_bin n phi_sym c sp g h Hv Hg Hh k' _ r' Hr'). rewrite T', P', E1, E2, seen_theta.
          apply (own_bin n phi_sym c sp g Hv Hg kr r Hr). }
        unfold kr in H. rewrite <- C' in H. destruct s; cbn [channel_row] in H; lia.
    Qed.

    Let draws := draws_at l theta phi.

    Lemma counted_rays col row w W : bins_of_rays s phi_sym g h beams col row ->
      (forall b sh y, In b beams -> In y (b_rays b) -> behaves (theta, phi) sh y -> W y = w (sh_rnd sh 0%nat)) ->
      in_column col k W (pairs beams) = rsum (map w draws).
    Proof.
      intros HB HW. apply (in_column_draws behaves); auto.
      - apply (col_iff col row HB).
      - intros q b sh y _ Hb _ Hy _ P. eapply HW; eauto.
    Qed.

    Lemma count_all_rays col row : bins_of_rays s phi_sym g h beams col row -> n_rays_in col k beams = INR (length draws).
    Proof.
      intros HB. unfold n_rays_in. rewrite (counted_rays col row (fun _ => 1)) by auto.
      clear. induction draws as [|x l0 IH]; [reflexivity|]. cbn [map rsum length]. rewrite IH, S_INR. lra.
    Qed.

    Lemma all_good : forall b, In b beams -> good_beam phi_sym b /\ forall y, In y (b_rays b) -> good_ray tmm phi_sym n_abs y.
    Proof.
      intros b Hb. destruct (plan_of b Hb) as (kb & rb & Hkb & Hrb & Et & Ep & Hy). split.
      - unfold good_beam. rewrite Et, Ep, (fold_self kb rb Hrb). split; [apply (upper kb); auto|].
        destruct (row_range n phi_sym c sp g h Hv Hg Hh kb rb Hrb). lra.
      - intros y Iy. destruct (Hy y Iy) as [sh B]. apply (ray_cases kb rb sh y Hkb Hrb B).
    Qed.

    Lemma behaves_cases sh y : behaves (theta, phi) sh y -> let u := sh_rnd sh 0%nat in
      (fR theta u = true -> leaves y = true /\ ro_theta (y_out y) = theta /\ fold_phi (y_phi y) phi_sym = phi) /\
      (fT theta u = true -> leaves y = true /\ fold_phi (y_phi y) phi_sym = phi /\
         exists psi, refracts n1 n2 theta psi /\ psi < PI / 2 /\ ro_theta (y_out y) = PI - psi) /\
      (fA theta u = true -> leaves y = false).
    Proof.
      destruct front_row as (k0 & r0 & K & Q & E1 & E2). rewrite <- E1, <- E2. intros B. exact (proj2 (ray_cases k0 r0 sh y K Q B)).
    Qed.

    Lemma seen_onward psi : as_seen s (PI - psi) = onward s psi.
    Proof. destruct s; cbn [as_seen onward]; lra. Qed.

    Lemma psi_pos psi : refracts n1 n2 theta psi -> 0 < psi.
    Proof.
      intros [R1 R2]. pose proof theta_range. pose proof PI_RGT_0. destruct (Req_dec psi 0) as [E|NE]; [|lra]. rewrite E, sin_0 in R2.
      assert (0 < sin theta) by (apply sin_gt_0; lra). assert (0 < n1 * sin theta) by (apply Rmult_lt_0_compat; auto). lra.
    Qed.

    Lemma one_bin psi k1 k2 : refracts n1 n2 theta psi -> bin_contains g k1 (onward s psi) phi -> bin_contains g k2 (onward s psi) phi -> k1 = k2.
    Proof.
      intros Hp B1 B2. pose proof (psi_pos psi Hp). destruct Hp as [Hp _]. pose proof PI_RGT_0.
      destruct (row_range n phi_sym c sp g h Hv Hg Hh kr r Hr) as [_ B].
      destruct (C03_unique n phi_sym c sp g Hv Hg (onward s psi) phi) as [k0 [_ [_ [_ U]]]].
      - destruct s; cbn [onward]; lra.
      - unfold phi. lra.
      - rewrite (U k1 B1), (U k2 B2). reflexivity.
    Qed.

    (* a bin for the transmitted light: its direction is that of Snell's law if there is one *)
    Variable kt : nat.
    Hypothesis Hkt : forall psi, refracts n1 n2 theta psi -> psi < PI / 2 -> bin_contains g kt (onward s psi) phi.
    Hypothesis Hkk : kr <> kt.

    Lemma column_entries res : RT_wl s tmm phi_sym g n_abs beams G = Ok res -> draws <> [] ->
      has_shape (o_mat res) (2 * h) h /\
      (forall r', (r' < 2 * h)%nat -> entry (o_mat res) r' k = if Nat.eqb r' kr then share (fR theta) draws else if Nat.eqb r' kt then share (fT theta) draws else 0) /\
      col_total (o_Amat res) k = share (fA theta) draws.
    Proof.
      intros Eres Hd.
      destruct (rt_fractions n phi_sym c sp g h s tmm n_abs beams G Hv Hg Hh all_good) as [[col [row HB]] [res' [E' [S1 [_ Q]]]]].
      assert (res' = res) by congruence. subst res'. split; auto.
      assert (Hn : n_rays_in col k beams = INR (length draws)) by (apply (count_all_rays col row); auto).
      assert (Hpos : 0 < INR (length draws)) by (apply lt_0_INR; destruct draws; [congruence|cbn; lia]).
      destruct (Q col row HB k Hk) as (Q1 & Q2 & _); [lra|]. rewrite Hn in Q1, Q2. split.
      - intros r' Hr'. rewrite (Q1 r' Hr').
        rewrite (counted_rays col row (fun u => if (if Nat.eqb r' kr then fR theta u else if Nat.eqb r' kt then fT theta u else false) then 1 else 0)); auto.
        + rewrite rsum_count. unfold share. destruct (Nat.eqb r' kr); [reflexivity|]. destruct (Nat.eqb r' kt); [reflexivity|].
          replace (filter (fun _ : R => false) draws) with (@nil R) by (clear; induction draws; auto). cbn [length INR]. unfold Rdiv. ring.
        + intros b sh y Hb Hy B. destruct (behaves_cases sh y B) as (C1 & C2 & C3). set (u := sh_rnd sh 0%nat) in *.
          destruct (Hpart theta u) as [(P1 & P2 & P3)|[(P1 & P2 & P3)|(P1 & P2 & P3)]]; rewrite P1, P2.
          * destruct (C1 P1) as (L & Th & Ph). destruct (proj2 HB b y Hb Hy L) as [_ BR]. rewrite Th, Ph, seen_theta in BR.
            assert (row y = kr) by (apply (same_bin n phi_sym c sp g h Hv Hg Hh kr _ r Hr BR)). rewrite L, H. cbn [andb].
            rewrite (Nat.eqb_sym kr r'). destruct (Nat.eqb_spec r' kr); auto. destruct (Nat.eqb r' kt); auto.
          * destruct (C2 P2) as (L & Ph & psi & R1 & R2 & Th). destruct (proj2 HB b y Hb Hy L) as [_ BR]. rewrite Th, Ph, seen_onward in BR.
            assert (row y = kt) by (apply (one_bin psi); auto). rewrite L, H. cbn [andb].
            rewrite (Nat.eqb_sym kt r'). destruct (Nat.eqb_spec r' kr) as [->|]; [destruct (Nat.eqb_spec kr kt); congruence|]. destruct (Nat.eqb r' kt); auto.
          * rewrite (C3 P3). cbn [andb]. destruct (Nat.eqb r' kr); auto. destruct (Nat.eqb r' kt); auto.
      - rewrite Q2. unfold n_absorbed_in.
        rewrite (counted_rays col row (fun u => if fA theta u then 1 else 0)); auto.
        + rewrite rsum_count. reflexivity.
        + intros b sh y Hb Hy B. destruct (behaves_cases sh y B) as (C1 & C2 & C3). set (u := sh_rnd sh 0%nat) in *.
          destruct (Hpart theta u) as [(P1 & P2 & P3)|[(P1 & P2 & P3)|(P1 & P2 & P3)]]; rewrite P3.
          * destruct (C1 P1) as (-> & _). auto.
          * destruct (C2 P2) as (-> & _). auto.
          * rewrite (C3 P3). auto.
    Qed.
  End Column.
End Matrix.
