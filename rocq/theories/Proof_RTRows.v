(* Every ray that leaves is counted in some row, also if its direction is exactly vertical or at azimuth 0. *)
From Coq Require Import Reals List ZArith Bool Lia Lra.
From Verif Require Import Base Lib Model_Angles Model_Ideal Model_MatMul Model_Optics Model_RayIface Model_RT
  Spec_Angles Spec_Matrix Spec_RT Proof_Angles Proof_AnglesProps Proof_RT Proof_RT2.
Import ListNotations.
Open Scope R_scope.

(* a traced ray: as good_ray, but any direction; vertical ones have azimuth 0 *)
Definition fine_ray (tmm : bool) (n_abs : nat) (y : ray) : Prop :=
  match ro_A (y_out y) with
  | None => 0 <= ro_theta (y_out y) <= PI /\ (ro_theta (y_out y) = 0 \/ ro_theta (y_out y) = PI -> y_phi y = 0)
  | Some A => tmm = true /\ ro_theta (y_out y) = 10 /\ length A = n_abs /\ 0 < rsum A /\ Rabs (ro_loc (y_out y)) <= PI / 2
  end.

(* the row in which a direction is counted *)
Definition row_at (g : grid) (theta phi : R) : nat :=
  match full_bin false g theta phi with
  | Ok k => match py_pos (length (g_av g)) k with Ok r => r | Err _ => 0%nat end
  | Err _ => 0%nat
  end.
Definition row_of (s : side) (phi_sym : R) (g : grid) (y : ray) : nat := row_at g (as_seen s (ro_theta (y_out y))) (fold_phi (y_phi y) phi_sym).

Lemma digitize_mono x y l : x <= y -> (digitize_right x l <= digitize_right y l)%nat.
Proof.
  intros H. unfold digitize_right. induction l as [|a l IH]; [cbn; lia|]. cbn [filter].
  destruct (Rltb a x) eqn:E1; destruct (Rltb a y) eqn:E2; cbn [length]; try lia.
  apply Rltb_true in E1. apply Rltb_false in E2. lra.
Qed.

Section Rows.
  Variables (n m : nat) (phi_sym c : R) (sp : spacing) (g : grid) (h : nat).
  Hypothesis Hv : valid_request n phi_sym c.
  Hypothesis Hm : m_fold m phi_sym.
  Hypothesis Hg : make_angle_vector n phi_sym c sp = Ok g.
  Hypothesis Hh : length (g_av g) = (2 * h)%nat.

  Lemma h_pos' : (0 < h)%nat.
  Proof. pose proof (av_nonempty _ _ _ _ _ Hv Hg). destruct (g_av g); [congruence|]. cbn [length] in Hh. lia. Qed.

  Lemma bin_any tmm theta phi : 0 <= theta <= PI -> 0 <= phi <= phi_sym -> (theta = 0 -> phi = 0) ->
    exists k, full_bin tmm g theta phi = Ok k /\ py_pos (2 * h) k = Ok (row_at g theta phi) /\
      (row_at g theta phi < 2 * h)%nat /\ (polar_bin tmm g theta < 2 * Z.of_nat n)%Z.
  Proof.
    intros Ht Hp H0. pose proof h_pos' as HP. assert (1 <= n)%nat by (destruct Hv; auto).
    assert (MAIN : exists k, full_bin tmm g theta phi = Ok k /\ full_bin false g theta phi = Ok k /\ (-1 <= k < 2 * Z.of_nat h)%Z /\ (polar_bin tmm g theta < 2 * Z.of_nat n)%Z).
    { destruct (Req_dec theta 0) as [E|NE].
      - rewrite E, (H0 E). exists (-1)%Z. destruct (vertical_bin _ _ _ _ _ tmm Hv Hg) as [P ->]. destruct (vertical_bin _ _ _ _ _ false Hv Hg) as [_ ->].
        rewrite P. repeat split; lia.
      - assert (Ht' : 0 < theta <= PI) by lra. destruct (ring_of _ _ _ _ _ Hv Hg theta Ht') as (i & Hi & Ei & _).
        destruct (C03_unique _ _ _ _ _ Hv Hg theta phi_sym Ht') as (k0 & E0 & Hk0 & _); [destruct Hv; lra|].
        unfold bin_of, overall_bin in E0. rewrite Ei in E0.
        destruct (py_index (g_phi_intv g) (Z.of_nat i)) as [edges|] eqn:Ee; [|discriminate]. cbn [rbind] in E0.
        destruct (argmin Z.ltb (map (fun r => Z.abs (Z.of_nat (a_ring r) - Z.of_nat i)) (g_av g))) as [st|] eqn:Ea; [|discriminate]. cbn [rbind] in E0. injection E0 as E0.
        pose proof (digitize_mono phi phi_sym edges ltac:(lra)) as MO.
        assert (B : bin_of g theta phi = Ok (Z.of_nat st + (Z.of_nat (digitize_right phi edges) - 1))%Z).
        { unfold bin_of, overall_bin. rewrite Ei, Ee. cbn [rbind]. rewrite Ea. reflexivity. }
        eexists. split; [exact (full_bin_ext _ _ _ _ _ Hv Hg tmm _ _ _ Ht' B)|]. split; [exact (full_bin_ext _ _ _ _ _ Hv Hg false _ _ _ Ht' B)|].
        split; [rewrite Hh in Hk0; lia|]. unfold polar_bin. rewrite theta_bin_ext by lra. rewrite Ei. lia. }
    destruct MAIN as (k & E1 & E2 & K & P). exists k. split; [exact E1|].
    assert (Q : exists r, py_pos (2 * h) k = Ok r /\ (r < 2 * h)%nat).
    { unfold py_pos. destruct (Z.ltb_spec k 0).
      - destruct (Z.ltb_spec (k + Z.of_nat (2 * h)) 0); [lia|]. destruct (Z.leb_spec (Z.of_nat (2 * h)) (k + Z.of_nat (2 * h))); [lia|]. eexists. split; [reflexivity|]. lia.
      - destruct (Z.ltb_spec k 0); [lia|]. destruct (Z.leb_spec (Z.of_nat (2 * h)) k); [lia|]. eexists. split; [reflexivity|]. lia. }
    destruct Q as (r & Q1 & Q2). unfold row_at. rewrite E2, Hh, Q1. auto.
  Qed.

  (* for all other directions it is the bin of C03 *)
  Lemma row_at_bin theta phi r : 0 < theta <= PI -> 0 < phi <= phi_sym -> (bin_contains g r theta phi <-> r = row_at g theta phi).
  Proof.
    intros Ht Hp. destruct (C03_unique _ _ _ _ _ Hv Hg theta phi Ht Hp) as (k & E & Hk & C & U).
    assert (Q : row_at g theta phi = k).
    { unfold row_at. rewrite (full_bin_ext _ _ _ _ _ Hv Hg false _ _ _ Ht E). rewrite py_pos_ok by lia. lia. }
    rewrite Q. split; [intros B; apply U; exact B|intros ->; exact C].
  Qed.

  (* directions of the rows *)
  Lemma row_inside k r i j : nth_error (g_av g) k = Some r -> row_is g k i j ->
    0 < a_theta r < PI /\ fold_phi (a_phi r) phi_sym = a_phi r /\ 0 < a_phi r /\ bin_contains g k (a_theta r) (a_phi r).
  Proof.
    intros Hr Hij. pose proof Hij as [r' [E [Ei [[I1 I2] [J1 J2]]]]]. rewrite Hr in E. injection E as <-.
    destruct (C01_edges _ _ _ _ _ Hv Hg) as [LE [Inc [E0 [En [E2 _]]]]].
    assert (Hi : (i < 2 * n)%nat) by lia.
    destruct (proj2 (C01_rings _ _ _ _ _ Hv Hg) i Hi) as [_ [Inc' [E0' [E1' _]]]].
    assert (A1 : 0 <= nth i (g_theta_intv g) 0). { destruct i; [lra|]. pose proof (Inc 0%nat (S i) ltac:(lia)). lra. }
    assert (A2 : nth (S i) (g_theta_intv g) 0 <= PI). { destruct (Nat.eq_dec (S i) (2 * n)) as [->|]; [lra|]. pose proof (Inc (S i) (2 * n)%nat ltac:(lia)). lra. }
    assert (B1 : 0 <= nth j (phi_edges_of g i) 0). { destruct j; [lra|]. pose proof (Inc' 0%nat (S j) ltac:(lia)). lra. }
    assert (B2 : nth (S j) (phi_edges_of g i) 0 <= phi_sym).
    { rewrite <- E1'. destruct (Nat.eq_dec (S j) (length (phi_edges_of g i) - 1)) as [->|]; [lra|].
      pose proof (Inc' (S j) (length (phi_edges_of g i) - 1)%nat ltac:(lia)). lra. }
    split; [lra|]. split; [apply (C02_all m phi_sym (a_phi r) Hm); lra|]. split; [lra|].
    exists i, j. split; [exact Hij|]. unfold in_bin. repeat split; try lia; lra.
  Qed.

  Variables (s : side) (tmm : bool) (n_abs : nat).

  Lemma as_seen_twice th : as_seen s (as_seen s th) = th.
  Proof. destruct s; cbn [as_seen]; lra. Qed.

  Lemma row_of_fine y : fine_ray tmm n_abs y -> leaves y = true ->
    (exists k, full_bin tmm g (seen_out s (theta_out y)) (fold_phi (phi_out y) phi_sym) = Ok k /\ py_pos (2 * h) k = Ok (row_of s phi_sym g y)) /\
    (row_of s phi_sym g y < 2 * h)%nat /\ (polar_bin tmm g (seen_out s (theta_out y)) < 2 * Z.of_nat n)%Z.
  Proof.
    unfold fine_ray, leaves, theta_out, phi_out. destruct (ro_A (y_out y)) as [A|]; [discriminate|]. intros [H1 H2] _.
    replace (Rltb (ro_theta (y_out y)) 0) with false by (symmetry; apply Rltb_false; lra).
    assert (E : seen_out s (ro_theta (y_out y)) = as_seen s (ro_theta (y_out y))).
    { destruct s; cbn [as_seen seen_out]; auto. replace (Rltb (ro_theta (y_out y)) (PI + 1 / 10)) with true by (symmetry; apply Rltb_true; lra). reflexivity. }
    rewrite E. assert (F : 0 <= fold_phi (y_phi y) phi_sym <= phi_sym) by (pose proof (fold_phi_range (y_phi y) phi_sym ltac:(destruct Hv; tauto)); lra).
    destruct (bin_any tmm (as_seen s (ro_theta (y_out y))) (fold_phi (y_phi y) phi_sym)) as (k & B1 & B2 & B3 & B4); [destruct s; cbn [as_seen]; lra|exact F| |eauto].
    intros Z. rewrite H2 by (destruct s; cbn [as_seen] in Z; lra). apply (C02_all m phi_sym 0 Hm). destruct Hv. lra.
  Qed.

  (* the same ray in the middle of its row *)
  Definition middle (y : ray) : ray :=
    match nth_error (g_av g) (row_of s phi_sym g y) with
    | Some r => if leaves y then {| y_out := {| ro_theta := as_seen s (a_theta r); ro_A := None; ro_loc := ro_loc (y_out y); ro_dir := ro_dir (y_out y); ro_checks := ro_checks (y_out y) |};
                                    y_phi := a_phi r |} else y
    | None => y
    end.
  Definition middles (b : beam) : beam := {| b_theta := b_theta b; b_phi := b_phi b; b_rays := map middle (b_rays b) |}.

  Lemma middle_facts y : fine_ray tmm n_abs y -> leaves y = true ->
    exists r, nth_error (g_av g) (row_of s phi_sym g y) = Some r /\ leaves (middle y) = true /\ ro_theta (y_out (middle y)) = as_seen s (a_theta r) /\
      y_phi (middle y) = a_phi r /\ ro_loc (y_out (middle y)) = ro_loc (y_out y) /\ 0 < a_theta r < PI /\ fold_phi (a_phi r) phi_sym = a_phi r /\ 0 < a_phi r /\
      bin_contains g (row_of s phi_sym g y) (a_theta r) (a_phi r).
  Proof.
    intros H L. destruct (row_of_fine y H L) as (_ & R & _). destruct (nth_error (g_av g) (row_of s phi_sym g y)) as [r|] eqn:E; [|apply nth_error_None in E; lia].
    exists r. destruct (C01_rows _ _ _ _ _ Hv Hg) as [_ [R1 _]]. destruct (R1 (row_of s phi_sym g y) ltac:(lia)) as (i & j & Hij).
    destruct (row_inside _ _ _ _ E Hij) as (A1 & A2 & A3 & A4).
    unfold middle. rewrite E, L. cbn [y_out ro_theta y_phi ro_loc]. unfold leaves. cbn [y_out ro_A]. repeat split; auto; tauto.
  Qed.

  Lemma middle_good y : fine_ray tmm n_abs y -> good_ray tmm phi_sym n_abs (middle y).
  Proof.
    intros H. destruct (leaves y) eqn:L.
    - destruct (middle_facts y H L) as (r & _ & M1 & M2 & M3 & _ & M5 & M6 & M7 & _). unfold good_ray, leaves in *. destruct (ro_A (y_out (middle y))); [discriminate|].
      rewrite M2, M3, M6. split; [destruct s; cbn [as_seen]; lra|lra].
    - assert (E : middle y = y) by (unfold middle; rewrite L; destruct (nth_error _ _); reflexivity). rewrite E. unfold fine_ray, leaves in *. unfold good_ray. destruct (ro_A (y_out y)); [exact H|discriminate].
  Qed.
  Lemma middle_same y : fine_ray tmm n_abs y -> leaves (middle y) = leaves y /\ absorption (middle y) = absorption y.
  Proof.
    intros H. destruct (leaves y) eqn:L.
    - destruct (middle_facts y H L) as (r & _ & M1 & _). split; [exact M1|]. unfold leaves, absorption in *. destruct (ro_A (y_out (middle y))); [discriminate|]. destruct (ro_A (y_out y)); [discriminate|reflexivity].
    - assert (E : middle y = y) by (unfold middle; rewrite L; destruct (nth_error _ _); reflexivity). now rewrite E.
  Qed.

  (* counted alike *)
  Definition alike (v v' : event) : Prop :=
    v_in v = v_in v' /\ v_A v = v_A v' /\ v_loc v = v_loc v' /\ lf g v = lf g v' /\ (lf g v = true -> py_pos (2 * h) (v_out v) = py_pos (2 * h) (v_out v')).

  Lemma count_alike : forall l l', Forall2 alike l l' -> forall K, length (k_out K) = (2 * h)%nat -> count_all g K l = count_all g K l'.
  Proof.
    induction 1 as [|v v' l l' (A1 & A2 & A3 & A4 & A5) F IH]; intros K HK; [reflexivity|]. cbn [count_all].
    assert (E : count_ray g K v = count_ray g K v').
    { unfold count_ray. rewrite <- A1, <- A2, <- A3. change (Z.leb (v_ring v) (Z.of_nat (length (g_theta_intv g) - 1) - 1)) with (lf g v).
      change (Z.leb (v_ring v') (Z.of_nat (length (g_theta_intv g) - 1) - 1)) with (lf g v'). rewrite <- A4. destruct (lf g v); [|reflexivity]. rewrite HK, (A5 eq_refl). reflexivity. }
    rewrite <- E. destruct (count_ray g K v) as [K'|e] eqn:EK; [|reflexivity]. cbn [rbind]. apply IH.
    unfold count_ray in EK. destruct (py_pos (length (k_n K)) (v_in v)); [|discriminate]. cbn [rbind] in EK. destruct (Z.leb _ _).
    - destruct (py_pos (length (k_out K)) (v_out v)); [|discriminate]. cbn [rbind] in EK. injection EK as <-. cbn [k_out]. unfold mat_add. now rewrite set_nth_length.
    - destruct (py_pos (length (k_loc K)) (v_loc v)); [|discriminate]. cbn [rbind] in EK. injection EK as <-. exact HK.
  Qed.

  Definition event_of (col : Z) (y : ray) : event :=
    {| v_in := col;
       v_out := match full_bin tmm g (seen_out s (theta_out y)) (fold_phi (phi_out y) phi_sym) with Ok o => o | Err _ => 0%Z end;
       v_ring := polar_bin tmm g (seen_out s (theta_out y));
       v_A := if leaves y then repeat 0 n_abs else absorption y;
       v_loc := theta_bin (theta_intv_of tmm g) (Rabs (ro_loc (y_out y))) |}.

  Lemma fine_event col y : fine_ray tmm n_abs y -> bin_ray s tmm phi_sym g n_abs col y = Ok (event_of col y).
  Proof.
    intros H. unfold bin_ray, event_of.
    replace (layer_A n_abs y) with (@Ok (list R) (if leaves y then repeat 0 n_abs else absorption y)).
    2:{ unfold layer_A, leaves, absorption, fine_ray in *. destruct (ro_A (y_out y)); auto. destruct H as [_ [_ [-> _]]]. rewrite Nat.eqb_refl. auto. }
    cbn [rbind]. destruct (leaves y) eqn:L.
    - destruct (row_of_fine y H L) as ((k & -> & _) & _). reflexivity.
    - unfold fine_ray, leaves in *. destruct (ro_A (y_out y)); [|discriminate]. destruct H as (-> & Hth & _).
      assert (E : seen_out s (theta_out y) = 10).
      { unfold theta_out. rewrite Hth. replace (Rltb 10 0) with false by (symmetry; apply Rltb_false; lra).
        destruct s; cbn [seen_out]; auto. pose proof PI_4. replace (Rltb 10 (PI + 1 / 10)) with false by (symmetry; apply Rltb_false; lra). auto. }
      rewrite E. destruct (absorbed_bin _ _ _ _ _ Hv Hg (fold_phi (phi_out y) phi_sym)) as (k & ->). reflexivity.
  Qed.

  Lemma good_fine y : good_ray tmm phi_sym n_abs y -> fine_ray tmm n_abs y.
  Proof. unfold good_ray, fine_ray. destruct (ro_A (y_out y)); [auto|]. intros [H1 H2]. split; [lra|]. intros [E|E]; lra. Qed.

  Lemma middle_row y : fine_ray tmm n_abs y -> leaves y = true -> row_of s phi_sym g (middle y) = row_of s phi_sym g y.
  Proof.
    intros H L. destruct (middle_facts y H L) as (r & _ & M1 & M2 & M3 & _ & M5 & M6 & M7 & M8).
    unfold row_of at 1. rewrite M2, M3, M6, as_seen_twice. symmetry. apply row_at_bin; [lra| |exact M8].
    split; [lra|]. rewrite <- M6. pose proof (fold_phi_range (a_phi r) phi_sym ltac:(destruct Hv; tauto)). lra.
  Qed.

  Lemma middle_alike col y : fine_ray tmm n_abs y -> alike (event_of col y) (event_of col (middle y)).
  Proof.
    intros H. destruct (leaves y) eqn:L.
    - pose proof (good_fine _ (middle_good y H)) as H'. destruct (middle_facts y H L) as (r & _ & M1 & M2 & M3 & M4 & _).
      destruct (row_of_fine y H L) as ((k & K1 & K2) & _ & K3). destruct (row_of_fine _ H' M1) as ((k' & K1' & K2') & _ & K3').
      destruct (C01_edges _ _ _ _ _ Hv Hg) as [LE _].
      unfold alike, event_of, lf. cbn [v_in v_A v_loc v_ring v_out]. rewrite L, M1, M4, K1, K1', K2, K2', (middle_row y H L), LE.
      split; [reflexivity|]. split; [reflexivity|]. split; [reflexivity|]. split; [|reflexivity].
      transitivity true; [apply Z.leb_le; lia|symmetry; apply Z.leb_le; lia].
    - assert (E : middle y = y) by (unfold middle; rewrite L; destruct (nth_error _ _); reflexivity). rewrite E. unfold alike. tauto.
  Qed.

  Definition in_of (b : beam) : Z :=
    match full_bin tmm g (seen_in s (b_theta b)) (fold_phi (b_phi b) phi_sym) with Ok k => (k - Z.of_nat (Model_RT.offset s g))%Z | Err _ => 0%Z end.

  Lemma fine_events beams : (forall b, In b beams -> good_beam phi_sym b /\ forall y, In y (b_rays b) -> fine_ray tmm n_abs y) ->
    rconcat (map (bin_beam s tmm phi_sym g n_abs) beams) = Ok (flat_map (fun b => map (event_of (in_of b)) (b_rays b)) beams).
  Proof.
    intros H. apply rconcat_ok. intros b Hb. destruct (H b Hb) as [Gb Fb]. unfold bin_beam, in_of.
    destruct (seen_range phi_sym s b Gb) as [R1 _]. change (seen_in s (b_theta b)) with (as_seen s (b_theta b)).
    destruct (C03_unique _ _ _ _ _ Hv Hg (as_seen s (b_theta b)) (fold_phi (b_phi b) phi_sym) R1) as (k & E & _).
    { destruct Gb as [_ F]. pose proof (fold_phi_range (b_phi b) phi_sym ltac:(destruct Hv; tauto)). lra. }
    rewrite (full_bin_ext _ _ _ _ _ Hv Hg tmm _ _ _ R1 E). cbn [rbind]. apply rmap_ok. intros y Hy. apply fine_event. auto.
  Qed.

  Lemma RT_wl_middles beams G : (forall b, In b beams -> good_beam phi_sym b /\ forall y, In y (b_rays b) -> fine_ray tmm n_abs y) ->
    RT_wl s tmm phi_sym g n_abs beams G = RT_wl s tmm phi_sym g n_abs (map middles beams) G /\
    (forall b, In b (map middles beams) -> good_beam phi_sym b /\ forall y, In y (b_rays b) -> good_ray tmm phi_sym n_abs y).
  Proof.
    intros H.
    assert (GM : forall b, In b (map middles beams) -> good_beam phi_sym b /\ forall y, In y (b_rays b) -> good_ray tmm phi_sym n_abs y).
    { intros b Hb. apply in_map_iff in Hb. destruct Hb as (b' & <- & Hb). destruct (H b' Hb) as [Gb Fb]. split; [exact Gb|].
      intros y Hy. cbn [middles b_rays] in Hy. apply in_map_iff in Hy. destruct Hy as (y' & <- & Hy). apply middle_good. auto. }
    split; [|exact GM]. unfold RT_wl. rewrite (fine_events beams H), (fine_events (map middles beams)).
    2:{ intros b Hb. destruct (GM b Hb) as [A B]. split; [exact A|]. intros y Hy. apply good_fine. auto. }
    cbn [rbind].
    assert (F : Forall2 alike (flat_map (fun b => map (event_of (in_of b)) (b_rays b)) beams)
                              (flat_map (fun b => map (event_of (in_of b)) (b_rays b)) (map middles beams))).
    { clear GM. induction beams as [|b l IH]; [constructor|]. cbn [map flat_map]. apply Forall2_app; [|apply IH; intros; apply H; now right].
      destruct (H b (or_introl eq_refl)) as [_ Fb]. cbn [middles b_rays]. change (in_of (middles b)) with (in_of b). generalize (in_of b). intros z.
      induction (b_rays b) as [|y r IHr]; [constructor|]. cbn [map]. constructor; [apply middle_alike, Fb; now left|apply IHr; intros; apply Fb; now right]. }
    rewrite (count_alike _ _ F); [reflexivity|]. unfold count_start. cbn [k_out]. unfold zeros. now rewrite repeat_length.
  Qed.

  (* the column of a direction of incidence *)
  Definition col_of (b : beam) : nat := (row_at g (as_seen s (b_theta b)) (fold_phi (b_phi b) phi_sym) - match s with Front => 0 | Rear => h end)%nat.

  Lemma middles_bins beams : (forall b, In b beams -> good_beam phi_sym b /\ forall y, In y (b_rays b) -> fine_ray tmm n_abs y) ->
    bins_of_rays s phi_sym g h (map middles beams) col_of (row_of s phi_sym g).
  Proof.
    intros H. destruct (RT_wl_middles beams {| gb_out := fun _ _ => None; gb_frac := fun _ => None; gb_scale := fun _ => None |} H) as [_ GM]. split.
    - intros b Hb. destruct (GM b Hb) as [Gb _]. destruct (seen_range phi_sym s b Gb) as [R1 R2].
      assert (F : 0 < fold_phi (b_phi b) phi_sym <= phi_sym). { destruct Gb as [_ F]. pose proof (fold_phi_range (b_phi b) phi_sym ltac:(destruct Hv; tauto)). lra. }
      pose proof (proj2 (row_at_bin _ _ _ R1 F) eq_refl) as C. set (k := row_at g _ _) in *. pose proof (bin_half _ _ _ _ _ Hv Hg h _ _ _ Hh C) as Hf. rewrite R2 in Hf.
      unfold col_of. fold k. destruct (C03_unique _ _ _ _ _ Hv Hg _ _ R1 F) as (k' & _ & Hk' & _ & U). rewrite <- (U _ C) in Hk'.
      destruct s.
      + rewrite Nat.sub_0_r. split; [apply Hf; reflexivity|exact C].
      + assert (h <= k)%nat. { destruct (Nat.lt_ge_cases k h) as [L|]; auto. apply Hf in L. discriminate. }
        split; [lia|]. replace (h + (k - h))%nat with k by lia. exact C.
    - intros b y Hb Hy L. destruct (GM b Hb) as [_ Gy]. specialize (Gy y Hy). pose proof (good_fine _ Gy) as Fy.
      destruct (row_of_fine y Fy L) as (_ & R & _). split; [exact R|]. apply row_at_bin; [| |reflexivity].
      + unfold good_ray, leaves in *. destruct (ro_A (y_out y)); [discriminate|]. destruct s; cbn [as_seen]; lra.
      + unfold good_ray, leaves in *. destruct (ro_A (y_out y)); [discriminate|]. pose proof (fold_phi_range (y_phi y) phi_sym ltac:(destruct Hv; tauto)). lra.
  Qed.

  Lemma in_column_middles k W W' beams : (forall b y, In b beams -> In y (b_rays b) -> W (middle y) = W' y) ->
    in_column col_of k W (pairs (map middles beams)) = in_column col_of k W' (pairs beams).
  Proof.
    intros H. unfold in_column, pairs. f_equal. induction beams as [|b l IH]; [reflexivity|]. cbn [map flat_map]. rewrite !map_app. f_equal; [|apply IH; intros; eapply H; eauto; now right].
    cbn [middles b_rays]. rewrite !map_map. cbn [fst snd]. apply map_ext_in. intros y Hy. change (col_of (middles b)) with (col_of b).
    destruct (Nat.eqb (col_of b) k); [|reflexivity]. apply (H b); [now left|exact Hy].
  Qed.

  Lemma fine_main beams G : (forall b, In b beams -> good_beam phi_sym b /\ forall y, In y (b_rays b) -> fine_ray tmm n_abs y) ->
    exists out, RT_wl s tmm phi_sym g n_abs beams G = Ok out /\ has_shape (o_mat out) (2 * h) h /\ has_shape (o_Amat out) n_abs h /\
    forall k, (k < h)%nat -> 0 < n_rays_in col_of k beams ->
      (forall r, (r < 2 * h)%nat -> entry (o_mat out) r k =
         in_column col_of k (fun y => if leaves y && Nat.eqb (row_of s phi_sym g y) r then 1 else 0) (pairs beams) / n_rays_in col_of k beams) /\
      col_total (o_Amat out) k = n_absorbed_in col_of k beams / n_rays_in col_of k beams /\
      (forall l, (l < n_abs)%nat -> entry (o_Amat out) l k = n_absorbed_in col_of k beams / n_rays_in col_of k beams *
         (in_column col_of k (fun y => nth l (absorption y) 0) (pairs beams) / in_column col_of k (fun y => rsum (absorption y)) (pairs beams))) /\
      col_total (o_mat out) k + col_total (o_Amat out) k = 1.
  Proof.
    intros H. destruct (RT_wl_middles beams G H) as [-> GM]. pose proof (middles_bins beams H) as HB.
    destruct (rt_fractions n phi_sym c sp g h s tmm n_abs (map middles beams) G Hv Hg Hh GM) as (_ & out & E & S1 & S2 & M).
    destruct (rt_main n phi_sym c sp g h s tmm n_abs (map middles beams) G Hv Hg Hh GM) as (out' & E' & _ & _ & _ & _ & M').
    rewrite E in E'. injection E' as <-. exists out. split; [exact E|]. split; [exact S1|]. split; [exact S2|]. intros k Hk HN.
    assert (N1 : n_rays_in col_of k (map middles beams) = n_rays_in col_of k beams) by (apply in_column_middles; reflexivity).
    assert (N2 : n_absorbed_in col_of k (map middles beams) = n_absorbed_in col_of k beams).
    { apply in_column_middles. intros b y Hb Hy. now rewrite (proj1 (middle_same y (proj2 (H b Hb) y Hy))). }
    rewrite <- N1 in HN. specialize (M _ _ HB k Hk HN). specialize (M' _ _ HB k Hk).
    destruct M as (M1 & M2 & M3). destruct M' as (_ & M4 & _). rewrite N1 in *. rewrite N2 in *.
    assert (C : forall r, in_column col_of k (fun y => if leaves y && Nat.eqb (row_of s phi_sym g y) r then 1 else 0) (pairs (map middles beams)) =
      in_column col_of k (fun y => if leaves y && Nat.eqb (row_of s phi_sym g y) r then 1 else 0) (pairs beams)).
    { intros r. apply in_column_middles. intros b y Hb Hy. pose proof (proj2 (H b Hb) y Hy) as Fy. rewrite (proj1 (middle_same y Fy)).
      destruct (leaves y) eqn:L; [|reflexivity]. now rewrite (middle_row y Fy L). }
    split; [intros r Hr; rewrite M1 by exact Hr; now rewrite C|]. split; [exact M2|]. split; [|exact M3].
    intros l Hl. rewrite M4 by (auto; lra). f_equal. f_equal.
    - apply in_column_middles. intros b y Hb Hy. now rewrite (proj2 (middle_same y (proj2 (H b Hb) y Hy))).
    - apply in_column_middles. intros b y Hb Hy. now rewrite (proj2 (middle_same y (proj2 (H b Hb) y Hy))).
  Qed.
End Rows.
