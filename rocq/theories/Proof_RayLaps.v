(* Between two hits single_interface_check makes a bounded number of iterations. *)
From Coq Require Import Reals List Bool ZArith Lra Lia Psatz.
From Verif Require Import Base Lib Model_Optics Spec_Optics Proof_Optics Proof_Geom
  Model_RayIface Spec_RayIface Proof_RayIface.
Import ListNotations.
Open Scope R_scope.

Section Laps.
  Variables (Lx Ly : R).
  Hypothesis HLx : 0 < Lx.
  Hypothesis HLy : 0 < Ly.

  Lemma wrap_range r : let q := wrap_cell Lx Ly r in
    0 <= vx q <= Lx /\ 0 <= vy q <= Ly /\ vz q = vz r /\
    (vx q = vx r \/ ((vx r < 0 \/ Lx < vx r) /\ vx q < Lx)) /\
    (vy q = vy r \/ ((vy r < 0 \/ Ly < vy r) /\ vy q < Ly)).
  Proof.
    intros q. unfold q, wrap_cell. clear q.
    pose proof (pymod_range (vx r) Lx HLx) as Px.
    destruct (Rltb Lx (vx r) || Rltb (vx r) 0) eqn:A.
    - assert (HA : vx r < 0 \/ Lx < vx r).
      { apply orb_prop in A as [A|A]; apply Rltb_true in A; lra. }
      cbn [set_x vy].
      pose proof (pymod_range (vy r) Ly HLy) as Py.
      destruct (Rltb Ly (vy r) || Rltb (vy r) 0) eqn:B.
      + assert (HB : vy r < 0 \/ Ly < vy r).
        { apply orb_prop in B as [B|B]; apply Rltb_true in B; lra. }
        unfold set_y, set_x; cbn [vx vy vz]. repeat apply conj; try lra; try (right; split; [assumption|lra]); try (left; lra).
      + apply orb_false_elim in B as [B1 B2]. apply Rltb_false in B1. apply Rltb_false in B2.
        unfold set_x; cbn [vx vy vz]. repeat apply conj; try lra; try (right; split; [assumption|lra]); try (left; lra).
    - apply orb_false_elim in A as [A1 A2]. apply Rltb_false in A1. apply Rltb_false in A2.
      pose proof (pymod_range (vy r) Ly HLy) as Py.
      destruct (Rltb Ly (vy r) || Rltb (vy r) 0) eqn:B.
      + assert (HB : vy r < 0 \/ Ly < vy r).
        { apply orb_prop in B as [B|B]; apply Rltb_true in B; lra. }
        unfold set_y; cbn [vx vy vz]. repeat apply conj; try lra; try (right; split; [assumption|lra]); try (left; lra).
      + apply orb_false_elim in B as [B1 B2]. apply Rltb_false in B1. apply Rltb_false in B2.
        repeat apply conj; try lra; try (right; split; [assumption|lra]); try (left; lra).
  Qed.

  (* distance travelled since the entry wall *)
  Definition prog (L dx x : R) : R := if Rltb dx 0 then L - x else x.

  Lemma prog_range L dx x : 0 <= x <= L -> 0 <= prog L dx x <= L.
  Proof. intros. unfold prog. destruct (Rltb dx 0); lra. Qed.

  (* free motion then wrapping does not increase progress more than the distance moved *)
  Lemma prog_move L dx x t x' : 0 < L -> 0 <= x <= L -> 0 <= t ->
    (x' = x + t * dx \/ ((x + t * dx < 0 \/ L < x + t * dx) /\ 0 <= x' < L)) ->
    prog L dx x' <= prog L dx x + t * Rabs dx.
  Proof.
    intros HL Hx Ht Hc. unfold prog. destruct (Rltb dx 0) eqn:E.
    - apply Rltb_true in E. rewrite Rabs_left by lra.
      destruct Hc as [->|[Hc Hr]]; [lra|]. assert (t * dx <= 0) by nra. nra.
    - apply Rltb_false in E. rewrite Rabs_right by lra.
      destruct Hc as [->|[Hc Hr]]; [lra|]. assert (0 <= t * dx) by nra. nra.
  Qed.

  Definition is_x (w : nat) : bool := match w with 1%nat | 3%nat => true | _ => false end.

  (* a positive wall distance means the wall is ahead *)
  Lemma wall_opt_pos num den t : num <= 0 -> wall_opt num den = Some t ->
    den < 0 /\ t * den = num /\ 0 < t.
  Proof.
    intros Hn. unfold wall_opt. destruct (Reqb den 0) eqn:E0.
    - destruct (Rltb 0 (num / (1 / 10 ^ 12))) eqn:E1; [|discriminate].
      apply Rltb_true in E1. exfalso.
      assert (num / (1 / 10 ^ 12) = num * 10 ^ 12) by (field; lra). lra.
    - apply Reqb_false in E0. destruct (Rltb 0 (num / den)) eqn:E1; [|discriminate].
      intros H. injection H as <-. apply Rltb_true in E1.
      assert (E : num / den * den = num) by (field; exact E0).
      split; [|split; assumption]. nra.
  Qed.

  (* one lap: where it goes and how far *)
  Lemma lap r d w t : 0 <= vx r <= Lx -> 0 <= vy r <= Ly ->
    exit_side r d Lx Ly = (w, Some t) ->
    0 < t /\
    let q := vadd (vadd r (vscale t d)) (translation Lx Ly w) in
    vz q = vz r + t * vz d /\
    ((is_x w = true /\ t * Rabs (vx d) = Lx - prog Lx (vx d) (vx r) /\
      0 <= vx q <= Lx /\ prog Lx (vx d) (vx q) = 0 /\ vy q = vy r + t * vy d) \/
     (is_x w = false /\ t * Rabs (vy d) = Ly - prog Ly (vy d) (vy r) /\
      0 <= vy q <= Ly /\ prog Ly (vy d) (vy q) = 0 /\ vx q = vx r + t * vx d)).
  Proof.
    intros Hx Hy He. unfold exit_side in He. rewrite wall_ts_eq in He.
    destruct (argmin_some olt [wall_opt (vy r - Ly) (- vy d); wall_opt (vx r - Lx) (- vx d);
                               wall_opt (- vy r) (vy d); wall_opt (- vx r) (vx d)]
               ltac:(discriminate)) as [k Hk].
    rewrite Hk in He. destruct (argmin_olt _ _ Hk) as [Hl _]. cbn [length] in Hl.
    injection He as Hw Ht. subst w.
    unfold translation, vadd, vscale. cbn [vx vy vz]. unfold prog.
    destruct k as [|[|[|[|k]]]]; [| | | |lia]; cbn [nth] in Ht;
      apply wall_opt_pos in Ht; try lra; destruct Ht as (H1 & H2 & H3);
      cbn [nth vx vy vz is_x]; (split; [exact H3|]); (split; [ring|]).
    - right. rewrite (proj2 (Rltb_false (vy d) 0)) by lra. rewrite (Rabs_pos_eq (vy d)) by lra.
      repeat apply conj; try reflexivity; lra.
    - left. rewrite (proj2 (Rltb_false (vx d) 0)) by lra. rewrite (Rabs_pos_eq (vx d)) by lra.
      repeat apply conj; try reflexivity; lra.
    - right. rewrite (proj2 (Rltb_true (vy d) 0)) by lra. rewrite (Rabs_left (vy d)) by lra.
      repeat apply conj; try reflexivity; lra.
    - left. rewrite (proj2 (Rltb_true (vx d) 0)) by lra. rewrite (Rabs_left (vx d)) by lra.
      repeat apply conj; try reflexivity; lra.
  Qed.

  (* after kx laps across x walls and ky laps across y walls, s time units after height z0 *)
  Definition lapinv (d : vec) (z0 : R) (kx ky : nat) (s : R) (r : vec) : Prop :=
    let q := wrap_cell Lx Ly r in
    vz r = z0 + s * vz d /\ 0 <= s /\
    (INR kx - 1) * Lx + prog Lx (vx d) (vx q) <= s * Rabs (vx d) /\
    (INR ky - 1) * Ly + prog Ly (vy d) (vy q) <= s * Rabs (vy d).

  Lemma lapinv_start d r : lapinv d (vz r) 0 0 0 r.
  Proof.
    unfold lapinv. destruct (wrap_range r) as (H1 & H2 & _).
    pose proof (prog_range Lx (vx d) _ H1). pose proof (prog_range Ly (vy d) _ H2).
    cbn [INR]. repeat apply conj; lra.
  Qed.

  Lemma prog_wrap_x r : 0 <= vx r <= Lx -> vx (wrap_cell Lx Ly r) = vx r.
  Proof.
    intros H. unfold wrap_cell.
    replace (Rltb Lx (vx r) || Rltb (vx r) 0) with false.
    - destruct (_ || _); reflexivity.
    - symmetry. apply orb_false_intro; apply Rltb_false; lra.
  Qed.

  Lemma prog_wrap_y r : 0 <= vy r <= Ly -> vy (wrap_cell Lx Ly r) = vy r.
  Proof.
    intros H. unfold wrap_cell.
    destruct (Rltb Lx (vx r) || Rltb (vx r) 0);
      [change (vy (set_x r (pymod (vx r) Lx))) with (vy r)|];
      (replace (Rltb Ly (vy r) || Rltb (vy r) 0) with false;
       [reflexivity|symmetry; apply orb_false_intro; apply Rltb_false; lra]).
  Qed.

  Lemma lapinv_step d z0 kx ky s r w t :
    lapinv d z0 kx ky s r ->
    exit_side (wrap_cell Lx Ly r) d Lx Ly = (w, Some t) ->
    let r' := vadd (vadd (wrap_cell Lx Ly r) (vscale t d)) (translation Lx Ly w) in
    0 < t /\ exists kx' ky', (kx' + ky' = S (kx + ky))%nat /\ lapinv d z0 kx' ky' (s + t) r'.
  Proof.
    intros (Hz & Hs & Ix & Iy) He r'.
    destruct (wrap_range r) as (Qx & Qy & Qz & _).
    destruct (lap _ d w t Qx Qy He) as (Ht & Hz' & Hcase). fold r' in Hz', Hcase.
    split; [exact Ht|].
    destruct (wrap_range r') as (Qx' & Qy' & _ & Wx & Wy).
    assert (HZ : vz r' = z0 + (s + t) * vz d) by (rewrite Hz', Qz, Hz; ring).
    destruct Hcase as [(_ & E1 & E2 & E3 & E4)|(_ & E1 & E2 & E3 & E4)].
    - exists (S kx), ky. split; [lia|]. unfold lapinv.
      split; [exact HZ|]. split; [lra|]. rewrite (prog_wrap_x r' E2), E3, S_INR. split; [lra|].
      assert (P : prog Ly (vy d) (vy (wrap_cell Lx Ly r')) <=
                  prog Ly (vy d) (vy (wrap_cell Lx Ly r)) + t * Rabs (vy d)).
      { apply prog_move; try assumption; try lra.
      }
      lra.
    - exists kx, (S ky). split; [lia|]. unfold lapinv.
      split; [exact HZ|]. split; [lra|]. rewrite (prog_wrap_y r' E2), E3, S_INR. split; [|lra].
      assert (P : prog Lx (vx d) (vx (wrap_cell Lx Ly r')) <=
                  prog Lx (vx d) (vx (wrap_cell Lx Ly r)) + t * Rabs (vx d)).
      { apply prog_move; try assumption; try lra.
      }
      lra.
  Qed.

  Lemma rate_nonneg d : 0 <= rate Lx Ly d.
  Proof.
    unfold rate, Rdiv. pose proof (Rabs_pos (vx d)). pose proof (Rabs_pos (vy d)).
    pose proof (Rinv_0_lt_compat _ HLx). pose proof (Rinv_0_lt_compat _ HLy). nra.
  Qed.

  Lemma lapinv_bound d z0 kx ky s r : lapinv d z0 kx ky s r -> INR (kx + ky) - 2 <= s * rate Lx Ly d.
  Proof.
    intros (_ & Hs & Ix & Iy). destruct (wrap_range r) as (Qx & Qy & _).
    pose proof (prog_range Lx (vx d) _ Qx). pose proof (prog_range Ly (vy d) _ Qy).
    assert (Ax : INR kx - 1 <= s * (Rabs (vx d) / Lx)).
    { apply Rmult_le_reg_r with Lx; [exact HLx|].
      replace (s * (Rabs (vx d) / Lx) * Lx) with (s * Rabs (vx d)) by (field; lra). lra. }
    assert (Ay : INR ky - 1 <= s * (Rabs (vy d) / Ly)).
    { apply Rmult_le_reg_r with Ly; [exact HLy|].
      replace (s * (Rabs (vy d) / Ly) * Ly) with (s * Rabs (vy d)) by (field; lra). lra. }
    unfold rate. rewrite plus_INR. lra.
  Qed.
End Laps.

(* ---------- the loop ---------- *)

Lemma lap_bound_spec Lx Ly zlo zhi z0 d : 0 < Lx -> 0 < Ly -> vz d <> 0 ->
  3 + (Rabs (z0 - zlo) + Rabs (zhi - z0)) / Rabs (vz d) * rate Lx Ly d
    < INR (lap_bound Lx Ly zlo zhi z0 d).
Proof.
  intros HLx HLy Hz. unfold lap_bound.
  set (B := 3 + _). pose proof (archimed B) as [Hup _].
  assert (HB : 0 <= B).
  { unfold B. pose proof (rate_nonneg Lx Ly HLx HLy d).
    pose proof (Rabs_pos (z0 - zlo)). pose proof (Rabs_pos (zhi - z0)).
    assert (0 < / Rabs (vz d)) by (apply Rinv_0_lt_compat, Rabs_pos_lt, Hz).
    assert (0 <= (Rabs (z0 - zlo) + Rabs (zhi - z0)) / Rabs (vz d)) by (unfold Rdiv; nra). nra. }
  rewrite INR_IZR_INZ, Z2Nat.id; [exact Hup|].
  apply le_IZR. lra.
Qed.

Section Run.
  Variables (E : env) (zlo zhi : R) (d : vec) (d0z : R).
  Hypothesis HLx : 0 < e_Lx E.
  Hypothesis HLy : 0 < e_Ly E.
  Hypothesis Hlo : forall k, zlo <= s_zmin (e_surf E k).
  Hypothesis Hhi : forall k, s_zmax (e_surf E k) <= zhi.

  Lemma finishes_step n st : 
    match istep E d0z st with
    | inl st' => i_nint st' = S (i_nint st) \/ (i_nint st' = i_nint st /\ finishes E d0z n st')
    | inr _ => True
    end -> finishes E d0z (S n) st.
  Proof.
    intros H. unfold finishes. destruct (istep E d0z st) as [st'|o] eqn:Es.
    - destruct H as [H|[He (k & Hk & H)]].
      + exists 1%nat. split; [lia|]. cbn [isteps]. rewrite Es. exact H.
      + exists (S k). split; [lia|]. cbn [isteps]. rewrite Es.
        destruct (isteps k E d0z st') as [st''|]; [rewrite H, He; reflexivity|exact I].
    - exists 1%nat. split; [lia|]. cbn [isteps]. rewrite Es. exact I.
  Qed.

  (* outcome of one iteration in a state after the first translation *)
  Lemma checked_step st : i_checked st = true -> i_theta st <> None -> i_d st = d ->
    (exists o, istep E d0z st = inr o) \/
    (exists st', istep E d0z st = inl st' /\ i_nint st' = S (i_nint st)) \/
    (exists r w ot, i_r st = Some r /\
       exit_side (wrap_cell (e_Lx E) (e_Ly E) r) d (e_Lx E) (e_Ly E) = (w, ot) /\
       ((vz d < 0 /\ zlo < vz r) \/ (0 < vz d /\ vz r < zhi)) /\
       exists st', istep E d0z st = inl st' /\ i_nint st' = i_nint st /\
         i_checked st' = true /\ i_theta st' = i_theta st /\ i_d st' = d /\
         i_r st' = match ot with
                   | Some t => Some (vadd (vadd (wrap_cell (e_Lx E) (e_Ly E) r) (vscale t d))
                                          (translation (e_Lx E) (e_Ly E) w))
                   | None => None end).
  Proof.
    intros Hc Hth Hd. unfold istep. rewrite Hc, Hd.
    destruct (check_pos (i_r st) d (e_surf E (i_ref st))) as [h|].
    - destruct (e_dec E _ _ _ _ _) as [[d' s'] [A|]]; [left; eauto|right; left].
      eexists. split; [reflexivity|]. reflexivity.
    - cbn [negb]. destruct (still_inside (i_side st) d (i_r st) (e_surf E (i_ref st))) eqn:Es.
      + right. right. destruct (i_r st) as [r|] eqn:Er; [|discriminate].
        destruct (exit_side (wrap_cell (e_Lx E) (e_Ly E) r) d (e_Lx E) (e_Ly E)) as [w ot] eqn:Ex.
        exists r, w, ot. split; [reflexivity|]. split; [exact Ex|]. split.
        * cbn [still_inside] in Es. apply orb_prop in Es as [Es|Es];
            apply andb_prop in Es as [Es E2]; apply andb_prop in Es as [_ E1];
            apply Rltb_true in E1; apply Rltb_true in E2.
          { left. split; [exact E1|]. pose proof (Hlo (i_ref st)). lra. }
          { right. split; [exact E1|]. pose proof (Hhi (i_ref st)). lra. }
        * eexists. split; [reflexivity|]. cbn [i_nint i_checked i_theta i_d i_r].
          repeat apply conj; try reflexivity.
      + left. destruct (i_theta st); [eauto|congruence].
  Qed.

  Lemma nan_finishes st : i_checked st = true -> i_theta st <> None -> i_r st = None -> finishes E d0z 1 st.
  Proof.
    intros Hc Hth Hr. apply finishes_step. unfold istep. rewrite Hc, Hr. cbn [check_pos negb still_inside].
    destruct (i_theta st); [exact I|congruence].
  Qed.

  Lemma laps_finish z0 (Hdz : vz d <> 0) : forall m kx ky s st r,
    i_checked st = true -> i_theta st <> None -> i_d st = d -> i_r st = Some r ->
    lapinv (e_Lx E) (e_Ly E) d z0 kx ky s r ->
    (lap_bound (e_Lx E) (e_Ly E) zlo zhi z0 d <= kx + ky + m)%nat ->
    finishes E d0z (S (S m)) st.
  Proof.
    induction m as [|m IH]; intros kx ky s st r Hc Hth Hd Hr Hinv Hm.
    all: destruct (checked_step st Hc Hth Hd) as [(o & Es)|[(st' & Es & Hn)|
           (r0 & w & ot & Hr0 & Hex & Hz & st' & Es & Hn & Hc' & Hth' & Hd' & Hr')]];
      [apply finishes_step; rewrite Es; exact I
      |apply finishes_step; rewrite Es; left; exact Hn
      |].
    all: assert (r0 = r) by congruence; subst r0.
    - exfalso. pose proof (lapinv_bound _ _ HLx HLy _ _ _ _ _ _ Hinv) as Hb.
      pose proof (lap_bound_spec (e_Lx E) (e_Ly E) zlo zhi z0 d HLx HLy Hdz) as HB.
      apply le_INR in Hm. rewrite Nat.add_0_r in Hm.
      destruct Hinv as (Hvz & Hs & _).
      assert (Hs' : s * Rabs (vz d) <= Rabs (z0 - zlo) + Rabs (zhi - z0)).
      { pose proof (Rle_abs (z0 - zlo)). pose proof (Rle_abs (zhi - z0)).
        pose proof (Rabs_pos (z0 - zlo)). pose proof (Rabs_pos (zhi - z0)).
        destruct Hz as [[Hz1 Hz2]|[Hz1 Hz2]].
        - rewrite (Rabs_left (vz d)) by lra. nra.
        - rewrite (Rabs_pos_eq (vz d)) by lra. nra. }
      assert (Hsd : s <= (Rabs (z0 - zlo) + Rabs (zhi - z0)) / Rabs (vz d)).
      { assert (0 < Rabs (vz d)) by (apply Rabs_pos_lt, Hdz).
        apply Rmult_le_reg_r with (Rabs (vz d)); [lra|].
        unfold Rdiv. rewrite Rmult_assoc, Rinv_l by lra. lra. }
      pose proof (rate_nonneg _ _ HLx HLy d).
      assert (s * rate (e_Lx E) (e_Ly E) d <=
              (Rabs (z0 - zlo) + Rabs (zhi - z0)) / Rabs (vz d) * rate (e_Lx E) (e_Ly E) d) by nra.
      lra.
    - apply finishes_step. rewrite Es. right. split; [exact Hn|].
      destruct ot as [t|].
      + destruct (lapinv_step _ _ HLx HLy _ _ _ _ _ _ _ _ Hinv Hex) as (Ht & kx' & ky' & Hk & Hinv').
        apply (IH kx' ky' (s + t) st' _ Hc' ltac:(rewrite Hth'; exact Hth) Hd' Hr' Hinv'). lia.
      + destruct (nan_finishes st' Hc' ltac:(rewrite Hth'; exact Hth) Hr') as (k & Hk & H).
        exists k. split; [lia|exact H].
  Qed.

  (* z of the position is not changed by the first translation *)
  Lemma translation_z w : vz (translation (e_Lx E) (e_Ly E) w) = 0.
  Proof. unfold translation. destruct w as [|[|[|[|w]]]]; try reflexivity. destruct w; reflexivity. Qed.

  Lemma after_hit_finishes st : (0 < i_i1 st)%nat -> i_theta st <> None -> i_d st = d -> vz d <> 0 ->
    forall r, i_r st = Some r ->
    finishes E d0z (3 + lap_bound (e_Lx E) (e_Ly E) zlo zhi (vz r) d) st.
  Proof.
    intros Hi Hth Hd Hdz r Hr. destruct (i_checked st) eqn:Hc.
    - destruct (laps_finish (vz r) Hdz (lap_bound (e_Lx E) (e_Ly E) zlo zhi (vz r) d) 0 0 0 st r
                  Hc Hth Hd Hr (lapinv_start _ _ HLx HLy d r) ltac:(lia)) as (k & Hk & H).
      exists k. split; [lia|exact H].
    - apply finishes_step. unfold istep. rewrite Hc, Hd, Hr.
      destruct (check_pos (Some r) d (e_surf E (i_ref st))) as [h|].
      + destruct (e_dec E _ _ _ _ _) as [[d' s'] [A|]]; [exact I|left; reflexivity].
      + cbn [negb]. replace (Nat.ltb 1 (S (i_i1 st))) with true by (symmetry; apply Nat.ltb_lt; lia).
        right. split; [reflexivity|].
        set (r' := vadd r _).
        assert (Hz : vz r' = vz r) by (unfold r', vadd; cbn [vz]; rewrite translation_z; ring).
        pose proof (lapinv_start _ _ HLx HLy d r') as HI. rewrite Hz in HI.
        refine (laps_finish (vz r) Hdz (lap_bound (e_Lx E) (e_Ly E) zlo zhi (vz r) d) 0 0 0 _ r' _ _ _ _ HI _);
          cbn [i_checked i_theta i_d i_r]; try reflexivity; try assumption.
  Qed.
End Run.

(* horizontal rays leave at once *)
Lemma horizontal_finishes E d0z st : (0 < i_i1 st)%nat -> i_theta st <> None -> vz (i_d st) = 0 ->
  finishes E d0z 2 st.
Proof.
  intros Hi Hth Hz. destruct (i_checked st) eqn:Hc.
  - assert (H1 : finishes E d0z 1 st).
    { apply finishes_step. unfold istep. rewrite Hc.
      destruct (check_pos _ _ _) as [h|].
      - destruct (e_dec E _ _ _ _ _) as [[d' s'] [A|]]; [exact I|left; reflexivity].
      - cbn [negb]. replace (still_inside _ _ _ _) with false.
        + destruct (i_theta st); [exact I|congruence].
        + symmetry. unfold still_inside. destruct (i_r st); [|reflexivity].
          rewrite (proj2 (Rltb_false (vz (i_d st)) 0)) by lra.
          rewrite (proj2 (Rltb_false 0 (vz (i_d st)))) by lra.
          rewrite !andb_false_r. reflexivity. }
    destruct H1 as (k & Hk & H). exists k. split; [lia|exact H].
  - apply finishes_step. unfold istep. rewrite Hc.
    destruct (check_pos _ _ _) as [h|].
    + destruct (e_dec E _ _ _ _ _) as [[d' s'] [A|]]; [exact I|left; reflexivity].
    + cbn [negb]. replace (Nat.ltb 1 (S (i_i1 st))) with true by (symmetry; apply Nat.ltb_lt; lia).
      right. split; [reflexivity|]. apply finishes_step. unfold istep.
      cbn [i_r i_d i_side i_checked i_misses i_i1 i_theta i_nint i_ref negb].
      destruct (check_pos _ _ _) as [h|].
      * destruct (e_dec E _ _ _ _ _) as [[d' s'] [A|]]; [exact I|left; reflexivity].
      * replace (still_inside _ _ _ _) with false.
        { destruct (i_theta st); [exact I|congruence]. }
        { symmetry. unfold still_inside. destruct (i_r st); [|reflexivity].
          rewrite (proj2 (Rltb_false (vz (i_d st)) 0)) by lra.
          rewrite (proj2 (Rltb_false 0 (vz (i_d st)))) by lra.
          rewrite !andb_false_r. reflexivity. }
Qed.
