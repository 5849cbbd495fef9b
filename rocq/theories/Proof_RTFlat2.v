(* RT on a flat surface: averages of the entries of the matrices. *)
From Coq Require Import Reals List Bool ZArith Lia Lra FunctionalExtensionality.
From Verif Require Import Base Lib Model_Angles Model_Ideal Model_MatMul Model_Optics Model_OpticsC Model_RayIface Model_RayStack Model_RT Model_Surface Model_RTStruct Model_Trace
  Model_StackCalc Model_RTCalc Spec_Angles Spec_Matrix Spec_Optics Spec_OpticsC Spec_RayIface Spec_RT Spec_RTStruct Spec_Surface Spec_Trace Spec_StackRay Spec_Mean Spec_Chance Spec_RTCalc
  Proof_Angles Proof_AnglesProps Proof_Optics Proof_RayIface Proof_RT Proof_RT2 Proof_Trace Proof_Trace2 Proof_Trace3 Proof_StackFlat Proof_StackCalc Proof_Mean Proof_Trees
  Proof_RTRows Proof_RTCalc Proof_RTFlat Proof_RTChance Prop_OpticsC.
Import ListNotations.
Open Scope R_scope.

(* half a turn and any number of full ones *)
Lemma fold_half m phi_sym phi (j : Z) : m_fold m phi_sym -> Nat.even m = true -> fold_phi (phi + PI + IZR j * (2 * PI)) phi_sym = fold_phi phi phi_sym.
Proof.
  intros [M1 M2] E. apply Nat.even_spec in E. destruct E as [q ->]. pose proof PI_RGT_0 as PP.
  assert (Q : 0 < INR q) by (apply lt_0_INR; lia). rewrite mult_INR in M2. cbn [INR] in M2.
  assert (S : 0 < phi_sym) by (rewrite M2; apply Rdiv_lt_0_compat; lra).
  assert (P : IZR (Z.of_nat q) * phi_sym = PI) by (rewrite <- INR_IZR_INZ, M2; field; lra).
  replace (phi + PI + IZR j * (2 * PI)) with (phi + IZR (Z.of_nat q + j * (2 * Z.of_nat q)) * phi_sym).
  - apply (fold_phi_periodic _ _ (2 * Z.of_nat q)); [exact S|]. rewrite mult_IZR. rewrite Rmult_assoc, P. reflexivity.
  - rewrite plus_IZR, !mult_IZR. rewrite Rmult_plus_distr_r, P. replace (IZR j * (IZR 2 * IZR (Z.of_nat q)) * phi_sym) with (IZR j * (2 * (IZR (Z.of_nat q) * phi_sym))) by ring. rewrite P. ring.
Qed.

Section Average.
  Variables (outer fuel : nat) (s : side) (only : bool) (o : rm_options) (table : option (Z -> R -> table_entry)) (n_abs : nat) (inc trn : material)
    (texture : rtsurf * rtsurf) (z : rm_draws) (G : garbage) (g : grid) (n m : nat) (z0 a b : R).
  Hypothesis HQ : sound_request s o table n_abs inc trn texture z.
  Hypothesis HG : angular_grid o g.
  Hypothesis HI : inclined only o z.
  Hypothesis HN : (3 + fuel <= n)%nat.
  Hypothesis Hm : m_fold m (m_phisym o).
  Hypothesis He : Nat.even m = true.
  Hypothesis HF : flat_surface z0 a b (facing_surface s texture).
  Hypothesis Ha : 0 < a.
  Hypothesis Hb : 0 < b.
  Hypothesis HC : smooth_crossing s o table inc trn.
  Hypothesis HP : probable_table table.
  Let value u := RT_matrices (Datatypes.S outer) (3 + fuel) s only o table n_abs inc trn texture (rm_numbers z n u) G.
  Let back := back_share s o table inc trn.
  Let through := through_share s o table inc trn.

  Lemma shares_range theta : 0 < theta < PI / 2 -> 0 <= back theta /\ 0 <= through theta /\ back theta + through theta <= 1.
  Proof.
    intros Ht. unfold back, through, through_share, back_share. destruct (sq_media _ _ _ _ _ _ _ _ HQ) as [M1 M2]. pose proof PI_RGT_0. destruct table as [ent|].
    - destruct (HP ent (own_side s) theta eq_refl) as (P1 & P2 & P3). auto.
    - assert (Q : 0 <= fresnel_Rc (above s inc trn (m_wl o)) (beyond s inc trn (m_wl o)) theta (m_pol o) <= 1).
      { apply C169_probability; try lra; unfold above, beyond; clear - M1 M2; destruct s; assumption. }
      lra.
  Qed.

  Lemma bent_range theta : 0 < theta < PI / 2 -> re (above s inc trn (m_wl o)) * sin theta < re (beyond s inc trn (m_wl o)) -> 0 < bent s o inc trn theta < PI / 2.
  Proof.
    intros Ht LT. pose proof PI_RGT_0. destruct (sq_media _ _ _ _ _ _ _ _ HQ) as [M1 M2]. unfold bent. set (here := above s inc trn (m_wl o)) in *. set (there := beyond s inc trn (m_wl o)) in *.
    assert (MM : 0 < re here /\ 0 < re there) by (unfold here, there, above, beyond; clear - M1 M2; destruct s, M1, M2; auto).
    assert (ST : 0 < sin theta) by (apply sin_gt_0; lra).
    assert (XB : 0 < re here * sin theta / re there < 1).
    { split; [apply Rdiv_lt_0_compat; try tauto; apply Rmult_lt_0_compat; tauto|]. apply Rmult_lt_reg_r with (re there); [tauto|]. unfold Rdiv. rewrite Rmult_assoc, Rinv_l by lra. lra. }
    pose proof (asin_bound_lt (re here * sin theta / re there) ltac:(lra)). split; [|lra]. now apply asin_pos.
  Qed.

  (* one ray *)
  Lemma flat_part k theta phi w x h dirs K : length (g_av g) = (2 * h)%nat -> (k < h)%nat -> dir_of o dirs K = (theta, phi) ->
    0 < theta < PI / 2 -> fold_phi phi (m_phisym o) <> 0 -> in_its_column s (m_phisym o) g k theta phi -> used s o g h dirs k K = true ->
    flat_share s o table inc trn g k theta phi w x ->
    mean n (part (Datatypes.S outer) (3 + fuel) s o table inc trn texture z g h dirs w k K) x.
  Proof.
    intros Hh Hk HK Ht HF0 [_ IC] HU HX. destruct n as [|n']; [lia|]. pose proof (sq_grid _ _ _ _ _ _ _ _ HQ) as V. pose proof PI_RGT_0 as PP.
    assert (P : 0 < fold_phi phi (m_phisym o) <= m_phisym o). { pose proof (fold_phi_range phi (m_phisym o) ltac:(destruct V; tauto)). lra. }
    destruct (shares_range theta Ht) as (S1 & S2 & S3).
    set (A := match w with IntoBin r => if Nat.eqb (column_row s h k) r then 1 else 0 | InLayers => 0 end).
    set (B := match w with IntoBin r => if Nat.eqb (row_at g (as_seen s (PI - bent s o inc trn theta)) (fold_phi phi (m_phisym o))) r then 1 else 0 | InLayers => 0 end).
    set (D := match w with IntoBin _ => 0 | InLayers => 1 end).
    set (there := beyond s inc trn (m_wl o)) in *. set (here := above s inc trn (m_wl o)) in *.
    assert (ONE : forall v, fractions v -> part (Datatypes.S outer) (3 + fuel) s o table inc trn texture z g h dirs w k K v =
      match fate_of s o table inc trn theta (v 0%nat) with Back => A | Onward => B | Stays _ => D end /\
      (fate_of s o table inc trn theta (v 0%nat) = Onward -> re here * sin theta < re there)).
    { intros v Hv. unfold part. rewrite HU. unfold ray_at. rewrite HK. cbn [fst snd].
      pose proof (numbers_sound s o table n_abs inc trn texture z HQ v 0 Hv) as HQv.
      destruct (flat_fate outer fuel s o table n_abs inc trn texture (rm_numbers z 0 v) z0 a b HQv HF Ha Hb HC theta phi K
        (fst (xy_of s o texture z (K mod (m_nx o * m_ny o)))) (snd (xy_of s o texture z (K mod (m_nx o * m_ny o)))) Ht) as (y & -> & FY).
      cbn [rm_numbers z_rnd] in FY. rewrite Nat.mul_0_r in FY. cbn [Nat.add] in FY. destruct (fate_of s o table inc trn theta (v 0%nat)) as [| |L] eqn:EF.
      - split; [|discriminate]. destruct FY as (G1 & G2 & _ & G4). destruct (G4 ltac:(apply sin_gt_0; lra)) as [j Ej].
        assert (RO : row_of s (m_phisym o) g y = column_row s h k).
        { unfold row_of. rewrite G2, Ej, (fold_half m _ _ _ Hm He). rewrite (half_len g h Hh) in IC. symmetry. apply (row_at_bin _ _ _ _ g h V HG Hh); auto. apply as_seen_in. exact Ht. }
        unfold counts_in, A. destruct w; unfold leaves; rewrite G1; [rewrite RO; reflexivity|reflexivity].
      - destruct FY as [LT (G1 & G2 & _ & G4)]. split; [|intros _; exact LT].
        pose proof (bent_range theta Ht LT) as BB.
        destruct (G4 ltac:(rewrite sin_PI_x; apply sin_gt_0; lra)) as [j Ej].
        unfold counts_in, B. destruct w; unfold leaves; rewrite G1; [|reflexivity]. cbn [andb]. unfold row_of. rewrite G2, Ej, (fold_half m _ _ _ Hm He). reflexivity.
      - split; [|discriminate]. destruct FY as (G1 & _). unfold counts_in, D. destruct w; unfold leaves; rewrite G1; reflexivity. }
    (* nothing goes onward when it cannot be refracted *)
    assert (TZ : ~ re here * sin theta < re there -> through theta = 0).
    { intros NL. apply Rle_antisym; [|exact S2]. apply Rnot_lt_le. intros TP.
      assert (HU1 : exists u0, 0 <= u0 < 1 /\ back theta < u0 /\ u0 <= back theta + through theta).
      { exists (back theta + through theta / 2). lra. }
      destruct HU1 as (u0 & U1 & U2 & U3). destruct (ONE (fun _ => u0) ltac:(intros i; exact U1)) as [_ Q]. apply NL, Q.
      unfold fate_of. fold back through. rewrite (proj2 (Rleb_false _ _)) by lra. destruct table; [|reflexivity]. rewrite (proj2 (Rleb_true _ _)) by lra. reflexivity. }
    assert (VALUE : mean (Datatypes.S n') (part (Datatypes.S outer) (3 + fuel) s o table inc trn texture z g h dirs w k K) (back theta * A + (back theta + through theta - back theta) * B + (1 - (back theta + through theta)) * D)).
    { exists (cut3 (back theta) (back theta + through theta) A B D). split; [|apply mean1_cut3; lra]. intros v Hv.
      apply (mean_ext _ (fun _ => cut3 (back theta) (back theta + through theta) A B D v)); [|apply mean_const].
      intros u Hu. symmetry. rewrite (proj1 (ONE (before v u) ltac:(intros [|i]; cbn [before]; auto))). cbn [before]. unfold cut3, fate_of. fold back through.
      destruct (Rleb v (back theta)) eqn:E1; [reflexivity|]. destruct table as [ent|] eqn:ET; [destruct (Rleb v (back theta + through theta)); reflexivity|].
      rewrite (proj2 (Rleb_true _ _)); [reflexivity|]. unfold through, through_share. fold back. lra. }
    assert (RB : re here * sin theta < re there -> forall r, bin_contains g r (as_seen s (PI - bent s o inc trn theta)) (fold_phi phi (m_phisym o)) <-> r = row_at g (as_seen s (PI - bent s o inc trn theta)) (fold_phi phi (m_phisym o))).
    { intros LT r. apply (row_at_bin _ _ _ _ g h V HG Hh); [|exact P].
      pose proof (bent_range theta Ht LT) as BB. clear - PP BB. destruct s; cbn [as_seen]; lra. }
    assert (OWN : re here * sin theta < re there -> row_at g (as_seen s (PI - bent s o inc trn theta)) (fold_phi phi (m_phisym o)) <> column_row s h k).
    { intros LT E. pose proof (bent_range theta Ht LT) as BB. symmetry in E. apply (RB LT) in E. rewrite (half_len g h Hh) in IC.
      pose proof (bin_half _ _ _ _ g V HG h _ _ _ Hh IC) as H1. pose proof (bin_half _ _ _ _ g V HG h _ _ _ Hh E) as H2.
      clear - H1 H2 BB Ht PP. destruct s; cbn [as_seen column_row] in *; [pose proof (proj1 H2 (proj2 H1 ltac:(lra)))|pose proof (proj1 H1 (proj2 H2 ltac:(lra)))]; lra. }
    match type of VALUE with mean _ _ ?v => replace x with v; [exact VALUE|] end.
    destruct HX as [|r LT BC|r R1 R2 R3|]; unfold A, B, D; fold back through.
    - rewrite (half_len g h Hh), Nat.eqb_refl. destruct (Rlt_dec (re here * sin theta) (re there)) as [LT|NL].
      + rewrite (proj2 (Nat.eqb_neq _ _) (OWN LT)). ring.
      + rewrite (TZ NL). ring.
    - apply (RB LT) in BC. subst r. rewrite Nat.eqb_refl, (proj2 (Nat.eqb_neq _ _)) by (apply not_eq_sym, OWN, LT). ring.
    - rewrite (half_len g h Hh) in R2. rewrite (proj2 (Nat.eqb_neq _ _)) by (apply not_eq_sym, R2). destruct (Rlt_dec (re here * sin theta) (re there)) as [LT|NL].
      + rewrite (proj2 (Nat.eqb_neq _ _)); [ring|]. intros E. apply (R3 LT). apply (RB LT). auto.
      + rewrite (TZ NL). ring.
    - ring.
  Qed.

  Lemma sums_to (P : nat -> bool) x : forall N c, rsum (map (fun K => if P K then x else 0) (seq c N)) = INR (cnt P N c) * x.
  Proof. induction N as [|N IH]; intros c; [cbn; ring|]. cbn [seq map rsum cnt]. rewrite IH, plus_INR. destruct (P c); cbn [INR]; ring. Qed.

  (* a column whose light all comes from one direction *)
  Lemma flat_average k theta phi w x l : (k < length (g_av g) / 2)%nat -> directions_in only s o z g k l ->
    (forall i theta' phi', goes_out only o z g i theta' phi' -> in_its_column s (m_phisym o) g k theta' phi' -> theta' = theta /\ phi' = phi) ->
    flat_share s o table inc trn g k theta phi w x ->
    let N := (how_many_directions only o g * (m_nx o * m_ny o) * n)%nat in
    mean N (fun u => share_in k w (value u)) x /\
    forall eps, 0 < eps -> rarely_off N (fun u => share_in k w (value u)) x eps (1 / (4 * INR (length l * (m_nx o * m_ny o)) * eps ^ 2)).
  Proof.
    intros Hk HL HO HX N. pose proof (sq_grid _ _ _ _ _ _ _ _ HQ) as V. destruct (proj1 (C01_rows _ _ _ _ _ V HG)) as [h [Hh _]]. rewrite (half_len g h Hh) in Hk.
    destruct (dirs_given only o z g HI) as [dirs HD]. destruct (dirs_out s only o table n_abs inc trn texture z g h dirs HQ HG Hh HI HD) as [LD DO].
    destruct (cnt_directions s only o table n_abs inc trn texture z g h dirs HQ HG Hh HI HD k l Hk HL) as [C1 C2].
    pose proof (sq_rays _ _ _ _ _ _ _ _ HQ) as NB.
    assert (HM : forall K, (K < length dirs * (m_nx o * m_ny o))%nat -> mean n (part (Datatypes.S outer) (3 + fuel) s o table inc trn texture z g h dirs w k K) (if used s o g h dirs k K then x else 0)).
    { intros K HK. destruct (used s o g h dirs k K) eqn:U.
      - assert (KD : (K / (m_nx o * m_ny o) < length dirs)%nat) by (apply Nat.div_lt_upper_bound; lia).
        destruct (dir_of o dirs K) as [th ph] eqn:ED. assert (EN : nth_error dirs (K / (m_nx o * m_ny o)) = Some (th, ph)) by (rewrite <- ED; apply nth_error_nth'; exact KD).
        assert (IC : in_its_column s (m_phisym o) g k th ph).
        { apply (dir_in_column s only o table n_abs inc trn texture z g h dirs HQ HG Hh HI HD k _ th ph Hk EN). unfold used in U. apply Nat.eqb_eq in U. rewrite ED in U. exact U. }
        destruct (HO _ _ _ (proj2 (DO _ _ _) EN) IC) as [-> ->].
        destruct (dirs_inclined s only o table n_abs inc trn texture z HQ g h HG Hh dirs HI HD _ (nth_error_In _ _ EN)) as [T F].
        exact (flat_part k theta phi w x h dirs K Hh Hk ED T F IC U HX).
      - apply (mean_ext n (fun _ => 0)); [|apply mean_const]. intros v _. unfold part. rewrite U. reflexivity. }
    assert (Ends : forall u, fractions u -> value u <> None).
    { intros u Hu. pose proof (numbers_sound s o table n_abs inc trn texture z HQ u n Hu) as HQu.
      destruct (flat_ends outer fuel s o table n_abs inc trn texture (rm_numbers z n u) z0 a b HQu HF Ha Hb HC only G g HG HI) as [out E]. unfold value. rewrite E. discriminate. }
    assert (Hw : forall r, w = IntoBin r -> (r < 2 * h)%nat).
    { clear - HX Hk Hh. intros r Er. destruct HX as [|r0 LT BC|r0 R1 R2 R3|]; try discriminate; injection Er as <-.
      - change (fst (Nat.divmod (length (g_av g)) 1 0 1)) with (length (g_av g) / 2)%nat. rewrite (half_len g h Hh). destruct s; cbn [column_row]; lia.
      - destruct BC as (i & j & (r1 & Hr1 & _) & _). rewrite <- Hh. apply nth_error_Some. congruence.
      - rewrite <- Hh. exact R1. }
    destruct (share_average (Datatypes.S outer) (3 + fuel) s only o table n_abs inc trn texture z G g h n dirs HQ HG Hh HI HD HN Ends k w _ Hk Hw ltac:(lia) HM) as [M1 M2].
    cbv zeta in M1, M2. rewrite sums_to in M1, M2. set (C := cnt (used s o g h dirs k) (length dirs * (m_nx o * m_ny o)) 0) in *.
    assert (CP : 0 < INR C) by (apply lt_0_INR; lia). replace (/ INR C * (INR C * x)) with x in M1, M2 by (field; lra).
    unfold N. rewrite <- LD. split; [exact M1|]. intros eps Heps. refine (fewer_rays _ _ _ eps _ _ _ _ Heps (M2 eps Heps)); [apply lt_0_INR; lia|apply le_INR; exact C2].
  Qed.
End Average.
