(* RT on a flat surface: what becomes of a ray, and that every ray ends. *)
From Coq Require Import Reals List Bool ZArith Lia Lra.
From Verif Require Import Base Lib Model_Angles Model_Ideal Model_MatMul Model_Optics Model_OpticsC Model_RayIface Model_RayStack Model_RT Model_Surface Model_RTStruct Model_Trace
  Model_StackCalc Model_RTCalc Spec_Angles Spec_Matrix Spec_Optics Spec_OpticsC Spec_RayIface Spec_RT Spec_RTStruct Spec_Surface Spec_Trace Spec_StackRay Spec_RTCalc
  Proof_Angles Proof_AnglesProps Proof_Optics Proof_RayIface Proof_Trace Proof_Trace2 Proof_StackFlat Proof_StackCalc Proof_RTRows Proof_RTCalc.
Import ListNotations.
Open Scope R_scope.

Lemma down_travel theta phi : down theta phi = travel 1 theta (phi + PI).
Proof. unfold down, travel. rewrite neg_cos, neg_sin. apply vec_ext; cbn [vx vy vz]; ring. Qed.
Lemma facing_up : facing_normal 1 = mkv 0 0 1.
Proof. unfold facing_normal, vscale. apply vec_ext; cbn [vx vy vz]; ring. Qed.

Lemma asin_pos x : 0 < x < 1 -> 0 < asin x.
Proof.
  intros H. pose proof (asin_bound_lt x ltac:(lra)) as B. pose proof (sin_asin x ltac:(lra)) as S. pose proof PI_RGT_0. apply Rnot_le_lt. intros L.
  pose proof (sin_ge_0 (- asin x) ltac:(lra) ltac:(lra)) as Q. rewrite sin_neg in Q. lra.
Qed.

Section Flat.
  Variables (outer fuel : nat) (s : side) (o : rm_options) (table : option (Z -> R -> table_entry)) (n_abs : nat) (inc trn : material)
    (texture : rtsurf * rtsurf) (z : rm_draws) (z0 a b : R).
  Hypothesis HQ : sound_request s o table n_abs inc trn texture z.
  Let surf := facing_surface s texture.
  Hypothesis HF : flat_surface z0 a b surf.
  Hypothesis Ha : 0 < a.
  Hypothesis Hb : 0 < b.
  Let here := above s inc trn (m_wl o).
  Let there := beyond s inc trn (m_wl o).
  Hypothesis HC : smooth_crossing s o table inc trn.

  Lemma flat_height : 0 <= z0.
  Proof. pose proof (sq_high _ _ _ _ _ _ _ _ HQ) as H. destruct (flat_facts z0 a b _ HF Ha Hb) as (_ & _ & _ & _ & E & _). fold surf in H. rewrite <- E. exact H. Qed.

  Let c := match table with None => Bare (m_pol o) | Some ent => Coated (seen_table s ent) end.
  Lemma chosen_film : rm_decision s o table inc trn = film_dec c here there.
  Proof. unfold rm_decision, chosen, c, film_dec, here, there, above, beyond. clear. destruct s, table; reflexivity. Qed.
  Lemma own_entry ent psi : seen_table s ent 1 psi = ent (own_side s) psi.
  Proof. unfold seen_table, own_side. clear. destruct s; reflexivity. Qed.

  Definition fate_of (theta u : R) : fate :=
    if Rleb u (back_share s o table inc trn theta) then Back
    else match table with
         | None => Onward
         | Some ent => if Rleb u (back_share s o table inc trn theta + through_share s o table inc trn theta) then Onward else Stays (te_A (ent (own_side s) theta))
         end.
  Lemma fate_film theta u : meets_film c 1 here there theta u = fate_of theta u.
  Proof.
    unfold fate_of, meets_film, c, back_share, through_share, here, there. clear. destruct table as [ent|]; [|reflexivity].
    replace (seen_table s ent 1 theta) with (ent (own_side s) theta) by (unfold seen_table, own_side; destruct s; reflexivity). reflexivity.
  Qed.

  Lemma flat_fate theta phi k x y : 0 < theta < PI / 2 -> exists r, rm_ray (Datatypes.S outer) (3 + fuel) surf (rm_decision s o table inc trn) theta phi z k x y = Some (Ok r) /\
    match fate_of theta (z_rnd z k 0) with
    | Back => goes r theta (phi + PI)
    | Onward => re here * sin theta < re there /\ goes r (PI - bent s o inc trn theta) (phi + PI)
    | Stays A => is_absorbed r A theta
    end.
  Proof.
    intros Ht. pose proof flat_height as Z0. destruct (sq_media _ _ _ _ _ _ _ _ HQ) as [M1 M2].
    assert (MM : optical_medium here /\ optical_medium there) by (unfold here, there, above, beyond; clear - M1 M2; destruct s; tauto). destruct MM as [Mh Mt].
    assert (EL : forall c dec, rm_ray (Datatypes.S outer) c surf dec theta phi z k x y = trace_shot (Datatypes.S outer) c surf dec theta phi (rm_shot z k x y)).
    { intros c' dec. unfold rm_ray. rewrite (refreshed_same z0 a b surf HF Ha Hb). reflexivity. }
    rewrite EL, chosen_film. set (u := z_rnd z k 0). pose proof PI_RGT_0 as PP.
    assert (T1 : forall ent, c = Coated ent -> re there <= re here * sin theta -> te_T (ent 1%Z theta) <= 0).
    { intros ent Ec. unfold c in Ec. specialize (HC theta Ht). cbv zeta in HC. destruct table as [e|]; [|discriminate]. injection Ec as <-.
      unfold seen_table. rewrite (table_side_pm s 1 (or_introl eq_refl)). intros L. pose proof (proj2 HC L) as Q. unfold own_side in Q. clear - Q. destruct s; exact Q. }
    assert (T2 : forall ent, c = Coated ent -> in_phase here there \/ theta = 0).
    { intros ent Ec. unfold c in Ec. specialize (HC theta Ht). cbv zeta in HC. destruct table as [e|]; [|discriminate]. left. exact (proj1 HC). }
    assert (T3 : forall p, c = Bare p -> re there = re here * sin theta -> 1 <= fresnel_Rc here there theta p).
    { intros p Ec. unfold c in Ec. specialize (HC theta Ht). cbv zeta in HC. destruct table as [e|]; [discriminate|]. injection Ec as <-. exact HC. }
    pose proof (film_decides c 1 here there here there theta (phi + PI) u (re here * sin theta) (or_introl eq_refl)
      (fun _ => conj eq_refl eq_refl) ltac:(discriminate) Mh Mt ltac:(lra) eq_refl (sq_rnd _ _ _ _ _ _ _ _ HQ k 0%nat) T1 T2 T3) as FD.
    rewrite fate_film, <- down_travel, facing_up, Rmult_1_l in FD.
    pose proof (shot_ray z0 a b surf HF Ha Hb (film_dec c here there) theta phi (rm_shot z k x y) outer fuel ltac:(lra) ltac:(lra)) as SR.
    change (sh_rnd (rm_shot z k x y) 0%nat) with u in SR.
    pose proof (shot_ray z0 a b surf HF Ha Hb (film_dec c here there) theta phi (rm_shot z k x y) outer (2 + fuel) ltac:(lra) ltac:(lra)) as SA.
    change (sh_rnd (rm_shot z k x y) 0%nat) with u in SA.
    assert (CT : 0 < cos theta) by (apply cos_gt_0; lra).
    destruct (fate_of theta u) as [| |A].
    - rewrite FD in SR. cbv beta iota zeta in SR. cbn [Z.opp] in SR. rewrite (travel_pointing (-1) theta) in SR by (right; reflexivity). unfold polar_of in SR. cbn [Z.eqb] in SR.
      specialize (SR (or_introl (conj eq_refl CT))). eexists. split; [exact SR|]. exact (goes_dir phi (pointing theta (phi + PI)) theta eq_refl ltac:(lra)).
    - destruct FD as [LT FD]. rewrite FD in SR. cbv beta iota zeta in SR. fold (bent s o inc trn theta) in SR.
      assert (PT : 0 < re there) by (exact (proj1 Mt)). assert (PH : 0 < re here) by (exact (proj1 Mh)). assert (ST : 0 < sin theta) by (apply sin_gt_0; lra).
      assert (XB : 0 < re here * sin theta / re there < 1).
      { split; [apply Rdiv_lt_0_compat; auto; apply Rmult_lt_0_compat; auto|]. apply Rmult_lt_reg_r with (re there); [exact PT|]. unfold Rdiv. rewrite Rmult_assoc, Rinv_l by lra. lra. }
      assert (BB : 0 < asin (re here * sin theta / re there) < PI / 2).
      { pose proof (asin_bound_lt (re here * sin theta / re there) ltac:(lra)). split; [|lra]. now apply asin_pos. }
      set (psi := asin (re here * sin theta / re there)) in *. assert (CB : 0 < cos psi) by (apply cos_gt_0; lra).
      rewrite (travel_pointing 1 psi) in SR by (left; reflexivity). unfold polar_of in SR. cbn [Z.eqb Pos.eqb] in SR.
      eexists. split; [apply SR; right; split; [reflexivity|]; unfold pointing; cbn [vz]; rewrite Rtrigo_facts.cos_pi_minus; lra|]. split; [exact LT|].
      unfold bent. fold here there psi. exact (goes_dir phi (pointing (PI - psi) (phi + PI)) (PI - psi) eq_refl ltac:(lra)).
    - rewrite FD in SA. cbv beta iota zeta in SA. change (Datatypes.S (2 + fuel)) with (3 + fuel)%nat in SA. eexists. split; [exact SA|]. unfold is_absorbed. cbn. auto.
  Qed.

  (* every ray ends *)
  Lemma all_done_some {A} : forall l : list (option (res A)), (forall x, In x l -> exists y, x = Some (Ok y)) -> exists r, all_done l = Some (Ok r).
  Proof.
    induction l as [|x l IH]; intros H; [exists []; reflexivity|]. destruct (H x (or_introl eq_refl)) as [y ->]. destruct IH as [r E]; [intros; apply H; now right|].
    cbn [all_done]. rewrite E. eauto.
  Qed.

  Lemma flat_ends only G g : angular_grid o g -> inclined only o z -> exists out, RT_matrices (Datatypes.S outer) (3 + fuel) s only o table n_abs inc trn texture z G = Some out.
  Proof.
    intros HG HI. unfold RT_matrices. pose proof (sq_rays _ _ _ _ _ _ _ _ HQ) as NB. destruct (Nat.eqb_spec (m_nx o * m_ny o) 0); [lia|].
    unfold rm_grid. rewrite HG. destruct (dirs_given only o z g HI) as [dirs HD]. rewrite HD.
    destruct (sq_fold _ _ _ _ _ _ _ _ HQ) as [m M]. pose proof (sq_grid _ _ _ _ _ _ _ _ HQ) as V. destruct (proj1 (C01_rows _ _ _ _ _ V HG)) as [h [Hh _]].
    pose proof (dirs_inclined s only o table n_abs inc trn texture z HQ g h HG Hh dirs HI HD) as DI.
    change (match s with Front => fst texture | Rear => snd texture end) with surf.
    destruct (all_done_some (map (rm_beam (Datatypes.S outer) (3 + fuel) surf (rm_decision s o table inc trn) o z) (enumerate dirs))) as [r E]; [|rewrite E; eauto].
    intros x Hx. apply in_map_iff in Hx. destruct Hx as ([i [th ph]] & <- & Hi). apply in_combine_r in Hi. destruct (DI _ Hi) as [Ht _]. cbn [fst] in Ht.
    unfold rm_beam.
    match goal with |- context [all_done ?l] => destruct (all_done_some l) as [q Q] end.
    { intros x Hx. apply in_map_iff in Hx. destruct Hx as ([c' [x' y']] & <- & _). cbn [fst snd]. destruct (flat_fate th ph (i * (m_nx o * m_ny o) + c') x' y' Ht) as (y & Ey & _). eauto. }
    rewrite Q. eauto.
  Qed.
End Flat.
