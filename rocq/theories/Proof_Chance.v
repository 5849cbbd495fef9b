(* rt_structure.calculate: the rays are independent, so that the totals are close to their averages for many rays. *)
From Coq Require Import Reals List Bool ZArith Lia Lra FunctionalExtensionality.
From Verif Require Import Base Lib Model_Angles Model_Optics Model_OpticsC Model_RayIface Model_RayStack Model_Surface Model_RTStruct Model_Trace
  Model_StackRay Model_StackCalc
  Spec_Optics Spec_OpticsC Spec_RayIface Spec_RayStack Spec_Surface Spec_RTStruct Spec_Trace Spec_StackRay Spec_StackCalc Spec_Mean Spec_Chance
  Proof_Profile Proof_RTStruct Proof_StackCalc Proof_Mean Proof_Trees Proof_TreeRay Prop_RayStack Prop_StackRay.
Import ListNotations.
Open Scope R_scope.

Section Chance.
  Variables (S : store) (textures : list nat) (materials : list material) (widths : list R) (inc trn : material) (surfs : list rtsurf).
  Variables (tables : list (option (Z -> R -> table_entry))) (o : rt_options) (w : rt_draws) (outer fuel n : nat).
  Let mats := inc :: materials ++ [trn].
  Hypothesis HB : built_structure S textures materials widths inc trn surfs.
  Hypothesis HO : sound_options mats widths tables surfs o w.
  Let ws := map (fun x => 10 ^ 6 * x) widths.
  Let K := calc_stack mats widths (length surfs) o.
  Let rays := (n_reps_of (c_nrays o) (c_nx o) (c_ny o) * c_nx o * c_ny o)%nat.

  Lemma sound_with u : fractions u -> sound_options mats widths tables surfs o (with_numbers w n u).
  Proof. intros Hu. destruct HO. constructor; auto. intros k j. cbn [with_numbers w_ray dr_rnd]. apply Hu. Qed.

  Lemma first_surface : exists s, nth_error surfs 0 = Some s.
  Proof. destruct (nth_error surfs 0) as [s|] eqn:E; [eauto|]. apply nth_error_None in E. rewrite (surfs_length S textures materials widths inc trn surfs HB) in E. lia. Qed.

  Hypothesis Hn : (outer * fuel <= n)%nat.
  Hypothesis HL : forall u, fractions u -> none_level fuel surfs mats widths tables o (with_numbers w n u).
  Hypothesis HE : forall u, fractions u -> calculate outer fuel surfs mats widths tables o (with_numbers w n u) <> None.

  Variable s0 : rtsurf.
  Hypothesis Hs0 : nth_error surfs 0 = Some s0.
  Let xs := coords (c_random_pos o) (limits (c_xlim o) (su_xmin s0) (su_xmax s0) (su_Lx s0)) (c_nx o) (w_x w).
  Let ys := coords (c_random_pos o) (limits (c_ylim o) (su_ymin s0) (su_ymax s0) (su_Ly s0)) (c_ny o) (w_y w).
  Let x_of k := nth ((k mod (c_nx o * c_ny o)) / c_ny o) xs 0.
  Let y_of k := nth (k mod c_ny o) ys 0.

  (* ray k with its numbers *)
  Definition ray (k : nat) (v : nat -> R) : option (res fstate) :=
    trace_stack outer fuel (renumbered (calc_setup surfs mats widths tables o w k) v) (start_vector (lmax (zs_of (su_pts s0))) (c_theta o) (c_phi o))
      (x_of k) (y_of k) (start_mat o) (start_dir o).

  Lemma py_index_In {A} (l : list A) i x : py_index l i = Ok x -> In x l.
  Proof.
    unfold py_index. cbv zeta. destruct (Z.ltb _ 0); [discriminate|]. destruct (nth_error l _) as [y|] eqn:E; [|discriminate]. intros Q. injection Q as <-. exact (nth_error_In _ _ E).
  Qed.

  Lemma ray_tree k : tree n (ray k).
  Proof.
    apply (tree_more (outer * fuel) n _ Hn). unfold ray. apply trace_tree. intros i f ni nj Hf. apply py_index_In in Hf.
    cbn [calc_setup u_faces] in Hf. apply in_map2 in Hf. destruct Hf as (a & b & _ & _ & ->). cbn [facing_of f_dec]. apply chosen_by_comparison.
  Qed.

  (* what a finished ray adds *)
  Definition part (rd : reading) (r : sstate) : R :=
    match rd with
    | ValueOf Reflected => if refl r then s_I r else 0
    | ValueOf Transmitted => if trns r then s_I r else 0
    | ValueOf (AbsorbedIn i) => nth (Datatypes.S i) (s_A r) 0
    | FirstReflected => if refl r then (if Nat.eqb (s_passes r) 0 then s_I r else 0) else 0
    | ValueOf (AbsorbedAt i) => if Z.eqb (s_Aidx r) (Z.of_nat i + 1) then rsum (s_Aint r) else 0
    end.
  Definition part_of (rd : reading) (a : option (res fstate)) : R := match a with Some (Ok fin) => part rd (x_st fin) | _ => 0 end.

  Lemma nth_le_rsum : forall l i, (forall j, 0 <= nth j l 0) -> nth i l 0 <= rsum l.
  Proof.
    induction l as [|a l IH]; intros i H; [destruct i; cbn; lra|]. assert (P : 0 <= rsum l).
    { assert (Q : forall m : list R, (forall j, 0 <= nth j m 0) -> 0 <= rsum m).
      { induction m as [|b m IHm]; intros Hm; [cbn; lra|]. cbn [rsum]. pose proof (Hm 0%nat) as H0. cbn [nth] in H0. assert (0 <= rsum m) by (apply IHm; intros j; exact (Hm (Datatypes.S j))). lra. }
      apply Q. intros j. exact (H (Datatypes.S j)). }
    pose proof (H 0%nat) as H0. cbn [nth] in H0. destruct i as [|i]; cbn [nth rsum]; [lra|]. specialize (IH i (fun j => H (Datatypes.S j))). lra.
  Qed.
  Lemma rsum_pos : forall l, (forall a, In a l -> 0 <= a) -> 0 <= rsum l.
  Proof. induction l as [|a l IH]; intros H; [cbn; lra|]. cbn [rsum]. specialize (H a (or_introl eq_refl)) as Ha. assert (0 <= rsum l) by (apply IH; intros; apply H; now right). lra. Qed.

  Lemma part_range rd r : traced K ws r -> 0 <= part rd r <= 1.
  Proof.
    intros (m0 & d0 & outs & f & G & P & T).
    destruct (C27_energy K ws m0 d0 outs f r (calc_stack_of S textures materials widths inc trn surfs tables o w HB HO) G P T) as (E1 & E2 & E3 & E4 & _).
    assert (A1 : 0 <= rsum (s_A r)). { pose proof (nth_le_rsum (s_A r) (length (s_A r)) E3) as Q. rewrite nth_overflow in Q by lia. exact Q. }
    pose proof (rsum_pos _ E4) as A2.
    destruct rd as [[| |i|i]|]; cbn [part].
    - destruct (refl r); lra.
    - destruct (trns r); lra.
    - pose proof (nth_le_rsum (s_A r) (Datatypes.S i) E3). specialize (E3 (Datatypes.S i)). lra.
    - destruct (Z.eqb _ _); lra.
    - destruct (refl r); [destruct (Nat.eqb _ _)|]; lra.
  Qed.

  Definition block (u : nat -> R) (k : nat) : nat -> R := fun j => u (k * n + j)%nat.

  Lemma ray_fine k u r : fractions u -> ray k (block u k) = Some r -> exists fin, r = Ok fin /\ traced K ws (x_st fin).
  Proof.
    intros Hu T. pose proof (sound_with u Hu) as HO'.
    pose proof (calc_structure S textures materials widths inc trn surfs tables o (with_numbers w n u) HB HO' k) as St. fold mats ws in St.
    pose proof (start_good materials widths inc trn surfs tables o w HO) as GS. fold ws in GS.
    pose proof (start_up' materials widths inc trn surfs tables o w HO s0 Hs0) as V.
    unfold ray in T. change (renumbered (calc_setup surfs mats widths tables o w k) (block u k)) with (calc_setup surfs mats widths tables o (with_numbers w n u) k) in T.
    destruct (C161_start _ ws _ (x_of k) (y_of k) _ _ St GS V) as [st Est].
    assert (NL : never_level fuel (calc_setup surfs mats widths tables o (with_numbers w n u) k) st) by (exact (HL u Hu s0 k (x_of k) (y_of k) st Hs0 Est)).
    destruct (C161_ray _ ws st outer fuel _ (x_of k) (y_of k) _ _ r St GS V Est NL T) as (fin & -> & Tr & _). exists fin. split; [reflexivity|exact Tr].
  Qed.

  Lemma all_rays u : fractions u -> exists rs, calculate outer fuel surfs mats widths tables o (with_numbers w n u) = Some (Ok (calculate_totals K (map x_st rs), rs)) /\
    length rs = rays /\ (c_nrays o <= rays)%nat /\ forall k, (k < rays)%nat -> exists fin, nth_error rs k = Some fin /\ ray k (block u k) = Some (Ok fin) /\ traced K ws (x_st fin).
  Proof.
    intros Hu. destruct (calculate outer fuel surfs mats widths tables o (with_numbers w n u)) as [out|] eqn:H; [|exfalso; exact (HE u Hu H)].
    unfold calculate, calc_rays in H. rewrite Hs0 in H. fold (start_mat o) (start_dir o) in H. cbn [with_numbers w_x w_y] in H. fold xs ys in H.
    assert (Lx : length xs = c_nx o) by apply coords_length. assert (Ly : length ys = c_ny o) by apply coords_length.
    pose proof (rays_all None (fun k x y => trace_stack outer fuel (calc_setup surfs mats widths tables o (with_numbers w n u) k)
      (start_vector (lmax (zs_of (su_pts s0))) (c_theta o) (c_phi o)) x y (start_mat o) (start_dir o)) (c_nrays o) (c_nx o) (c_ny o) xs ys Lx Ly (op_grid _ _ _ _ _ _ HO)) as RA.
    cbv zeta in RA. set (arr := fill_rays _ _ _ _ _ _ _) in *. destruct RA as (R1 & [R2 _] & R3). fold rays in R1.
    assert (R4 : forall k, (k < rays)%nat -> nth k arr None = ray k (block u k)) by (intros k Hk; rewrite R3 by lia; reflexivity).
    assert (Q : forall z, In z arr -> forall e, z <> Some (Err e)).
    { intros z Hz e Ez. apply (In_nth _ _ None) in Hz. destruct Hz as (k & Hk & En). rewrite R4 in En by lia. subst z.
      destruct (ray_fine k u _ Hu Ez) as (fin & Ef & _). discriminate. }
    destruct (all_done arr) as [r|] eqn:AD; [|discriminate]. destruct (all_done_ok arr r Q AD) as (rs & -> & EA).
    assert (LR : length rs = length arr) by (rewrite EA, map_length; reflexivity).
    exists rs. split; [symmetry; exact H|]. split; [lia|]. split; [lia|]. intros k Hk.
    destruct (nth_error rs k) as [fin|] eqn:Ek; [|apply nth_error_None in Ek; lia]. exists fin. split; [reflexivity|].
    assert (Er : ray k (block u k) = Some (Ok fin)).
    { rewrite <- R4 by exact Hk. rewrite EA. rewrite (nth_indep _ None (Some (Ok fin))) by (rewrite map_length; lia).
      rewrite (map_nth (fun x => Some (Ok x)) rs fin k). f_equal. f_equal. now apply nth_error_nth. }
    split; [exact Er|]. destruct (ray_fine k u _ Hu Er) as (fin' & Ef & Tr). injection Ef as <-. exact Tr.
  Qed.

  Lemma part_ok rd k v : fractions v -> (k < rays)%nat -> 0 <= part_of rd (ray k v) <= 1.
  Proof.
    intros Hv Hk. set (u := fun i => v (i - k * n)%nat). assert (Hu : fractions u) by (intros i; apply Hv).
    destruct (all_rays u Hu) as (rs & _ & _ & _ & Q). destruct (Q k Hk) as (fin & _ & Er & Tr).
    replace (block u k) with v in Er; [|apply functional_extensionality; intros j; unfold block, u; f_equal; lia].
    rewrite Er. cbn [part_of]. now apply part_range.
  Qed.

  Definition share (rd : reading) (k : nat) (v : nat -> R) : R := if Nat.ltb k rays then part_of rd (ray k v) else 0.

  Lemma rsum_scaled (f : sstate -> R) x : forall l, rsum (map (fun r => f r) l) / x = / x * rsum (map f l).
  Proof. intros l. unfold Rdiv. rewrite Rmult_comm. reflexivity. Qed.

  Lemma reported_is rd u : of_structure widths rd -> fractions u ->
    reported rd (calculate outer fuel surfs mats widths tables o (with_numbers w n u)) = / INR rays * rsum (map (fun k => share rd k (fun j => u (k * n + j)%nat)) (seq 0 rays)).
  Proof.
    intros Hr Hu. destruct (all_rays u Hu) as (rs & E & L & _ & Q). rewrite E. cbn [reported].
    assert (SH : map (fun k => share rd k (fun j => u (k * n + j)%nat)) (seq 0 rays) = map (part rd) (map x_st rs)).
    { rewrite map_map. apply (nth_ext _ _ 0 0); [rewrite !map_length, seq_length; lia|]. intros k Hk. rewrite map_length, seq_length in Hk.
      rewrite (nth_indep _ 0 (share rd 0 (fun j => u (0 * n + j)%nat))) by (rewrite map_length, seq_length; exact Hk).
      rewrite (map_nth (fun k => share rd k (fun j => u (k * n + j)%nat)) (seq 0 rays) 0%nat), seq_nth by exact Hk. cbn [Nat.add].
      destruct (Q k Hk) as (fin & En & Er & _). unfold share. rewrite (proj2 (Nat.ltb_lt _ _) Hk). change (fun j => u (k * n + j)%nat) with (block u k). rewrite Er. cbn [part_of].
      rewrite (nth_indep _ 0 (part rd (x_st fin))) by (rewrite map_length; lia). rewrite (map_nth (fun x => part rd (x_st x)) rs fin). f_equal. f_equal. symmetry. now apply nth_error_nth. }
    rewrite SH.
    destruct (C29_means K ws (map x_st rs) (calc_stack_of S textures materials widths inc trn surfs tables o w HB HO)) as (M1 & M2 & M3 & M4 & _ & M5).
    rewrite map_length, L in *. assert (LW : length ws = length widths) by apply map_length.
    destruct rd as [[| |i|i]|]; cbn [read reported_value of_structure within] in *.
    - rewrite M1, rsum_scaled. reflexivity.
    - rewrite M2, rsum_scaled. reflexivity.
    - rewrite M4 by lia. rewrite rsum_scaled. reflexivity.
    - rewrite M5 by lia. rewrite rsum_scaled. reflexivity.
    - rewrite M3, rsum_scaled. reflexivity.
  Qed.

  Lemma close_to_average rd : of_structure widths rd ->
    exists m, mean (rays * n) (fun u => reported rd (calculate outer fuel surfs mats widths tables o (with_numbers w n u))) m /\
      forall eps x d, 0 < eps -> Rabs (m - x) <= d ->
        rarely_off (rays * n) (fun u => reported rd (calculate outer fuel surfs mats widths tables o (with_numbers w n u))) x (eps + d) (1 / (4 * INR (c_nrays o) * eps ^ 2)).
  Proof.
    intros Hr. assert (F0 : fractions (fun _ => 0)) by (intros i; lra). destruct (all_rays _ F0) as (_ & _ & _ & NR & _). pose proof (op_rays _ _ _ _ _ _ HO) as PR.
    destruct (far_off n rays (share rd)) as (m & M & P).
    - lia.
    - intros k. unfold share. destruct (Nat.ltb k rays); [|apply (tree_const n 0)]. exact (tree_map (part_of rd) n (ray k) (ray_tree k)).
    - intros k v Hv. unfold share. destruct (Nat.ltb k rays) eqn:Ek; [|lra]. apply Nat.ltb_lt in Ek. now apply part_ok.
    - exists m. split.
      + revert M. apply mean_ext. intros u Hu. symmetry. now apply reported_is.
      + intros eps x d He Hd. destruct (P eps x d He Hd) as (p & Mp & Bp). exists p. split.
        * revert Mp. apply mean_ext. intros u Hu. cbv beta zeta. rewrite <- reported_is by assumption. reflexivity.
        * eapply Rle_trans; [exact (proj2 Bp)|]. unfold Rdiv. rewrite !Rmult_1_l. assert (0 < INR (c_nrays o)) by now apply lt_0_INR.
          assert (INR (c_nrays o) <= INR rays) by now apply le_INR. assert (0 < eps ^ 2) by now apply pow_lt.
          apply Rinv_le_contravar; [apply Rmult_lt_0_compat; lra|]. apply Rmult_le_compat_r; lra.
  Qed.
End Chance.
