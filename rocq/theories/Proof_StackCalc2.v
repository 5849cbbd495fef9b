(* rt_structure.calculate: planar structures. *)
From Coq Require Import Reals List Bool ZArith Lia Lra.
From Verif Require Import Base Lib Model_Angles Model_Optics Model_OpticsC Model_RayIface Model_RayStack Model_Surface Model_RTStruct Model_Trace
  Model_StackRay Model_StackCalc
  Spec_Optics Spec_OpticsC Spec_RayIface Spec_RayStack Spec_Surface Spec_RTStruct Spec_Trace Spec_StackRay Spec_StackCalc
  Proof_Optics Proof_RayStack Proof_RTStruct Proof_RTStruct3 Proof_StackRay Proof_StackFlat Proof_StackPlanar Proof_StackCalc.
Import ListNotations.
Open Scope R_scope.

Section Flat.
  Variables (S : store) (textures : list nat) (materials : list material) (widths : list R) (inc trn : material) (surfs : list rtsurf).
  Variables (tables : list (option (Z -> R -> table_entry))) (o : rt_options) (w : rt_draws).
  Let mats := inc :: materials ++ [trn].
  Let ws := map (fun x => 10 ^ 6 * x) widths.
  Hypothesis HB : built_structure S textures materials widths inc trn surfs.
  Hypothesis HO : sound_options mats widths tables surfs o w.
  Hypothesis HF : flat_structure S textures widths mats tables o w.

  Let films := films_on (c_pol o) tables.
  Let U k := calc_setup surfs mats widths tables o w k.

  Lemma films_nth i t : nth_error tables i = Some t -> nth i films (Bare PolU) = coated (c_pol o) t.
  Proof. intros H. apply nth_error_nth. unfold films, films_on. now rewrite nth_error_map, H. Qed.

  Lemma in_media m : (0 <= m <= Z.of_nat (length ws) + 1)%Z -> exists q, In q mats /\ nk_of (u_nks (U 0)) m = q (c_wl o).
  Proof.
    intros Hm. unfold ws in Hm. rewrite map_length in Hm. pose proof (mats_length S textures materials widths inc trn surfs HB) as L. fold mats in L.
    unfold nk_of, U. cbn [calc_setup u_nks]. exists (nth (Z.to_nat m) mats inc). assert (Lm : (Z.to_nat m < length mats)%nat) by (rewrite L; lia). split; [apply nth_In; exact Lm|].
    rewrite (nth_indep _ _ (inc (c_wl o))) by (rewrite map_length; exact Lm). apply (map_nth (fun q : material => q (c_wl o))).
  Qed.

  Lemma calc_planar k : planar_structure (U k) ws films (start_mat o) (c_theta o).
  Proof.
    constructor.
    - apply (calc_structure S textures materials widths inc trn surfs tables o w HB HO k).
    - unfold U. cbn [calc_setup u_periodic]. destruct (fl_periodic _ _ _ _ _ _ _ HF) as [-> | ->]; reflexivity.
    - intros x Hx. apply in_map_iff in Hx. destruct Hx as (y & <- & Hy). pose proof (fl_thick _ _ _ _ _ _ _ HF y Hy). lra.
    - unfold films, films_on, ws. rewrite !map_length. exact (op_tables _ _ _ _ _ _ HO).
    - intros i Hi. unfold ws in Hi. rewrite map_length in Hi.
      destruct (built_level material S textures materials widths inc trn (bs_textures _ _ _ _ _ _ _ HB) (fl_textures _ _ _ _ _ _ _ HF)) as (S' & su & cw & E & L & B).
      destruct (bs_new _ _ _ _ _ _ _ HB) as (S2 & su2 & cw2 & E2 & Rd). rewrite E in E2. injection E2 as <- <- <-.
      destruct (B i Hi) as (q & s' & Hq & Hs & Lv). destruct (read_all_nth _ _ _ i q Rd Hq) as (s & Hs' & Hn). rewrite Hs in Hs'. injection Hs' as <-.
      destruct (nth_error tables i) as [t|] eqn:Et; [|apply nth_error_None in Et; rewrite (op_tables _ _ _ _ _ _ HO) in Et; lia].
      eexists. split; [apply (face_nth S textures materials widths inc trn surfs tables o w HB HO k i s' t Hn Et)|]. split; [apply Lv|].
      intros ni nj. cbn [facing_of f_dec]. rewrite (films_nth i t Et). destruct t; reflexivity.
    - intros m d ent Hd Hm Hm' E Hle. unfold ws in Hm, Hm'. rewrite map_length in Hm, Hm'. right. exact (fl_beyond _ _ _ _ _ _ _ HF m d ent Hd Hm Hm' E Hle).
    - intros m d ent Hd Hm Hm' E. unfold ws in Hm, Hm'. rewrite map_length in Hm, Hm'. exact (fl_phase _ _ _ _ _ _ _ HF m d ent Hd Hm Hm' E).
    - intros m d p _ _ Hm _ E. exfalso. destruct (in_media (m + d) Hm) as (q & Hq & En).
      apply (fl_critical _ _ _ _ _ _ _ HF q Hq). rewrite <- En. exact E.
    - intros n. apply (fl_uv _ _ _ _ _ _ _ HF k n).
  Qed.

  Lemma si_planar_power k n : planar_power (media mats o) films (start_mat o) (start_dir o) (c_theta o) (dr_rnd (w_ray w k)) (u_K (U k)) n =
    si_power mats widths tables o w k n.
  Proof.
    unfold planar_power, si_power. f_equal. f_equal. f_equal. apply map_ext. intros j. unfold planar_loss, si_loss. cbv zeta.
    fold films. change (planar_at _ _ _ _ _ _ (Datatypes.S j)) with (route mats tables o w k (Datatypes.S j)).
    set (m := fst (route mats tables o w k (Datatypes.S j))). unfold U. cbn [calc_setup u_K calc_stack k_alphas k_widths].
    set (g := fun q : material => im (q (c_wl o)) * 4 * PI / (c_wl o * 10 ^ 6)).
    pose proof (op_wl _ _ _ _ _ _ HO) as W.
    assert (A : nth (Z.to_nat m) (map g mats) 0 = im (nk_of (media mats o) m) * 4 * PI / (c_wl o * 10 ^ 6)).
    { unfold nk_of, media. destruct (lt_dec (Z.to_nat m) (length mats)) as [L|L].
      - rewrite (nth_indep _ 0 (g inc)) by (rewrite map_length; exact L). rewrite map_nth.
        rewrite (nth_indep _ (creal 0) (inc (c_wl o))) by (rewrite map_length; exact L). now rewrite (map_nth (fun q : material => q (c_wl o))).
      - rewrite (nth_overflow (map g mats)) by (rewrite map_length; lia). rewrite (nth_overflow (map _ mats)) by (rewrite map_length; lia). cbn [creal im]. unfold Rdiv. now rewrite !Rmult_0_l. }
    assert (B : nth (Z.to_nat m) (map (fun x => 10 ^ 6 * x) (0 :: widths ++ [0])) 0 = 10 ^ 6 * nth (Z.to_nat m) (0 :: widths ++ [0]) 0).
    { rewrite <- (map_nth (fun x => 10 ^ 6 * x)). now rewrite Rmult_0_r. }
    match goal with |- nth ?i ?l 0 * _ / _ = _ => change (nth i l 0) with (nth (Z.to_nat m) (map g mats) 0) end.
    rewrite A, B. unfold Rdiv. set (ic := / cos _). clearbody ic. set (kk := im _). clearbody kk. set (ww := nth _ _ 0). clearbody ww. field. lra.
  Qed.
End Flat.
