(* rt_structure.calculate from the materials to the totals. *)
From Coq Require Import Reals List Bool ZArith Lia Lra.
From Verif Require Import Base Lib Model_Angles Model_Optics Model_OpticsC Model_RayIface Model_RayStack Model_Surface Model_RTStruct Model_Trace
  Model_StackRay Model_StackCalc
  Spec_Optics Spec_OpticsC Spec_RayIface Spec_RayStack Spec_Surface Spec_RTStruct Spec_Trace Spec_StackRay Spec_StackCalc
  Proof_Optics Proof_RayStack Proof_RTStruct Proof_RTStruct3 Proof_StackRay Proof_StackFlat Proof_StackPlanar.
Import ListNotations.
Open Scope R_scope.

(* ---------- lists ---------- *)

Lemma read_all_length S : forall qs l, read_all S qs = Some l -> length l = length qs.
Proof.
  induction qs as [|q qs IH]; intros l H; cbn [read_all] in H; [injection H as <-; reflexivity|].
  destruct (surface_at S q); [|discriminate]. destruct (read_all S qs) as [l'|]; [|discriminate]. injection H as <-. cbn [length]. f_equal. now apply IH.
Qed.

Lemma read_all_nth S : forall qs l i q, read_all S qs = Some l -> nth_error qs i = Some q -> exists s, surface_at S q = Some s /\ nth_error l i = Some s.
Proof.
  induction qs as [|q0 qs IH]; intros l i q H Hi; [destruct i; discriminate|]. cbn [read_all] in H.
  destruct (surface_at S q0) as [s|] eqn:Es; [|discriminate]. destruct (read_all S qs) as [l'|] eqn:E; [|discriminate]. injection H as <-.
  destruct i as [|i]; cbn [nth_error] in *; [injection Hi as <-; eauto|]. now apply (IH l' i q).
Qed.

Lemma copy_all_length : forall l S S' r, copy_all S l = Ok (S', r) -> length r = length l.
Proof.
  induction l as [|q l IH]; intros S S' r H; cbn [copy_all] in H; [injection H as <- <-; reflexivity|].
  destruct (deepcopy S q) as [[S1 q']|]; [|discriminate]. cbn [rbind fst snd] in H. destruct (copy_all S1 l) as [[S2 r']|] eqn:E; [|discriminate].
  cbn [rbind fst snd] in H. injection H as <- <-. cbn [length]. f_equal. now apply (IH S1 S2).
Qed.

Lemma all_done_ok {A} : forall (l : list (option (res A))) out, (forall x, In x l -> forall e, x <> Some (Err e)) ->
  all_done l = Some out -> exists r, out = Ok r /\ l = map (fun x => Some (Ok x)) r.
Proof.
  induction l as [|x l IH]; intros out HE H; cbn [all_done] in H; [injection H as <-; exists []; auto|].
  destruct x as [[x|e]|]; [| exfalso; apply (HE (Some (Err e)) (or_introl eq_refl) e); reflexivity | discriminate].
  destruct (all_done l) as [r'|]; [|discriminate]. destruct (IH r' (fun y Hy => HE y (or_intror Hy)) eq_refl) as (r & -> & ->).
  injection H as <-. exists (x :: r). auto.
Qed.

Lemma map2_seq_nth {B C} (f : nat -> B -> C) : forall (m : list B) a n i b, n = length m -> nth_error m i = Some b ->
  nth_error (map2 f (seq a n) m) i = Some (f (a + i)%nat b).
Proof.
  induction m as [|y m IH]; intros a n i b -> H; [destruct i; discriminate|]. cbn [length seq map2]. destruct i as [|i]; cbn [nth_error] in *.
  - injection H as <-. now rewrite Nat.add_0_r.
  - rewrite (IH (S a) (length m) i b eq_refl H). f_equal. f_equal. lia.
Qed.

Lemma combine_nth_error {A B} : forall (l : list A) (m : list B) i a b, nth_error l i = Some a -> nth_error m i = Some b -> nth_error (combine l m) i = Some (a, b).
Proof.
  induction l as [|x l IH]; intros [|y m] [|i] a b Ha Hb; cbn [nth_error combine] in *; try discriminate; [injection Ha as <-; injection Hb as <-; reflexivity|]. auto.
Qed.

(* ---------- the stack ---------- *)

Lemma um_padded widths : map (fun w => 10 ^ 6 * w) (0 :: widths ++ [0]) = padded (map (fun w => 10 ^ 6 * w) widths).
Proof. unfold padded. cbn [map]. rewrite map_app. cbn [map]. rewrite Rmult_0_r. reflexivity. Qed.

Section Built.
  Variables (S : store) (textures : list nat) (materials : list material) (widths : list R) (inc trn : material) (surfs : list rtsurf).
  Variables (tables : list (option (Z -> R -> table_entry))) (o : rt_options) (w : rt_draws).
  Let mats := inc :: materials ++ [trn].
  Let ws := map (fun x => 10 ^ 6 * x) widths.
  Hypothesis HB : built_structure S textures materials widths inc trn surfs.
  Hypothesis HO : sound_options mats widths tables surfs o w.

  Lemma ws_length : length ws = length widths.
  Proof. apply map_length. Qed.

  Lemma mats_length : length mats = Datatypes.S (Datatypes.S (length widths)).
  Proof. unfold mats. cbn [length]. rewrite app_length. cbn [length]. rewrite (bs_materials _ _ _ _ _ _ _ HB). lia. Qed.

  Lemma surfs_length : length surfs = Datatypes.S (length widths).
  Proof.
    destruct (bs_new _ _ _ _ _ _ _ HB) as (S' & su & cw & E & Rd). rewrite (read_all_length _ _ _ Rd).
    unfold new_rt_structure in E. cbn zeta in E. destruct (copy_all S textures) as [[S1 l]|] eqn:Ec; [|discriminate]. cbn [rbind fst snd] in E.
    destruct (shift_all _ _ _ _); [|discriminate]. cbn [rbind] in E. injection E as _ <- _.
    rewrite (copy_all_length _ _ _ _ Ec). apply (bs_textures _ _ _ _ _ _ _ HB).
  Qed.

  Lemma calc_stack_of : stack_of (calc_stack mats widths (length surfs) o) ws.
  Proof.
    pose proof (op_wl _ _ _ _ _ _ HO) as Hw. constructor; cbn [calc_stack k_widths k_alphas k_surfaces k_thresh].
    - apply um_padded.
    - intros x Hx. apply in_map_iff in Hx. destruct Hx as (y & <- & Hy). pose proof (bs_widths _ _ _ _ _ _ _ HB y Hy). lra.
    - rewrite um_padded, padded_length. fold ws. rewrite ws_length, map_length. apply mats_length.
    - intros a Ha. apply in_map_iff in Ha. destruct Ha as (m & <- & Hm). destruct (op_media _ _ _ _ _ _ HO m Hm) as [_ H]. pose proof PI_RGT_0.
      unfold Rdiv. apply Rmult_le_pos; [apply Rmult_le_pos; lra|]. left. apply Rinv_0_lt_compat. lra.
    - rewrite ws_length. apply surfs_length.
    - apply (op_thresh _ _ _ _ _ _ HO).
  Qed.

  Lemma faces_length k : length (u_faces (calc_setup surfs mats widths tables o w k)) = Datatypes.S (length widths).
  Proof.
    cbn [calc_setup u_faces]. rewrite map2_length, seq_length, combine_length, (op_tables _ _ _ _ _ _ HO), surfs_length. lia.
  Qed.

  Lemma face_nth k i s t : nth_error surfs i = Some s -> nth_error tables i = Some t ->
    nth_error (u_faces (calc_setup surfs mats widths tables o w k)) i = Some (facing_of s (w_seen w k i) (w_hs w i) (chosen (c_pol o) t)).
  Proof.
    intros Hs Ht. cbn [calc_setup u_faces].
    rewrite (map2_seq_nth _ (combine surfs tables) 0 (length surfs) i (s, t)); [reflexivity| |now apply combine_nth_error].
    rewrite combine_length, (op_tables _ _ _ _ _ _ HO), surfs_length. lia.
  Qed.

  Lemma chosen_usable t ni nj : In t tables -> optical_medium ni -> optical_medium nj -> usable (chosen (c_pol o) t ni nj).
  Proof.
    intros Ht Mi Mj. assert (RD : real_decision (chosen (c_pol o) t ni nj)) by (destruct t; constructor; assumption). split; [exact RD|].
    intros th rnd A Hr HA. destruct HA as (side & d & N & _ & _ & _ & E). destruct t as [ent|]; cbn [chosen] in E.
    - pose proof (op_usable _ _ _ _ _ _ HO ent Ht side (Rabs th)) as Us. unfold table_decision_c, decide_RT_TMM_c in E.
      assert (Q : te_R (ent side (Rabs th)) + te_T (ent side (Rabs th)) < 1 /\ A = te_A (ent side (Rabs th))).
      { destruct (Z.eqb side 1), (Rleb rnd (te_R (ent side (Rabs th)))) eqn:L1; try discriminate;
          destruct (Rltb (te_R (ent side (Rabs th))) rnd) eqn:L2, (Rleb rnd (te_R (ent side (Rabs th)) + te_T (ent side (Rabs th)))) eqn:L3; cbn [andb] in E;
          try discriminate; injection E as <-; split; auto;
          try (apply Rleb_false in L1; apply Rltb_false in L2; lra); apply Rleb_false in L3; lra. }
      destruct Q as [Q ->]. now apply Us.
    - unfold fresnel_decision_c, decide_RT_Fresnel_c in E. destruct (Z.eqb side 1), (Rleb _ _); discriminate.
  Qed.

  Lemma calc_structure k : structure_of (calc_setup surfs mats widths tables o w k) ws.
  Proof.
    constructor.
    - apply calc_stack_of.
    - rewrite ws_length. apply faces_length.
    - cbn [calc_setup u_nks]. rewrite ws_length, map_length. apply mats_length.
    - intros n Hn. cbn [calc_setup u_nks] in Hn. apply in_map_iff in Hn. destruct Hn as (m & <- & Hm). apply (op_media _ _ _ _ _ _ HO m Hm).
    - intros f ni nj Hf Mi Mj. apply In_nth_error in Hf. destruct Hf as [i Hi].
      assert (Li : (i < Datatypes.S (length widths))%nat) by (rewrite <- (faces_length k); apply nth_error_Some; congruence).
      destruct (nth_error surfs i) as [s|] eqn:Es; [|apply nth_error_None in Es; rewrite surfs_length in Es; lia].
      destruct (nth_error tables i) as [t|] eqn:Et; [|apply nth_error_None in Et; rewrite (op_tables _ _ _ _ _ _ HO) in Et; lia].
      rewrite (face_nth k i s t Es Et) in Hi. injection Hi as <-. cbn [facing_of f_dec]. apply chosen_usable; auto. now apply (nth_error_In _ i).
    - apply (op_rnd _ _ _ _ _ _ HO).
  Qed.

  Lemma start_good : good_start ws (start_mat o) (start_dir o).
  Proof. pose proof (op_start _ _ _ _ _ _ HO) as G. unfold good_start in *. now rewrite ws_length. Qed.

  Lemma start_up' s : nth_error surfs 0 = Some s -> 0 < vz (start_vector (lmax (zs_of (su_pts s))) (c_theta o) (c_phi o)).
  Proof.
    intros Hs. pose proof (op_high _ _ _ _ _ _ HO s Hs) as Hh. destruct (op_theta _ _ _ _ _ _ HO) as [T0 T1].
    assert (C : 0 < cos (c_theta o)) by (apply cos_gt_0; lra). unfold start_vector. cbn [vz].
    apply Rmult_lt_0_compat; auto. apply Rabs_pos_lt.
    assert (0 < (lmax (zs_of (su_pts s)) + 1 / 10 ^ 8) / cos (c_theta o)) by (apply Rdiv_lt_0_compat; lra). lra.
  Qed.

  (* ---------- the rays ---------- *)

  Definition ray_from (outer fuel k : nat) (s : rtsurf) (x y : R) : option (res fstate) :=
    trace_stack outer fuel (calc_setup surfs mats widths tables o w k) (start_vector (lmax (zs_of (su_pts s))) (c_theta o) (c_phi o)) x y (start_mat o) (start_dir o).

  Lemma calculate_runs outer fuel out :
    (forall s k x y e, nth_error surfs 0 = Some s -> ray_from outer fuel k s x y <> Some (Err e)) ->
    calculate outer fuel surfs mats widths tables o w = Some out ->
    exists s rays, nth_error surfs 0 = Some s /\
      out = Ok (calculate_totals (calc_stack mats widths (length surfs) o) (map x_st rays), rays) /\
      length rays = (n_reps_of (c_nrays o) (c_nx o) (c_ny o) * c_nx o * c_ny o)%nat /\ (c_nrays o <= length rays)%nat /\
      forall k fin, nth_error rays k = Some fin -> exists x y, ray_from outer fuel k s x y = Some (Ok fin).
  Proof.
    intros HE H. unfold calculate, calc_rays in H. destruct (nth_error surfs 0) as [s0|] eqn:S0; [|apply nth_error_None in S0; rewrite surfs_length in S0; lia].
    fold (start_mat o) (start_dir o) in H.
    set (xs := coords _ (limits (c_xlim o) _ _ _) _ _) in H. set (ys := coords _ (limits (c_ylim o) _ _ _) _ _) in H.
    assert (Lx : length xs = c_nx o) by apply coords_length. assert (Ly : length ys = c_ny o) by apply coords_length.
    pose proof (rays_all None (fun k x y => ray_from outer fuel k s0 x y) (c_nrays o) (c_nx o) (c_ny o) xs ys Lx Ly (op_grid _ _ _ _ _ _ HO)) as RA.
    cbv zeta in RA. unfold ray_from in RA at 1 2 3 4 5. 
    set (arr := fill_rays _ _ _ _ _ _ _) in *.
    destruct RA as (R1 & [R2 _] & R3).
    assert (Q : forall z, In z arr -> forall e, z <> Some (Err e)).
    { intros z Hz e. apply (In_nth _ _ None) in Hz. destruct Hz as (k & Hk & <-). rewrite R3 by exact Hk. now apply (HE s0). }
    destruct (all_done arr) as [r|] eqn:AD; [|discriminate]. destruct (all_done_ok arr r Q AD) as (rays & -> & EA). injection H as <-.
    assert (LR : length rays = length arr) by (rewrite EA, map_length; reflexivity).
    exists s0, rays. split; [reflexivity|]. split; [reflexivity|]. split; [lia|]. split; [lia|].
    intros k fin Hk. assert (Lk : (k < length rays)%nat) by (apply nth_error_Some; congruence).
    specialize (R3 k ltac:(lia)). exists (nth ((k mod (c_nx o * c_ny o)) / c_ny o) xs 0), (nth (k mod c_ny o) ys 0). rewrite <- R3, EA.
    rewrite (nth_indep _ None (Some (Ok fin))) by (rewrite map_length; exact Lk).
    rewrite (map_nth (fun x => Some (Ok x)) rays fin k). f_equal. f_equal. now apply nth_error_nth.
  Qed.
End Built.
