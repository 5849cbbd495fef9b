(* rt_structure.calculate for planar structures, averaged over the random numbers. *)
From Coq Require Import Reals List Bool ZArith Lia Lra.
From Verif Require Import Base Lib Model_Angles Model_Optics Model_OpticsC Model_RayIface Model_RayStack Model_Surface Model_RTStruct Model_Trace
  Model_StackRay Model_StackCalc
  Spec_Optics Spec_OpticsC Spec_RayIface Spec_RayStack Spec_Surface Spec_RTStruct Spec_Trace Spec_StackRay Spec_StackCalc Spec_Mean
  Proof_OpticsC2 Proof_StackFlat Proof_StackCalc Proof_StackCalc2 Proof_StackCalc3 Proof_Mean Proof_Trees Proof_MeanRay Prop_OpticsC Prop_StackCalc.
Import ListNotations.
Open Scope R_scope.

Section Calc.
  Variables (S : store) (textures : list nat) (materials : list material) (widths : list R) (inc trn : material) (surfs : list rtsurf).
  Variables (tables : list (option (Z -> R -> table_entry))) (o : rt_options) (w : rt_draws) (c : R) (n fuel nb : nat).
  Let mats := inc :: materials ++ [trn].
  Hypothesis HB : built_structure S textures materials widths inc trn surfs.
  Hypothesis HO : sound_options mats widths tables surfs o w.
  Hypothesis HF : flat_structure S textures widths mats tables o w.
  Hypothesis Hc : 0 < c.
  Hypothesis HA : forall i, (i < length widths)%nat -> c <= 4 * PI * im (nth i materials inc (c_wl o)) / c_wl o * nth i widths 0.

  Let NL := Z.of_nat (length widths).
  Let rays := (n_reps_of (c_nrays o) (c_nx o) (c_ny o) * c_nx o * c_ny o)%nat.

  Lemma numbers_sound u : fractions u -> sound_options mats widths tables surfs o (with_numbers w nb u).
  Proof. intros Hu. destruct HO. constructor; auto. intros k j. cbn [with_numbers w_ray dr_rnd]. apply Hu. Qed.
  Lemma numbers_flat u : flat_structure S textures widths mats tables o (with_numbers w nb u).
  Proof. destruct HF. constructor; auto. Qed.

  Lemma media_at m : (0 <= m <= NL + 1)%Z -> exists q, In q mats /\ nk_of (media mats o) m = q (c_wl o).
  Proof.
    intros H. apply (in_media S textures materials widths inc trn surfs tables o w HB m). rewrite map_length. exact H.
  Qed.
  Lemma media_optical m : (0 <= m <= NL + 1)%Z -> optical_medium (nk_of (media mats o) m).
  Proof. intros H. destruct (media_at m H) as (q & Hq & ->). exact (op_media _ _ _ _ _ _ HO q Hq). Qed.
  Lemma media_critical m : (0 <= m <= NL + 1)%Z -> index_of (media mats o) m <> index_of (media mats o) (start_mat o) * sin (c_theta o).
  Proof. intros H. unfold index_of at 1. destruct (media_at m H) as (q & Hq & ->). exact (fl_critical _ _ _ _ _ _ _ HF q Hq). Qed.
  Lemma start_heads : heads widths (start_mat o) (start_dir o).
  Proof.
    destruct (flat_start S textures materials widths inc trn surfs tables o w HO HF) as [[E H]|[E H]]; rewrite map_length in H; [left|right]; auto.
  Qed.
  Lemma start_range : (0 <= start_mat o <= NL + 1)%Z.
  Proof. pose proof start_heads as H. unfold heads in H. fold NL in H. lia. Qed.
  Lemma loss_least m : (1 <= m <= NL)%Z -> lit mats o m -> c <= si_loss mats widths o m.
  Proof.
    intros H L. pose proof (op_wl _ _ _ _ _ _ HO) as W. pose proof PI_RGT_0 as PP.
    destruct (angle_in mats widths o media_optical (op_theta _ _ _ _ _ _ HO) start_range m L) as [A _].
    unfold si_loss. set (psi := snell _ _ _ _) in *.
    assert (C : 0 < cos psi <= 1) by (split; [apply cos_gt_0; lra|apply COS_bound]).
    set (i := Z.to_nat (m - 1)). assert (Hi : (i < length widths)%nat) by (unfold i, NL in *; lia). specialize (HA i Hi).
    assert (Em : nk_of (media mats o) m = nth i materials inc (c_wl o)).
    { unfold nk_of. replace (Z.to_nat m) with (Datatypes.S i) by (unfold i; lia). unfold media, mats. cbn [map nth].
      rewrite (nth_indep _ _ (inc (c_wl o))) by (rewrite map_length, app_length, (bs_materials _ _ _ _ _ _ _ HB); lia).
      rewrite (map_nth (fun q : material => q (c_wl o))). rewrite app_nth1 by (rewrite (bs_materials _ _ _ _ _ _ _ HB); lia). reflexivity. }
    assert (Ew : nth (Z.to_nat m) (0 :: widths ++ [0]) 0 = nth i widths 0).
    { replace (Z.to_nat m) with (Datatypes.S i) by (unfold i; lia). cbn [nth]. apply app_nth1. exact Hi. }
    rewrite Em, Ew. eapply Rle_trans; [exact HA|]. set (y := _ * nth i widths 0) in *.
    assert (0 < y) by (eapply Rlt_le_trans; [exact Hc|exact HA]). unfold Rdiv at 1. rewrite <- (Rmult_1_r y) at 1. apply Rmult_le_compat_l; [lra|].
    rewrite <- Rinv_1. apply Rinv_le_contravar; lra.
  Qed.

  Lemma parts_ok m d : heads widths m d -> lit mats o m ->
    0 <= reflectance mats tables o m d /\ 0 <= passed mats tables o m d /\ reflectance mats tables o m d + passed mats tables o m d <= 1.
  Proof. exact (parts_range mats widths tables o media_optical (op_theta _ _ _ _ _ _ HO) start_range (fl_tables _ _ _ _ _ _ _ HF) m d). Qed.
  Lemma next_ok m d : heads widths m d -> lit mats o m -> 0 < passed mats tables o m d -> lit mats o (m + d).
  Proof. exact (lit_next mats widths tables o media_optical (op_theta _ _ _ _ _ _ HO) start_range media_critical (fl_beyond _ _ _ _ _ _ _ HF) m d). Qed.
  Lemma lit_first : lit mats o (start_mat o).
  Proof. exact (start_lit mats widths o media_optical (op_theta _ _ _ _ _ _ HO) start_range). Qed.

  Hypothesis Hn : (1 <= n)%nat.
  Hypothesis HT : - ln (c_thresh o) < INR n * c.
  Hypothesis Hnb : (n <= nb)%nat.   (* numbers kept for each ray *)

  Lemma thresh_left : exp (- (INR n * c)) < c_thresh o.
  Proof. rewrite <- (exp_ln (c_thresh o)) by (exact (op_thresh _ _ _ _ _ _ HO)). apply exp_increasing. lra. Qed.

  Lemma rsum_scale {A} (g : A -> R) k : forall l, rsum (map (fun a => g a / k) l) = 0 + / k * rsum (map g l).
  Proof. induction l as [|a l IH]; cbn [map rsum]; [ring|]. rewrite IH. unfold Rdiv. ring. Qed.

  Lemma calc_val q u : fractions u -> within widths q ->
    given q (calculate n (3 + fuel) surfs mats widths tables o (with_numbers w nb u)) =
    0 + / INR rays * rsum (map (fun k => val mats widths tables o q n 0 (start_mat o) (start_dir o) 1 (fun j => u (k * nb + j)%nat)) (seq 0 rays)).
  Proof.
    intros Hu Hq. pose proof (numbers_sound u Hu) as HO'. pose proof (numbers_flat u) as HF'.
    destruct (C175_ends S textures materials widths inc trn surfs tables o (with_numbers w nb u) c n fuel HB HO' HF' Hc HA Hn HT) as (t & rs & E).
    fold mats in E. rewrite E. cbn [given].
    destruct (C174_flat S textures materials widths inc trn surfs tables o (with_numbers w nb u) n fuel _ HB HO' HF' E) as (t' & rs' & e & Eo & Q).
    injection Eo as <- <-. cbv zeta in Q. destruct Q as (LN & _ & QR & R1 & R2 & _ & _ & R5 & _ & R7). fold rays in LN. rewrite LN in *.
    rewrite <- rsum_scale.
    assert (VAL : forall k, (k < rays)%nat -> val mats widths tables o q n 0 (start_mat o) (start_dir o) 1 (fun j => u (k * nb + j)%nat) =
       leaves mats widths tables o q (fun j => u (k * nb + j)%nat) (fst (e k)) (snd (e k)) +
       rsum (map (lost mats widths tables o q (fun j => u (k * nb + j)%nat)) (seq 0 (crossed (fst (e k)) (snd (e k)))))).
    { intros k Hk. destruct (nth_error rs k) as [fin|] eqn:F; [|apply nth_error_None in F; lia]. destruct (QR k fin F) as ((En1 & En2 & En3) & _).
      set (v := fun j => u (k * nb + j)%nat) in *. assert (Hv : fractions v) by (intros j; apply Hu).
      pose proof (val_is mats widths tables o q v Hv (fst (e k)) (snd (e k)) En1 En2 En3) as V.
      specialize (V n 0%nat (Nat.le_0_l _)). rewrite Nat.sub_0_r in V. cbn [planar_at fst snd seq map rsum] in V. rewrite Ropp_0, exp_0 in V. apply V.
      cbn [Nat.add]. exact (ends_soon mats widths tables o c next_ok Hc loss_least v Hv start_heads lit_first (fst (e k)) (snd (e k)) En1 En2 n Hn thresh_left). }
    assert (Z0 : forall A (l : list A), rsum (map (fun _ => 0) l) = 0) by (induction l as [|a l IH]; cbn [map rsum]; [reflexivity|rewrite IH; ring]).
    destruct q as [| |i|i]; cbn [reported_value].
    - rewrite R1. f_equal. apply map_ext_in. intros k Hk. apply in_seq in Hk. rewrite VAL by lia. unfold leaves, lost, out_front, out_rear, counts_at. rewrite Z0.
      destruct (snd (e k)); unfold Rdiv; [rewrite ?Rmult_1_r, ?Rmult_0_r, ?Rplus_0_r, ?Rmult_0_l; reflexivity ..].
    - rewrite R2. f_equal. apply map_ext_in. intros k Hk. apply in_seq in Hk. rewrite VAL by lia. unfold leaves, lost, out_front, out_rear, counts_at. rewrite Z0.
      destruct (snd (e k)); unfold Rdiv; [rewrite ?Rmult_1_r, ?Rmult_0_r, ?Rplus_0_r, ?Rmult_0_l; reflexivity ..].
    - rewrite R5 by exact Hq. f_equal. apply map_ext_in. intros k Hk. apply in_seq in Hk. rewrite VAL by lia. unfold leaves, lost, out_front, out_rear, counts_at, si_lost_in.
      replace (Z.of_nat (Datatypes.S i)) with (Z.of_nat i + 1)%Z by lia. unfold si_power, route. cbn [with_numbers w_ray dr_rnd].
      match goal with |- ?a / _ = (?b + ?d) / _ => replace (b + d) with d by (destruct (snd (e k)); ring) end. reflexivity.
    - rewrite R7 by exact Hq. f_equal. apply map_ext_in. intros k Hk. apply in_seq in Hk. rewrite VAL by lia. unfold leaves, lost, out_front, out_rear, counts_at. rewrite Z0.
      unfold route. cbn [with_numbers w_ray dr_rnd]. destruct (snd (e k)); try (unfold Rdiv; ring).
      unfold si_power, route. cbn [with_numbers w_ray dr_rnd]. fold mats. destruct (Z.eqb _ _); unfold Rdiv; ring.
  Qed.

  Lemma some_rays : 0 < INR rays.
  Proof.
    apply lt_0_INR. destruct (C175_ends S textures materials widths inc trn surfs tables o w c n fuel HB HO HF Hc HA Hn HT) as (t & rs & E).
    destruct (C174_flat S textures materials widths inc trn surfs tables o w n fuel _ HB HO HF E) as (t' & rs' & e & Eo & Q). cbv zeta in Q. destruct Q as (LN & Q & _).
    fold rays in LN. pose proof (op_rays _ _ _ _ _ _ HO). lia.
  Qed.

  Lemma calc_mean q X : within widths q -> balance mats widths tables o q X ->
    exists m, mean (rays * nb) (fun u => given q (calculate n (3 + fuel) surfs mats widths tables o (with_numbers w nb u))) m /\
      X (start_mat o) (start_dir o) - c_thresh o <= m <= X (start_mat o) (start_dir o).
  Proof.
    intros Hq HX.
    destruct (val_mean mats widths tables o c q parts_ok next_ok Hc loss_least (op_thresh _ _ _ _ _ _ HO) X HX n
      (start_mat o) (start_dir o) 1 start_heads lit_first Rlt_0_1) as (v & M & B).
    { rewrite Rmult_1_l. exact thresh_left. }
    exists v. split; [|lra].
    apply (mean_ext _ (fun u => 0 + / INR rays * rsum (map (fun k => val mats widths tables o q n 0 (start_mat o) (start_dir o) 1 (fun j => u (k * nb + j)%nat)) (seq 0 rays)))).
    - intros u Hu. symmetry. now apply calc_val.
    - pose proof some_rays as R0.
      replace v with (0 + / INR rays * (INR rays * v)) by (field; lra). apply mean_affine. replace nb with (n + (nb - n))%nat by lia. exact (mean_blocks _ _ v (mean_first n (nb - n) _ v M) rays).
  Qed.

  Definition first_back (u : nat -> R) : R := if Rleb (u 0%nat) (reflectance mats tables o 0 1) then 1 else 0.

  Lemma calc_R0 u : start_mat o = 0%Z -> start_dir o = 1%Z -> fractions u ->
    given_R0 (calculate n (3 + fuel) surfs mats widths tables o (with_numbers w nb u)) =
    0 + / INR rays * rsum (map (fun k => first_back (fun j => u (k * nb + j)%nat)) (seq 0 rays)).
  Proof.
    intros S0 S1 Hu. pose proof (numbers_sound u Hu) as HO'. pose proof (numbers_flat u) as HF'.
    destruct (C175_ends S textures materials widths inc trn surfs tables o (with_numbers w nb u) c n fuel HB HO' HF' Hc HA Hn HT) as (t & rs & E).
    fold mats in E. rewrite E. cbn [given_R0].
    destruct (C174_flat S textures materials widths inc trn surfs tables o (with_numbers w nb u) n fuel _ HB HO' HF' E) as (t' & rs' & e & Eo & Q).
    injection Eo as <- <-. cbv zeta in Q. destruct Q as (LN & _ & QR & _ & _ & R3 & _). fold rays in LN. rewrite LN in *.
    rewrite <- rsum_scale, R3. f_equal. apply map_ext_in. intros k Hk. apply in_seq in Hk.
    destruct (nth_error rs k) as [fin|] eqn:F; [|apply nth_error_None in F; lia]. destruct (QR k fin F) as ((En1 & En2 & En3) & _).
    set (v := fun j => u (k * nb + j)%nat) in *. assert (Hv : fractions v) by (intros j; apply Hu).
    pose proof (fate_cases mats tables o v Hv 0 (start_mat o) (start_dir o) eq_refl) as FC.
    rewrite S0, S1 in FC. unfold first_back. fold mats in En1, En2, En3. specialize (En2 0%nat). unfold fate_of, route in En1, En2, En3. cbn [with_numbers w_ray dr_rnd] in En1, En2, En3. fold v in En1, En2, En3. rewrite S0, S1 in *.
    cbv zeta in FC. destruct (next_fate _ _ _ _ _ _ _ _) as [| |A] eqn:EF.
    - destruct FC as [FC ST]. rewrite FC. destruct (fst (e k)) as [|p] eqn:Ef.
      + destruct (snd (e k)).
        * cbn [Nat.eqb]. unfold si_power. cbn [seq map rsum]. now rewrite Ropp_0, exp_0.
        * exfalso. rewrite ST in En3. injection En3. lia.
        * discriminate (proj2 (En2 _ (le_n _)) (conj eq_refl eq_refl)).
        * exfalso. rewrite ST in En3. cbn [fst] in En3. lia.
      + exfalso. destruct (En1 1%nat ltac:(lia)) as [I _]. rewrite ST in I. cbn [fst] in I. lia.
    - destruct FC as (FC & _ & ST). rewrite FC. destruct (snd (e k)); try (unfold Rdiv; ring). destruct (fst (e k)) as [|p] eqn:Ef; cbn [Nat.eqb]; [|unfold Rdiv; ring].
      exfalso. rewrite ST in En3. injection En3. lia.
    - destruct FC as (FC & _). rewrite FC. destruct (proj1 (En2 A (Nat.le_0_l _)) eq_refl) as [_ ->]. unfold Rdiv. ring.
  Qed.

  Lemma calc_R0_mean : start_mat o = 0%Z -> start_dir o = 1%Z ->
    mean (rays * nb) (fun u => given_R0 (calculate n (3 + fuel) surfs mats widths tables o (with_numbers w nb u))) (reflectance mats tables o 0 1).
  Proof.
    intros S0 S1. assert (HH : heads widths 0 1) by (pose proof start_heads as H; now rewrite S0, S1 in H).
    pose proof lit_first as SL. rewrite S0 in SL. pose proof (parts_ok 0 1 HH SL) as RR.
    assert (M : forall p, (1 <= p)%nat -> mean p first_back (reflectance mats tables o 0 1)).
    { intros [|p] Hp; [lia|]. replace (reflectance mats tables o 0 1) with (reflectance mats tables o 0 1 * 1 + (1 - reflectance mats tables o 0 1) * 0) by ring.
      apply (mean_cut p first_back (fun _ => 1) (fun _ => 0)); [lra|intros; apply mean_const|intros; apply mean_const|auto]. }
    apply (mean_ext _ (fun u => 0 + / INR rays * rsum (map (fun k => first_back (fun j => u (k * nb + j)%nat)) (seq 0 rays)))).
    - intros u Hu. symmetry. now apply calc_R0.
    - pose proof some_rays as R0.
      replace (reflectance mats tables o 0 1) with (0 + / INR rays * (INR rays * reflectance mats tables o 0 1)) by (field; lra). apply mean_affine. exact (mean_blocks nb _ _ (M nb ltac:(lia)) rays).
  Qed.
End Calc.
